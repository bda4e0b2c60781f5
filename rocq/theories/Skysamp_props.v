(** C117, continued: the averages of C117 and C118 are the expectations over the samples that distributions.Cosine and
    torch.distributions.Uniform draw, as functions of independent uniform variables. *)
From Coq Require Import Reals Lra Lia List ZArith String.
From Coquelicot Require Import Coquelicot.
From Verif Require Import Base Tensor Rutil Dist_model Gw_model Gw_spec Skyavg_props Skysnr_props.
Import ListNotations.
Local Open Scope R_scope.

(** ** Specification *)
(** expectation of f (theta, psi, phi) over dec = Cosine().rsample() (theta = pi/2 - dec), psi = Uniform(0, pi).rsample(),
    phi = Uniform(-pi, pi).rsample(), the uniform variables behind the three being independent *)
Definition expectation (f : R -> R -> R -> R) (v : R) : Prop :=
  exists (h : R -> R -> R) (g : R -> R),
    (forall u1 u3 : R, is_RInt (fun u2 : R => f (PI / 2 - cos_rsample (- PI / 2) (PI / 2) u1) (uni_rsample 0 PI u2) (uni_rsample (- PI) PI u3)) 0 1 (h u1 u3)) /\
    (forall u1 : R, is_RInt (fun u3 : R => h u1 u3) 0 1 (g u1)) /\
    is_RInt g 0 1 v.

(** ** asin is continuous on the whole line (it is constant outside [-1, 1]) *)
Lemma asin_ge_1 x : 1 <= x -> asin x = PI / 2.
Proof. intros H. unfold asin. destruct (Rle_dec x (-1)); [lra|]. destruct (Rle_dec 1 x); [reflexivity|lra]. Qed.
Lemma asin_le_m1 x : x <= -1 -> asin x = - (PI / 2).
Proof. intros H. unfold asin. destruct (Rle_dec x (-1)); [reflexivity|lra]. Qed.
Lemma asin_increasing x y : x <= y -> asin x <= asin y.
Proof.
  intros H. destruct (Rle_dec 1 y) as [Hy|Hy]; [rewrite (asin_ge_1 y Hy); apply asin_bound|].
  destruct (Rle_dec x (-1)) as [Hx|Hx]; [rewrite (asin_le_m1 x Hx); apply asin_bound|].
  destruct (Rle_dec (asin x) (asin y)) as [K|K]; [exact K|exfalso].
  pose proof (asin_bound x). pose proof (asin_bound y).
  assert (L : sin (asin y) < sin (asin x)) by (apply sin_increasing_1; lra). rewrite !sin_asin in L by lra. lra.
Qed.
Lemma asin_continuous (x : R) : continuous asin x.
Proof.
  pose proof (asin_bound x) as Bx.
  assert (UP : forall eps, 0 < eps -> exists d, 0 < d /\ forall y, y < x + d -> asin y < asin x + eps).
  { intros eps He. destruct (Rlt_dec (PI / 2) (asin x + eps / 2)) as [L|L].
    { exists 1. split; [lra|]. intros y _. pose proof (asin_bound y). lra. }
    set (b := asin x + eps / 2) in *. assert (Hb : x < sin b).
    { destruct (Rlt_dec x (sin b)) as [|N]; [assumption|exfalso]. assert (K : asin (sin b) <= asin x) by (apply asin_increasing; lra).
      rewrite asin_sin in K by (unfold b in *; lra). unfold b in K. lra. }
    exists (sin b - x). split; [lra|]. intros y Hy. assert (K : asin y <= asin (sin b)) by (apply asin_increasing; lra).
    rewrite asin_sin in K by (unfold b in *; lra). unfold b in K. lra. }
  assert (LO : forall eps, 0 < eps -> exists d, 0 < d /\ forall y, x - d < y -> asin x - eps < asin y).
  { intros eps He. destruct (Rlt_dec (asin x - eps / 2) (- (PI / 2))) as [L|L].
    { exists 1. split; [lra|]. intros y _. pose proof (asin_bound y). lra. }
    set (b := asin x - eps / 2) in *. assert (Hb : sin b < x).
    { destruct (Rlt_dec (sin b) x) as [|N]; [assumption|exfalso]. assert (K : asin x <= asin (sin b)) by (apply asin_increasing; lra).
      rewrite asin_sin in K by (unfold b in *; lra). unfold b in K. lra. }
    exists (x - sin b). split; [lra|]. intros y Hy. assert (K : asin (sin b) <= asin y) by (apply asin_increasing; lra).
    rewrite asin_sin in K by (unfold b in *; lra). unfold b in K. lra. }
  apply (proj2 (filterlim_locally asin (asin x))). intros eps.
  destruct (UP eps (cond_pos eps)) as (d1 & P1 & H1). destruct (LO eps (cond_pos eps)) as (d2 & P2 & H2).
  assert (P : 0 < Rmin d1 d2) by (apply Rmin_glb_lt; assumption). exists (mkposreal _ P). intros y Hy.
  assert (Hy' : Rabs (y - x) < Rmin d1 d2) by exact Hy. apply Rabs_def2 in Hy'. pose proof (Rmin_l d1 d2). pose proof (Rmin_r d1 d2).
  change (Rabs (asin y - asin x) < eps). specialize (H1 y ltac:(lra)). specialize (H2 y ltac:(lra)). apply Rabs_def1; lra.
Qed.

(** ** Expectations under the samplers *)
Theorem cosine_expectation (low high : R) (g : R -> R) (v : R) : - (PI / 2) <= low -> low < high -> high <= PI / 2 ->
  (forall x : R, continuous g x) -> is_RInt (fun x : R => cos x / (sin high - sin low) * g x) low high v ->
  is_RInt (fun u : R => g (cos_rsample low high u)) 0 1 v.
Proof.
  intros Hl Hlh Hh Cg I. assert (Hs : sin low < sin high) by (apply sin_increasing_1; lra).
  set (k := sin high - sin low) in *. assert (Hk : 0 < k) by (unfold k; lra).
  set (F := fun u : R => g (cos_rsample low high u)). set (q := fun x : R => (sin x - sin low) / k).
  assert (CF : forall u : R, continuous F u).
  { intros u. unfold F. apply (continuous_comp (fun u : R => cos_rsample low high u) g); [|apply Cg].
    unfold cos_rsample. apply (continuous_comp (fun u : R => u / cos_norm low high + sin low) asin); [|apply asin_continuous].
    apply (ex_derive_continuous (V := R_NormedModule)). auto_derive. exact Logic.I. }
  assert (D : forall x : R, is_derive q x (cos x / k)) by (intros x; unfold q; auto_derive; [exact Logic.I|field; lra]).
  pose proof (is_RInt_comp (V := R_CompleteNormedModule) F q (fun x : R => cos x / k) low high (fun x _ => CF (q x))) as E.
  assert (E' := E (fun x _ => conj (D x) (ex_derive_continuous (V := R_NormedModule) (fun x : R => cos x / k) x ltac:(auto_derive; exact Logic.I)))). clear E.
  replace (q low) with 0 in E' by (unfold q; field; lra). replace (q high) with 1 in E' by (unfold q, k; field; lra).
  assert (EV : RInt F 0 1 = v).
  { rewrite <- (is_RInt_unique _ _ _ _ I). symmetry. apply is_RInt_unique. eapply is_RInt_ext; [|exact E'].
    intros x Hx. rewrite Rmin_left, Rmax_right in Hx by lra.
    assert (K : F (q x) = g x).
    { unfold F, cos_rsample, cos_norm, q. fold k. replace ((sin x - sin low) / k / (1 / k) + sin low) with (sin x) by (field; lra). rewrite asin_sin by lra. reflexivity. }
    cbn beta. rewrite K. reflexivity. }
  rewrite <- EV. apply (RInt_correct (V := R_CompleteNormedModule)). apply (ex_RInt_continuous (V := R_CompleteNormedModule)). intros; apply CF.
Qed.
Theorem uniform_expectation (low high : R) (g : R -> R) (v : R) : low < high ->
  is_RInt g low high ((high - low) * v) -> is_RInt (fun u : R => g (uni_rsample low high u)) 0 1 v.
Proof.
  intros H I. set (k := high - low) in *. assert (Hk : 0 < k) by (unfold k; lra).
  apply (is_RInt_ext (fun u : R => / k * (k * g (k * u + low)))).
  { intros u _. unfold uni_rsample. fold k. rewrite (Rplus_comm low), (Rmult_comm u k). rfield. lra. }
  replace v with (/ k * (k * v)) by (field; lra). apply is_RInt_scl.
  apply (is_RInt_comp_lin (V := R_NormedModule) g k low 0 1). replace (k * 0 + low) with low by ring. replace (k * 1 + low) with high by (unfold k; ring). exact I.
Qed.
(** every average of C117 and C118 is the expectation over the drawn samples *)
Theorem sky_mean_expectation f v : sky_mean f v -> expectation f v.
Proof.
  intros (h & g & A & B & Cg & K). pose proof PI_RGT_0 as P.
  exists (fun u1 u3 => h (PI / 2 - cos_rsample (- PI / 2) (PI / 2) u1) (uni_rsample (- PI) PI u3)), (fun u1 => g (PI / 2 - cos_rsample (- PI / 2) (PI / 2) u1)).
  split; [|split].
  - intros u1 u3. apply (uniform_expectation 0 PI (fun s => f (PI / 2 - cos_rsample (- PI / 2) (PI / 2) u1) s (uni_rsample (- PI) PI u3))); [lra|].
    replace (PI - 0) with PI by ring. apply A.
  - intros u1. apply (uniform_expectation (- PI) PI (fun p => h (PI / 2 - cos_rsample (- PI / 2) (PI / 2) u1) p)); [lra|].
    replace (PI - - PI) with (2 * PI) by ring. apply B.
  - apply (cosine_expectation (- PI / 2) (PI / 2) (fun d => g (PI / 2 - d))); try lra.
    + intros x. apply (continuous_comp (fun d : R => PI / 2 - d) g); [|apply Cg].
      apply (ex_derive_continuous (V := R_NormedModule)). auto_derive. exact Logic.I.
    + replace (sin (PI / 2) - sin (- PI / 2)) with 2 by (replace (- PI / 2) with (- (PI / 2)) by field; rewrite sin_neg, sin_PI2; ring).
      replace (- PI / 2) with (- (PI / 2)) by field. exact K.
Qed.
Theorem sine_expectation (low high : R) (g : R -> R) (v : R) : 0 <= low -> low < high -> high <= PI ->
  (forall x : R, continuous g x) -> is_RInt (fun x : R => sin x / (cos low - cos high) * g x) low high v ->
  is_RInt (fun u : R => g (sin_rsample low high u)) 0 1 v.
Proof.
  intros Hl Hlh Hh Cg I.
  assert (S : forall x, sin (x - PI / 2) = - cos x) by (intros x; rewrite sin_minus, cos_PI2, sin_PI2; ring).
  assert (K := cosine_expectation (low - PI / 2) (high - PI / 2) (fun x => g (PI / 2 + 1 * x)) v ltac:(lra) ltac:(lra) ltac:(lra)).
  apply K; clear K.
  - intros x. apply (continuous_comp (fun x : R => PI / 2 + 1 * x) g); [|apply Cg].
    apply (ex_derive_continuous (V := R_NormedModule)). auto_derive. exact Logic.I.
  - rewrite !S. apply (is_RInt_ext (fun x : R => 1 * (sin (1 * x + PI / 2) / (cos low - cos high) * g (1 * x + PI / 2)))).
    { intros x _. rewrite !Rmult_1_l, (Rplus_comm (PI / 2) x). replace (sin (x + PI / 2)) with (cos x) by (rewrite sin_plus, cos_PI2, sin_PI2; ring).
      replace (- cos high - - cos low) with (cos low - cos high) by ring. reflexivity. }
    apply (is_RInt_comp_lin (V := R_NormedModule) (fun x : R => sin x / (cos low - cos high) * g x) 1 (PI / 2) (low - PI / 2) (high - PI / 2)).
    replace (1 * (low - PI / 2) + PI / 2) with low by ring. replace (1 * (high - PI / 2) + PI / 2) with high by ring. exact I.
Qed.
Example cosine_expectation_example : is_RInt (fun u : R => sin (cos_rsample 0 (PI / 2) u)) 0 1 (1 / 2) /\
  is_RInt (fun u : R => cos (sin_rsample 0 PI u)) 0 1 0.
Proof.
  pose proof PI_RGT_0 as P. split.
  - apply (cosine_expectation 0 (PI / 2) sin); try lra.
    + intros x. apply (ex_derive_continuous (V := R_NormedModule)). auto_derive. exact Logic.I.
    + rewrite sin_PI2, sin_0. apply (is_RInt_antider _ (fun x : R => sin x ^ 2 / 2)); [intros x; auto_derive; [exact Logic.I|field]|
        intros x; auto_derive; repeat split|]. cbn beta. rewrite sin_PI2, sin_0. field.
  - apply (sine_expectation 0 PI cos); try lra.
    + intros x. apply (ex_derive_continuous (V := R_NormedModule)). auto_derive. exact Logic.I.
    + rewrite cos_PI, cos_0. apply (is_RInt_antider _ (fun x : R => sin x ^ 2 / 4)); [intros x; auto_derive; [exact Logic.I|field]|
        intros x; auto_derive; repeat split|]. cbn beta. rewrite sin_PI, sin_0. field.
Qed.
