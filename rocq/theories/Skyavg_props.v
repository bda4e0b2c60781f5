(** C117: antenna responses averaged over the sky.  Sources drawn uniformly over the sphere with a uniform
    polarisation angle: dec from distributions.Cosine (density cos(dec)/2 on [-pi/2, pi/2]), phi uniform on
    [-pi, pi], psi uniform on [0, pi], theta = pi/2 - dec.  No model of its own: Gw_model. *)
From Coq Require Import Reals Lra Lia List ZArith String.
From Coquelicot Require Import Coquelicot.
From Verif Require Import Base Tensor Rutil Gw_model Gw_spec Gw_props Ifo_props.
Import ListNotations.
Local Open Scope R_scope.

(** ** Specification *)
(** [f theta psi phi] is integrable and its mean over the sky and the polarisation angle is [v] (and the mean at fixed
    declination varies continuously with it) *)
Definition sky_mean (f : R -> R -> R -> R) (v : R) : Prop :=
  exists (h : R -> R -> R) (g : R -> R),
    (forall theta phi : R, is_RInt (fun psi : R => f theta psi phi) 0 PI (PI * h theta phi)) /\
    (forall theta : R, is_RInt (fun phi : R => h theta phi) (- PI) PI (2 * PI * g theta)) /\
    (forall theta : R, continuous g theta) /\
    is_RInt (fun dec : R => cos dec / 2 * g (PI / 2 - dec)) (- (PI / 2)) (PI / 2) v.
(** entry for detector j of compute_antenna_responses for one source and one mode *)
Definition response (D : tensor R) (j : nat) (mode : string) (theta psi phi : R) : R :=
  match compute_antenna_responses (mk [1%nat] (fun _ => theta)) (mk [1%nat] (fun _ => psi)) (mk [1%nat] (fun _ => phi)) D [mode] with
  | Ok r => elt r [0; 0; j]%nat
  | Err _ => 0
  end.
(** symmetric part, double contraction and trace of 3 x 3 tensors *)
Definition sym (A : nat -> nat -> R) (x y : nat) : R := (A x y + A y x) / 2.
Definition contract (A B : nat -> nat -> R) : R := Rsum 3 (fun x => Rsum 3 (fun y => A x y * B x y)).
Definition trace (A : nat -> nat -> R) : R := Rsum 3 (fun x => A x x).
(** tensor of detector j *)
Definition det (D : tensor R) (j x y : nat) : R := elt D [j; x; y].

(** ** Polynomials in cos phi, sin phi, cos theta, sin theta *)
Definition mono : Type := Z * (nat * nat * nat * nat).
Definition mev (m : mono) (th ph : R) : R :=
  let '(k, (a, b, d, e)) := m in IZR k * (cos ph ^ a * sin ph ^ b) * (cos th ^ d * sin th ^ e).
Definition poly := list mono.
Fixpoint pev (p : poly) (th ph : R) : R := match p with [] => 0 | m :: p' => mev m th ph + pev p' th ph end.
Definition mmul (m n : mono) : mono :=
  let '(k, (a, b, d, e)) := m in let '(k', (a', b', d', e')) := n in ((k * k')%Z, (a + a', b + b', d + d', e + e')%nat).
Definition pmul (p q : poly) : poly := flat_map (fun m => map (mmul m) q) p.
Definition pscale (z : Z) (p : poly) : poly := map (fun m => ((z * fst m)%Z, snd m)) p.

Lemma pev_app p q th ph : pev (p ++ q) th ph = pev p th ph + pev q th ph.
Proof. induction p; cbn; [ring|]. rewrite IHp. ring. Qed.
Lemma mev_mul m n th ph : mev (mmul m n) th ph = mev m th ph * mev n th ph.
Proof. destruct m as [k [[[a b] d] e]], n as [k' [[[a' b'] d'] e']]. cbn [mmul mev]. rewrite mult_IZR, !pow_add. ring. Qed.
Lemma pev_mul p q th ph : pev (pmul p q) th ph = pev p th ph * pev q th ph.
Proof.
  induction p as [|m p IH]; [cbn; ring|]. change (pmul (m :: p) q) with (map (mmul m) q ++ pmul p q). rewrite pev_app, IH. cbn [pev].
  assert (E : pev (map (mmul m) q) th ph = mev m th ph * pev q th ph).
  { clear. induction q as [|n q IH]; cbn; [ring|]. rewrite IH, mev_mul. ring. }
  rewrite E. ring.
Qed.
Lemma pev_scale z p th ph : pev (pscale z p) th ph = IZR z * pev p th ph.
Proof.
  induction p as [|[k [[[a b] d] e]] p IH]; [cbn; ring|].
  change (pscale z ((k, (a, b, d, e)) :: p)) with (((z * k)%Z, (a, b, d, e)) :: pscale z p). cbn [pev]. rewrite IH. cbn [mev]. rewrite mult_IZR. ring.
Qed.

(** 8 * mean of cos^a sin^b over phi *)
Definition mphi (a b : nat) : option Z :=
  match a, b with
  | 0, 0 => Some 8%Z | 2, 0 => Some 4%Z | 0, 2 => Some 4%Z | 4, 0 => Some 3%Z | 0, 4 => Some 3%Z | 2, 2 => Some 1%Z
  | 1, 0 | 0, 1 | 1, 1 | 3, 0 | 0, 3 | 2, 1 | 1, 2 | 3, 1 | 1, 3 => Some 0%Z
  | _, _ => None
  end%nat.
(** 15 * mean of cos^d sin^e over theta *)
Definition mtheta (d e : nat) : option Z :=
  match d, e with
  | 0, 0 => Some 15%Z | 2, 0 => Some 5%Z | 0, 2 => Some 10%Z | 4, 0 => Some 3%Z | 2, 2 => Some 2%Z | 0, 4 => Some 8%Z
  | 1, 0 | 3, 0 | 1, 2 => Some 0%Z
  | _, _ => None
  end%nat.
Definition mmean (m : mono) : option Z :=
  let '(k, (a, b, d, e)) := m in
  match mphi a b with
  | Some 0%Z => Some 0%Z
  | Some z => match mtheta d e with Some w => Some (k * z * w)%Z | None => None end
  | None => None
  end.
(** 120 * the mean *)
Fixpoint pmean (p : poly) : option Z :=
  match p with
  | [] => Some 0%Z
  | m :: p' => match mmean m, pmean p' with Some a, Some b => Some (a + b)%Z | _, _ => None end
  end.

Lemma trig1 x : sin x * sin x = 1 - cos x * cos x.
Proof. pose proof (sin2_cos2 x) as H. unfold Rsqr in H. lra. Qed.
Lemma cos_mPI : cos (- PI) = -1. Proof. rewrite cos_neg. exact cos_PI. Qed.
Lemma sin_mPI : sin (- PI) = 0. Proof. rewrite sin_neg, sin_PI. ring. Qed.

(** antiderivatives of cos^a sin^b *)
Lemma is_RInt_antider (f F : R -> R) (a b v : R) : (forall x : R, is_derive F x (f x)) -> (forall x : R, ex_derive f x) ->
  F b - F a = v -> is_RInt f a b v.
Proof.
  intros H C0 <-. apply (is_RInt_derive (V := R_CompleteNormedModule) F f a b); intros; [apply H|].
  apply (ex_derive_continuous (V := R_NormedModule)), C0.
Qed.

Ltac anti F := apply (is_RInt_antider _ F);
  [intros x; let E := fresh in pose proof (trig1 x) as E; auto_derive; [repeat split|]; cbn [pow]; field [E]
  |intros x; auto_derive; repeat split
  |cbn beta; rewrite ?cos_mPI, ?cos_PI, ?sin_mPI, ?sin_PI; field].

Lemma mphi_ok a b z : mphi a b = Some z -> is_RInt (fun x : R => cos x ^ a * sin x ^ b) (- PI) PI (2 * PI * (IZR z / 8)).
Proof.
  intros H. unfold mphi in H.
  destruct a as [|[|[|[|[|a]]]]], b as [|[|[|[|[|b]]]]]; try discriminate; injection H as <-.
  - anti (fun x : R => x).
  - anti (fun x : R => - cos x).
  - anti (fun x : R => (x - sin x * cos x) / 2).
  - anti (fun x : R => - cos x + cos x ^ 3 / 3).
  - anti (fun x : R => 3 * x / 8 - 3 * sin x * cos x / 8 - sin x ^ 3 * cos x / 4).
  - anti (fun x : R => sin x).
  - anti (fun x : R => sin x ^ 2 / 2).
  - anti (fun x : R => sin x ^ 3 / 3).
  - anti (fun x : R => sin x ^ 4 / 4).
  - anti (fun x : R => (x + sin x * cos x) / 2).
  - anti (fun x : R => - cos x ^ 3 / 3).
  - anti (fun x : R => x / 8 - sin x * cos x * (cos x ^ 2 - sin x ^ 2) / 8).
  - anti (fun x : R => sin x - sin x ^ 3 / 3).
  - anti (fun x : R => - cos x ^ 4 / 4).
  - anti (fun x : R => 3 * x / 8 + 3 * sin x * cos x / 8 + sin x * cos x ^ 3 / 4).
Qed.

Ltac anti2 HP F := apply (is_RInt_antider _ F);
  [intros x; let E := fresh in pose proof (trig1 x) as E; auto_derive; [repeat split|]; cbn [pow]; field [E]
  |intros x; auto_derive; repeat split
  |cbn beta; rewrite ?HP, ?sin_PI2; field].
Lemma mtheta_ok d e w : mtheta d e = Some w ->
  is_RInt (fun dec : R => cos dec / 2 * (cos (PI / 2 - dec) ^ d * sin (PI / 2 - dec) ^ e)) (- (PI / 2)) (PI / 2) (IZR w / 15).
Proof.
  intros H. unfold mtheta in H.
  apply (is_RInt_ext (fun x : R => cos x / 2 * (sin x ^ d * cos x ^ e))).
  { intros x _. rewrite cos_shift, sin_shift. reflexivity. }
  assert (HP : sin (- (PI / 2)) = -1) by (rewrite sin_neg, sin_PI2; ring).
  assert (HC : cos (- (PI / 2)) = 0) by (rewrite cos_neg, cos_PI2; ring).
  destruct d as [|[|[|[|[|d]]]]], e as [|[|[|[|[|e]]]]]; try discriminate; injection H as <-.
  - anti2 HP (fun x : R => sin x / 2).
  - anti2 HP (fun x : R => (sin x - sin x ^ 3 / 3) / 2).
  - anti2 HP (fun x : R => (sin x - 2 * sin x ^ 3 / 3 + sin x ^ 5 / 5) / 2).
  - anti2 HP (fun x : R => sin x ^ 2 / 4).
  - anti2 HP (fun x : R => sin x ^ 2 / 4 - sin x ^ 4 / 8).
  - anti2 HP (fun x : R => sin x ^ 3 / 6).
  - anti2 HP (fun x : R => (sin x ^ 3 / 3 - sin x ^ 5 / 5) / 2).
  - anti2 HP (fun x : R => sin x ^ 4 / 8).
  - anti2 HP (fun x : R => sin x ^ 5 / 10).
Qed.

(** ** Means *)
Ltac rfield := match goal with |- ?a = ?b => change (@eq R a b) end; field.
Lemma is_RInt_lin (f g : R -> R) (a b k u v : R) : is_RInt f a b u -> is_RInt g a b v -> is_RInt (fun x : R => k * f x + g x) a b (k * u + v).
Proof. intros F G. apply (is_RInt_plus (V := R_NormedModule)); [apply (is_RInt_scal (V := R_NormedModule)), F|exact G]. Qed.
Lemma is_RInt_zero (a b : R) : is_RInt (fun _ : R => 0) a b 0.
Proof.
  pose proof (is_RInt_const (V := R_NormedModule) a b 0) as H. unfold scal in H. cbn in H. unfold mult in H. cbn in H.
  rewrite Rmult_0_r in H. exact H.
Qed.
Lemma is_RInt_scl (f : R -> R) (a b k u : R) : is_RInt f a b u -> is_RInt (fun x : R => k * f x) a b (k * u).
Proof. intros F. apply (is_RInt_scal (V := R_NormedModule)), F. Qed.

(** mean of a function of theta and phi alone *)
Definition dir_mean (h : R -> R -> R) (v : R) : Prop :=
  exists g : R -> R, (forall theta : R, is_RInt (fun phi : R => h theta phi) (- PI) PI (2 * PI * g theta)) /\
    (forall theta : R, continuous g theta) /\ is_RInt (fun dec : R => cos dec / 2 * g (PI / 2 - dec)) (- (PI / 2)) (PI / 2) v.
Lemma cont_lin (g g' : R -> R) (k t : R) : continuous g t -> continuous g' t -> continuous (fun t : R => k * g t + g' t) t.
Proof.
  intros A B. apply (continuous_plus (V := R_NormedModule) (fun t : R => k * g t) g'); [|exact B].
  apply (continuous_scal_r (K := R_AbsRing) (V := R_NormedModule) k g). exact A.
Qed.
Lemma cont_const (k t : R) : continuous (fun _ : R => k) t. Proof. apply continuous_const. Qed.
Lemma dir_lin h1 h2 k v1 v2 : dir_mean h1 v1 -> dir_mean h2 v2 -> dir_mean (fun t p => k * h1 t p + h2 t p) (k * v1 + v2).
Proof.
  intros [g1 [A1 [C1 B1]]] [g2 [A2 [C2 B2]]]. exists (fun t => k * g1 t + g2 t). split; [|split; [intros; apply cont_lin; auto|]].
  - intros t. replace (2 * PI * (k * g1 t + g2 t)) with (k * (2 * PI * g1 t) + 2 * PI * g2 t) by ring. apply is_RInt_lin; [apply A1|apply A2].
  - apply (is_RInt_ext (fun dec : R => k * (cos dec / 2 * g1 (PI / 2 - dec)) + cos dec / 2 * g2 (PI / 2 - dec))).
    { intros x _. rfield. } apply is_RInt_lin; assumption.
Qed.
Lemma dir_zero : dir_mean (fun _ _ => 0) 0.
Proof.
  exists (fun _ => 0). split; [intros; rewrite Rmult_0_r; apply is_RInt_zero|]. split; [intros; apply cont_const|].
  apply (is_RInt_ext (fun _ : R => 0)); [intros; rfield|apply is_RInt_zero].
Qed.
Lemma dir_ext h h' v : (forall t p, h t p = h' t p) -> dir_mean h v -> dir_mean h' v.
Proof. intros E [g [A [Cg B]]]. exists g. split; [|split; [exact Cg|exact B]]. intros t. eapply is_RInt_ext; [|apply A]. intros; apply E. Qed.
Lemma dir_eq h v v' : v = v' -> dir_mean h v -> dir_mean h v'. Proof. intros ->; auto. Qed.
Lemma dir_sum n (h : nat -> R -> R -> R) v : (forall i, (i < n)%nat -> dir_mean (h i) (v i)) ->
  dir_mean (fun t p => Rsum n (fun i => h i t p)) (Rsum n v).
Proof.
  induction n as [|n IH]; intros H; [apply dir_zero|]. cbn [Rsum].
  apply (dir_ext (fun t p => 1 * h n t p + Rsum n (fun i => h i t p))); [intros; rfield|].
  apply (dir_eq _ (1 * v n + Rsum n v)); [ring|]. apply dir_lin; [apply H; lia|apply IH; intros; apply H; lia].
Qed.

Lemma mono_cont (k : R) (d e : nat) (t : R) : continuous (fun t : R => k * (cos t ^ d * sin t ^ e)) t.
Proof. apply (ex_derive_continuous (V := R_NormedModule)). auto_derive. exact I. Qed.
Lemma mmean_ok m z : mmean m = Some z -> dir_mean (mev m) (IZR z / 120).
Proof.
  destruct m as [k [[[a b] d] e]]. unfold mmean. destruct (mphi a b) as [w|] eqn:E1; [|discriminate].
  assert (A := mphi_ok a b w E1).
  assert (P : forall theta, is_RInt (fun phi : R => mev (k, (a, b, d, e)) theta phi) (- PI) PI (2 * PI * (IZR k * (IZR w / 8) * (cos theta ^ d * sin theta ^ e)))).
  { intros t. apply (is_RInt_ext (fun x : R => (IZR k * (cos t ^ d * sin t ^ e)) * (cos x ^ a * sin x ^ b))); [intros; cbn [mev]; rfield|].
    replace (2 * PI * (IZR k * (IZR w / 8) * (cos t ^ d * sin t ^ e))) with ((IZR k * (cos t ^ d * sin t ^ e)) * (2 * PI * (IZR w / 8))) by field.
    apply is_RInt_scl, A. }
  intros H. assert (H' : z = 0%Z /\ w = 0%Z \/ exists w2, mtheta d e = Some w2 /\ z = (k * w * w2)%Z).
  { destruct w as [|q|q]; [left; split; congruence|right|right]; (destruct (mtheta d e) as [w2|]; [exists w2; split; congruence|discriminate]). }
  clear H. destruct H' as [[-> ->]|[w2 [E2 ->]]].
  - exists (fun t => IZR k * (IZR 0 / 8) * (cos t ^ d * sin t ^ e)). split; [exact P|]. split; [apply mono_cont|].
    apply (is_RInt_ext (fun _ : R => 0)); [intros; rfield|]. replace (0 / 120) with 0 by field. apply is_RInt_zero.
  - exists (fun t => IZR k * (IZR w / 8) * (cos t ^ d * sin t ^ e)). split; [exact P|]. split; [apply mono_cont|].
    apply (is_RInt_ext (fun x : R => (IZR k * (IZR w / 8)) * (cos x / 2 * (cos (PI / 2 - x) ^ d * sin (PI / 2 - x) ^ e)))); [intros; rfield|].
    replace (IZR (k * w * w2) / 120) with (IZR k * (IZR w / 8) * (IZR w2 / 15)) by (rewrite !mult_IZR; field).
    apply is_RInt_scl, mtheta_ok, E2.
Qed.
Lemma pmean_ok p z : pmean p = Some z -> dir_mean (pev p) (IZR z / 120).
Proof.
  revert z. induction p as [|m p IH]; cbn; intros z H.
  - injection H as <-. apply (dir_eq _ 0); [field|]. apply dir_zero.
  - destruct (mmean m) as [a|] eqn:E; [|discriminate]. destruct (pmean p) as [b|]; [|discriminate]. injection H as <-.
    apply (dir_ext (fun t q => 1 * mev m t q + pev p t q)); [intros; rfield|].
    apply (dir_eq _ (1 * (IZR a / 120) + IZR b / 120)); [rewrite plus_IZR; field|]. apply dir_lin; [apply mmean_ok, E|apply IH; reflexivity].
Qed.

(** ** The polarisation tensors at psi = 0 as polynomials *)
Definition U (x : nat) : poly := match x with 0 => [(1%Z, (1, 0, 1, 0))] | 1 => [(1%Z, (0, 1, 1, 0))] | _ => [((-1)%Z, (0, 0, 0, 1))] end%nat.
Definition W (x : nat) : poly := match x with 0 => [((-1)%Z, (0, 1, 0, 0))] | 1 => [(1%Z, (1, 0, 0, 0))] | _ => [] end%nat.
Definition Pp (x y : nat) : poly := pmul (W x) (W y) ++ pscale (-1) (pmul (U x) (U y)).
Definition Pc (x y : nat) : poly := pmul (W x) (U y) ++ pmul (U x) (W y).
Definition Pb (x y : nat) : poly := pmul (W x) (W y) ++ pmul (U x) (U y).

Lemma U_ok th ph x : pev (U x) th ph = sky_u th ph x.
Proof. destruct x as [|[|x]]; cbn; ring. Qed.
Lemma W_ok th ph x : pev (W x) th ph = sky_v ph x.
Proof. destruct x as [|[|x]]; cbn; ring. Qed.
Definition A0 (mode : string) (th ph : R) (D : nat -> nat -> R) : R := antenna mode th 0 ph D.
Lemma pol_0 th ph x : pol_m th 0 ph x = - sky_v ph x /\ pol_n th 0 ph x = - sky_u th ph x.
Proof. unfold pol_m, pol_n. rewrite sin_0, cos_0. split; ring. Qed.
Lemma A0_ok th ph D :
  A0 "plus" th ph D = Rsum 3 (fun x => Rsum 3 (fun y => pev (Pp x y) th ph * D x y)) /\
  A0 "cross" th ph D = Rsum 3 (fun x => Rsum 3 (fun y => pev (Pc x y) th ph * D x y)) /\
  A0 "breathing" th ph D = Rsum 3 (fun x => Rsum 3 (fun y => pev (Pb x y) th ph * D x y)).
Proof.
  unfold A0, antenna. repeat split; apply Rsum_ext; intros x _; apply Rsum_ext; intros y _; f_equal; unfold Pp, Pc, Pb;
    rewrite pev_app, ?pev_scale, !pev_mul, !U_ok, !W_ok; unfold pol_tensor; cbn;
    rewrite !(proj1 (pol_0 th ph _)), !(proj2 (pol_0 th ph _)); ring.
Qed.

Lemma A0_prod mode mode' p q D E t f :
  (forall t f D, A0 mode t f D = Rsum 3 (fun x => Rsum 3 (fun y => pev (p x y) t f * D x y))) ->
  (forall t f D, A0 mode' t f D = Rsum 3 (fun x => Rsum 3 (fun y => pev (q x y) t f * D x y))) ->
  A0 mode t f D * A0 mode' t f E
  = Rsum 3 (fun x => Rsum 3 (fun y => Rsum 3 (fun z => Rsum 3 (fun w => D x y * E z w * pev (pmul (p x y) (q z w)) t f)))).
Proof.
  intros -> ->. rewrite <- Rsum_scal_r. apply Rsum_ext; intros x _. rewrite <- Rsum_scal_r. apply Rsum_ext; intros y _.
  rewrite <- Rsum_scal. apply Rsum_ext; intros z _. rewrite <- Rsum_scal. apply Rsum_ext; intros w _. rewrite pev_mul. ring.
Qed.

(** mean of a quadratic form in the two tensors whose kernel is a polynomial *)
Lemma dir_quad (G : nat -> nat -> nat -> nat -> poly) (k : nat -> nat -> nat -> nat -> Z) D E :
  (forall x y z w, (x < 3)%nat -> (y < 3)%nat -> (z < 3)%nat -> (w < 3)%nat -> pmean (G x y z w) = Some (k x y z w)) ->
  dir_mean (fun t f => Rsum 3 (fun x => Rsum 3 (fun y => Rsum 3 (fun z => Rsum 3 (fun w => D x y * E z w * pev (G x y z w) t f)))))
    (Rsum 3 (fun x => Rsum 3 (fun y => Rsum 3 (fun z => Rsum 3 (fun w => D x y * E z w * (IZR (k x y z w) / 120)))))).
Proof.
  intros H. apply (dir_sum 3); intros x Hx. apply (dir_sum 3); intros y Hy. apply (dir_sum 3); intros z Hz. apply (dir_sum 3); intros w Hw.
  apply (dir_ext (fun t f => (D x y * E z w) * pev (G x y z w) t f + 0)); [intros; ring|].
  apply (dir_eq _ ((D x y * E z w) * (IZR (k x y z w) / 120) + 0)); [ring|].
  apply dir_lin; [apply pmean_ok, H; assumption|apply dir_zero].
Qed.

Definition dl (x y : nat) : Z := if (x =? y)%nat then 1%Z else 0%Z.
Definition kT (x y z w : nat) : Z := (48 * (dl x z * dl y w + dl x w * dl y z) - 32 * dl x y * dl z w)%Z.
Definition kB (x y z w : nat) : Z := (8 * (dl x z * dl y w + dl x w * dl y z) + 48 * dl x y * dl z w)%Z.
Ltac four := intros x y z w Hx Hy Hz Hw;
  destruct x as [|[|[|x]]]; try lia; destruct y as [|[|[|y]]]; try lia; destruct z as [|[|[|z]]]; try lia; destruct w as [|[|[|w]]]; try lia; vm_compute; reflexivity.

Lemma kT_ok x y z w : (x < 3)%nat -> (y < 3)%nat -> (z < 3)%nat -> (w < 3)%nat ->
  pmean (pmul (Pp x y) (Pp z w) ++ pmul (Pc x y) (Pc z w)) = Some (kT x y z w).
Proof. revert x y z w. four. Qed.
Lemma kX_ok x y z w : (x < 3)%nat -> (y < 3)%nat -> (z < 3)%nat -> (w < 3)%nat ->
  pmean (pmul (Pp x y) (Pc z w) ++ pscale (-1) (pmul (Pc x y) (Pp z w))) = Some 0%Z.
Proof. revert x y z w. four. Qed.
Lemma kB_ok x y z w : (x < 3)%nat -> (y < 3)%nat -> (z < 3)%nat -> (w < 3)%nat ->
  pmean (pmul (Pb x y) (Pb z w)) = Some (kB x y z w).
Proof. revert x y z w. four. Qed.

Lemma dir_T D E : dir_mean (fun t f => (A0 "plus" t f D * A0 "plus" t f E + A0 "cross" t f D * A0 "cross" t f E) / 2)
  (2 / 5 * (contract (sym D) (sym E) - trace D * trace E / 3)).
Proof.
  eapply dir_eq; [|eapply dir_ext; [|apply (dir_lin _ (fun _ _ => 0) (/ 2) _ 0 (dir_quad _ kT D E kT_ok) dir_zero)]].
  - unfold contract, trace, sym. cbn [Rsum]. unfold kT, dl. cbn [Nat.eqb].
    repeat match goal with |- context [IZR ?z] => let z' := eval vm_compute in z in progress change z with z' end. field.
  - intros t f. rewrite (A0_prod "plus" "plus" Pp Pp), (A0_prod "cross" "cross" Pc Pc) by (intros; apply A0_ok).
    rewrite <- Rsum_plus. rewrite Rplus_0_r, Rmult_comm. unfold Rdiv. f_equal. apply Rsum_ext; intros x _.
    rewrite <- Rsum_plus. apply Rsum_ext; intros y _. rewrite <- Rsum_plus. apply Rsum_ext; intros z _. rewrite <- Rsum_plus. apply Rsum_ext; intros w _.
    rewrite pev_app. ring.
Qed.
Lemma dir_X D E : dir_mean (fun t f => (A0 "plus" t f D * A0 "cross" t f E - A0 "cross" t f D * A0 "plus" t f E) / 2) 0.
Proof.
  eapply dir_eq; [|eapply dir_ext; [|apply (dir_lin _ (fun _ _ => 0) (/ 2) _ 0 (dir_quad _ (fun _ _ _ _ => 0%Z) D E kX_ok) dir_zero)]].
  - cbn [Rsum]. field.
  - intros t f. rewrite (A0_prod "plus" "cross" Pp Pc), (A0_prod "cross" "plus" Pc Pp) by (intros; apply A0_ok).
    rewrite <- Rsum_minus. rewrite Rplus_0_r, Rmult_comm. unfold Rdiv. f_equal. apply Rsum_ext; intros x _.
    rewrite <- Rsum_minus. apply Rsum_ext; intros y _. rewrite <- Rsum_minus. apply Rsum_ext; intros z _. rewrite <- Rsum_minus. apply Rsum_ext; intros w _.
    rewrite pev_app, pev_scale. ring.
Qed.
Lemma dir_B D E : dir_mean (fun t f => A0 "breathing" t f D * A0 "breathing" t f E)
  ((2 * contract (sym D) (sym E) + 6 * (trace D * trace E)) / 15).
Proof.
  eapply dir_eq; [|eapply dir_ext; [|apply (dir_quad _ kB D E kB_ok)]].
  - unfold contract, trace, sym. cbn [Rsum]. unfold kB, dl. cbn [Nat.eqb].
    repeat match goal with |- context [IZR ?z] => let z' := eval vm_compute in z in progress change z with z' end. field.
  - intros t f. rewrite (A0_prod "breathing" "breathing" Pb Pb) by (intros; apply A0_ok). reflexivity.
Qed.
Lemma dir_B1 D : dir_mean (fun t f => A0 "breathing" t f D) (2 / 3 * trace D).
Proof.
  eapply dir_eq; [|eapply (dir_ext (fun t f => Rsum 3 (fun x => Rsum 3 (fun y => pev (Pb x y) t f * D x y))));
    [intros; symmetry; apply A0_ok|apply (dir_sum 3 _ (fun x => Rsum 3 (fun y => D x y * (IZR (80 * dl x y) / 120)))); intros x Hx;
      apply (dir_sum 3 _ (fun y => D x y * (IZR (80 * dl x y) / 120))); intros y Hy]].
  - unfold trace. cbn [Rsum]. unfold dl. cbn [Nat.eqb].
    repeat match goal with |- context [IZR ?z] => let z' := eval vm_compute in z in progress change z with z' end. field.
  - apply (dir_ext (fun t f => D x y * pev (Pb x y) t f + 0)); [intros; ring|].
    apply (dir_eq _ (D x y * (IZR (80 * dl x y) / 120) + 0)); [ring|]. apply dir_lin; [|apply dir_zero]. apply pmean_ok.
    destruct x as [|[|[|x]]]; try lia; destruct y as [|[|[|y]]]; try lia; vm_compute; reflexivity.
Qed.

(** ** The polarisation angle *)
Lemma psi_moments :
  is_RInt (fun s : R => cos (2 * s) * cos (2 * s)) 0 PI (PI / 2) /\ is_RInt (fun s : R => sin (2 * s) * sin (2 * s)) 0 PI (PI / 2) /\
  is_RInt (fun s : R => cos (2 * s) * sin (2 * s)) 0 PI 0 /\ is_RInt (fun s : R => cos (2 * s)) 0 PI 0 /\ is_RInt (fun s : R => sin (2 * s)) 0 PI 0.
Proof.
  assert (C2 : cos (2 * PI) = 1) by apply cos_2PI. assert (S2 : sin (2 * PI) = 0) by apply sin_2PI.
  assert (C0 : cos (2 * 0) = 1) by (rewrite Rmult_0_r; apply cos_0). assert (S0 : sin (2 * 0) = 0) by (rewrite Rmult_0_r; apply sin_0).
  repeat split.
  - apply (is_RInt_antider _ (fun s : R => (s + sin (2 * s) * cos (2 * s) / 2) / 2)); [|intros; auto_derive; exact I|cbn beta; rewrite C2, S2, C0, S0; field].
    intros x. pose proof (trig1 (2 * x)) as E. auto_derive; [exact I|field [E]].
  - apply (is_RInt_antider _ (fun s : R => (s - sin (2 * s) * cos (2 * s) / 2) / 2)); [|intros; auto_derive; exact I|cbn beta; rewrite C2, S2, C0, S0; field].
    intros x. pose proof (trig1 (2 * x)) as E. auto_derive; [exact I|field [E]].
  - apply (is_RInt_antider _ (fun s : R => sin (2 * s) * sin (2 * s) / 4)); [|intros; auto_derive; repeat split|cbn beta; rewrite S2, S0; field].
    intros x. auto_derive; [exact I|field].
  - apply (is_RInt_antider _ (fun s : R => sin (2 * s) / 2)); [|intros; auto_derive; exact I|cbn beta; rewrite S2, S0; field].
    intros x. auto_derive; [exact I|field].
  - apply (is_RInt_antider _ (fun s : R => - cos (2 * s) / 2)); [|intros; auto_derive; exact I|cbn beta; rewrite C2, C0; field].
    intros x. auto_derive; [exact I|field].
Qed.
Lemma sky_quad (a b c d : R -> R -> R) v : dir_mean (fun t f => (a t f * c t f + b t f * d t f) / 2) v ->
  sky_mean (fun t s f => (cos (2 * s) * a t f + sin (2 * s) * b t f) * (cos (2 * s) * c t f + sin (2 * s) * d t f)) v.
Proof.
  intros [g [A B]]. exists (fun t f => (a t f * c t f + b t f * d t f) / 2), g. split; [|exact (conj A B)].
  intros t f. destruct psi_moments as (M1 & M2 & M3 & _).
  apply (is_RInt_ext (fun s : R => (a t f * c t f) * (cos (2 * s) * cos (2 * s)) + ((b t f * d t f) * (sin (2 * s) * sin (2 * s)) + (a t f * d t f + b t f * c t f) * (cos (2 * s) * sin (2 * s))))).
  { intros; rfield. }
  replace (PI * ((a t f * c t f + b t f * d t f) / 2)) with ((a t f * c t f) * (PI / 2) + ((b t f * d t f) * (PI / 2) + (a t f * d t f + b t f * c t f) * 0)) by field.
  apply is_RInt_lin; [exact M1|]. apply is_RInt_lin; [exact M2|]. apply is_RInt_scl, M3.
Qed.
Lemma sky_rot (a b c : R -> R -> R) : sky_mean (fun t s f => (cos (2 * s) * a t f + sin (2 * s) * b t f) * c t f) 0.
Proof.
  destruct dir_zero as [g [A B]]. exists (fun _ _ => 0), g. split; [|exact (conj A B)].
  intros t f. destruct psi_moments as (_ & _ & _ & M4 & M5).
  apply (is_RInt_ext (fun s : R => (a t f * c t f) * cos (2 * s) + (b t f * c t f) * sin (2 * s))); [intros; rfield|].
  replace (PI * 0) with ((a t f * c t f) * 0 + (b t f * c t f) * 0) by ring.
  apply is_RInt_lin; [exact M4|]. apply is_RInt_scl, M5.
Qed.
Lemma sky_const h v : dir_mean h v -> sky_mean (fun t _ f => h t f) v.
Proof.
  intros [g [A B]]. exists h, g. split; [|exact (conj A B)]. intros t f.
  pose proof (is_RInt_const (V := R_NormedModule) 0 PI (h t f)) as H. unfold scal in H. cbn in H. unfold mult in H. cbn in H. rewrite Rminus_0_r in H. exact H.
Qed.
Lemma sky_ext f f' v : (forall t s p, f t s p = f' t s p) -> sky_mean f v -> sky_mean f' v.
Proof.
  intros E [h [g [A B]]]. exists h, g. split; [|exact B]. intros t p. eapply is_RInt_ext; [|apply A]. intros; apply E.
Qed.

Lemma response_ok D j mode ni th ps ph : shape D = [ni; 3; 3]%nat -> (j < ni)%nat -> known_mode mode ->
  response D j mode th ps ph = antenna mode th ps ph (det D j).
Proof.
  intros SD Hj Hk. unfold response.
  destruct (antenna_responses_spec (mk [1%nat] (fun _ => th)) (mk [1%nat] (fun _ => ps)) (mk [1%nat] (fun _ => ph)) D [mode] 1 ni eq_refl eq_refl eq_refl SD ltac:(discriminate)) as (r & E & Sr & V).
  { intros m [<-|[]]; exact Hk. }
  rewrite E. specialize (V 0%nat 0%nat j mode ltac:(lia) Hj eq_refl). rewrite get_inb in V by (rewrite Sr; cbn; lia). injection V as ->. reflexivity.
Qed.
Lemma response_rot D j ni th ps ph : shape D = [ni; 3; 3]%nat -> (j < ni)%nat ->
  response D j "plus" th ps ph = cos (2 * ps) * A0 "plus" th ph (det D j) + sin (2 * ps) * A0 "cross" th ph (det D j) /\
  response D j "cross" th ps ph = cos (2 * ps) * A0 "cross" th ph (det D j) + sin (2 * ps) * (- A0 "plus" th ph (det D j)) /\
  response D j "breathing" th ps ph = A0 "breathing" th ph (det D j).
Proof.
  intros SD Hj. rewrite !(response_ok D j _ ni) by (assumption || (unfold known_mode; auto)).
  destruct (antenna_rot th 0 ph ps (det D j)) as (E1 & E2 & E3). rewrite Rplus_0_l in *. unfold A0. rewrite E1, E2, E3. repeat split; ring.
Qed.

(** C117: first and second moments of the antenna responses of any detectors i, j *)
Theorem sky_moments D ni i j : shape D = [ni; 3; 3]%nat -> (i < ni)%nat -> (j < ni)%nat ->
  let F mode k := response D k mode in
  let S := contract (sym (det D i)) (sym (det D j)) in let T := trace (det D i) * trace (det D j) in
  sky_mean (fun t s p => F "plus"%string i t s p * F "plus"%string j t s p) (2 / 5 * (S - T / 3)) /\
  sky_mean (fun t s p => F "cross"%string i t s p * F "cross"%string j t s p) (2 / 5 * (S - T / 3)) /\
  sky_mean (fun t s p => F "plus"%string i t s p * F "cross"%string j t s p) 0 /\
  sky_mean (fun t s p => F "breathing"%string i t s p * F "breathing"%string j t s p) ((2 * S + 6 * T) / 15) /\
  sky_mean (fun t s p => F "plus"%string i t s p * F "breathing"%string j t s p) 0 /\
  sky_mean (fun t s p => F "cross"%string i t s p * F "breathing"%string j t s p) 0 /\
  sky_mean (F "plus"%string i) 0 /\ sky_mean (F "cross"%string i) 0 /\ sky_mean (F "breathing"%string i) (2 / 3 * trace (det D i)).
Proof.
  intros SD Hi Hj F S T. unfold F, S, T.
  assert (RI := fun t s p => response_rot D i ni t s p SD Hi). assert (RJ := fun t s p => response_rot D j ni t s p SD Hj).
  set (a := fun t f => A0 "plus" t f (det D i)). set (b := fun t f => A0 "cross" t f (det D i)). set (c := fun t f => A0 "breathing" t f (det D i)).
  set (a' := fun t f => A0 "plus" t f (det D j)). set (b' := fun t f => A0 "cross" t f (det D j)). set (c' := fun t f => A0 "breathing" t f (det D j)).
  split; [|split; [|split; [|split; [|split; [|split; [|split; [|split]]]]]]].
  - eapply sky_ext; [|apply (sky_quad a b a' b'), dir_T]. intros t s p. rewrite (proj1 (RI t s p)), (proj1 (RJ t s p)). reflexivity.
  - eapply sky_ext; [|apply (sky_quad b (fun t f => - a t f) b' (fun t f => - a' t f)); eapply dir_ext; [|apply (dir_T (det D i) (det D j))]].
    + intros t s p. rewrite (proj1 (proj2 (RI t s p))), (proj1 (proj2 (RJ t s p))). reflexivity.
    + intros t f. unfold a, b, a', b'. field.
  - eapply sky_ext; [|apply (sky_quad a b b' (fun t f => - a' t f)); eapply dir_ext; [|apply (dir_X (det D i) (det D j))]].
    + intros t s p. rewrite (proj1 (RI t s p)), (proj1 (proj2 (RJ t s p))). reflexivity.
    + intros t f. unfold a, b, a', b'. field.
  - eapply sky_ext; [|apply (sky_const (fun t f => c t f * c' t f)), dir_B]. intros t s p. cbn beta. rewrite (proj2 (proj2 (RI t s p))), (proj2 (proj2 (RJ t s p))). reflexivity.
  - eapply sky_ext; [|apply (sky_rot a b c')]. intros t s p. rewrite (proj1 (RI t s p)), (proj2 (proj2 (RJ t s p))). reflexivity.
  - eapply sky_ext; [|apply (sky_rot b (fun t f => - a t f) c')]. intros t s p. rewrite (proj1 (proj2 (RI t s p))), (proj2 (proj2 (RJ t s p))). reflexivity.
  - eapply sky_ext; [|apply (sky_rot a b (fun _ _ => 1))]. intros t s p. rewrite (proj1 (RI t s p)). unfold a, b. ring.
  - eapply sky_ext; [|apply (sky_rot b (fun t f => - a t f) (fun _ _ => 1))]. intros t s p. rewrite (proj1 (proj2 (RI t s p))). unfold a, b. ring.
  - eapply sky_ext; [|apply (sky_const c), dir_B1]. intros t s p. cbn beta. rewrite (proj2 (proj2 (RI t s p))). reflexivity.
Qed.

(** the mean is unique *)
Theorem sky_mean_unique f v v' : sky_mean f v -> sky_mean f v' -> v = v'.
Proof.
  intros (h & g & A & B & Cg & K) (h' & g' & A' & B' & Cg' & K'). pose proof PI_RGT_0 as P.
  assert (EH : forall t p, h t p = h' t p).
  { intros t p. assert (E : PI * h t p = PI * h' t p) by (rewrite <- (is_RInt_unique _ _ _ _ (A t p)); apply is_RInt_unique, A').
    apply Rmult_eq_reg_l in E; [exact E|lra]. }
  assert (EG : forall t, g t = g' t).
  { intros t. assert (E : 2 * PI * g t = 2 * PI * g' t).
    { rewrite <- (is_RInt_unique _ _ _ _ (B t)). apply is_RInt_unique. eapply is_RInt_ext; [|apply B']. intros; symmetry; apply EH. }
    apply Rmult_eq_reg_l in E; [exact E|lra]. }
  rewrite <- (is_RInt_unique _ _ _ _ K). apply is_RInt_unique. eapply is_RInt_ext; [|apply K']. intros x _. cbn beta. rewrite EG. reflexivity.
Qed.

Lemma sq_small x e : - e <= x <= e -> 0 <= x ^ 2 <= e ^ 2.
Proof. intros H. split; [apply pow2_ge_0|]. apply pow_maj_Rabs, Rabs_le, H. Qed.

(** the detectors that come with the library *)
Theorem sky_moments_builtin ifos : ifos <> [] -> (forall s, In s ifos -> known_ifo s) ->
  exists D V, get_ifo_geometry ifos = Ok (D, V) /\ forall k, (k < List.length ifos)%nat -> exists v vb,
    sky_mean (fun t s p => response D k "plus" t s p ^ 2) v /\ sky_mean (fun t s p => response D k "cross" t s p ^ 2) v /\
    Rabs (v - 1 / 5) <= 1 / 10 ^ 7 /\ sky_mean (response D k "plus") 0 /\ sky_mean (response D k "cross") 0 /\
    sky_mean (fun t s p => response D k "breathing" t s p ^ 2) vb /\ Rabs (vb - 1 / 15) <= 1 / 10 ^ 7.
Proof.
  intros Hne Hk. destruct (get_ifo_geometry_spec ifos Hne Hk) as (D & V & E & SD & _ & G).
  exists D, V. split; [exact E|]. intros k Hk'. destruct (G k Hk') as (X & Y & GD & NX & NY & NXY & _).
  destruct (sky_moments D _ k k SD Hk' Hk') as (M1 & M2 & _ & M3 & _ & _ & M4 & M5 & _).
  set (a := dot3 X X) in *. set (b := dot3 Y Y) in *. set (c := dot3 X Y) in *.
  assert (DE : forall x y, (x < 3)%nat -> (y < 3)%nat -> det D k x y = arm_tensor X Y x y).
  { intros x y Hx Hy. specialize (GD x y Hx Hy). apply get_some in GD. destruct GD as [_ <-]. reflexivity. }
  assert (ES : contract (sym (det D k)) (sym (det D k)) = (a ^ 2 + b ^ 2 - 2 * c ^ 2) / 4).
  { unfold contract, sym. cbn [Rsum]. rewrite !DE by lia. unfold arm_tensor, a, b, c, dot3. cbn [Rsum]. field. }
  assert (ET : trace (det D k) = (a - b) / 2).
  { unfold trace. cbn [Rsum]. rewrite !DE by lia. unfold arm_tensor, a, b, dot3. cbn [Rsum]. field. }
  rewrite ES, ET in *. apply Rabs_le_inv in NX, NY, NXY.
  eexists; eexists. split; [eapply sky_ext; [|exact M1]; intros; cbn beta; ring|].
  split; [eapply sky_ext; [|exact M2]; intros; cbn beta; ring|].
  assert (QA := sq_small (a - 1) (1 / 10 ^ 7) NX). assert (QB := sq_small (b - 1) (1 / 10 ^ 7) NY).
  assert (QC := sq_small c (1 / 10 ^ 5) NXY). assert (QD := sq_small (a - b) (2 / 10 ^ 7) ltac:(lra)). clearbody a b c.
  split; [|split; [exact M4|split; [exact M5|split; [eapply sky_ext; [|exact M3]; intros; cbn beta; ring|]]]]; apply Rabs_le;
    replace (a ^ 2) with ((a - 1) ^ 2 + 2 * (a - 1) + 1) by ring; replace (b ^ 2) with ((b - 1) ^ 2 + 2 * (b - 1) + 1) by ring;
    replace ((a - b) / 2 * ((a - b) / 2)) with ((a - b) ^ 2 / 4) by field; lra.
Qed.
Lemma sky_lin f1 f2 k v1 v2 : sky_mean f1 v1 -> sky_mean f2 v2 -> sky_mean (fun t s p => k * f1 t s p + f2 t s p) (k * v1 + v2).
Proof.
  intros (h & g & A & B & Cg & K) (h' & g' & A' & B' & Cg' & K'). exists (fun t p => k * h t p + h' t p), (fun t => k * g t + g' t). split; [|split; [|split; [intros; apply cont_lin; auto|]]].
  - intros t p. replace (PI * (k * h t p + h' t p)) with (k * (PI * h t p) + PI * h' t p) by ring. apply is_RInt_lin; [apply A|apply A'].
  - intros t. replace (2 * PI * (k * g t + g' t)) with (k * (2 * PI * g t) + 2 * PI * g' t) by ring. apply is_RInt_lin; [apply B|apply B'].
  - apply (is_RInt_ext (fun dec : R => k * (cos dec / 2 * g (PI / 2 - dec)) + cos dec / 2 * g' (PI / 2 - dec))); [intros; rfield|].
    apply is_RInt_lin; assumption.
Qed.
(** correlation, between two detectors, of the strains of one sample [hp], [hc] of a wave: no term in [hp * hc] *)
Theorem sky_mean_power D ni i j hp hc : shape D = [ni; 3; 3]%nat -> (i < ni)%nat -> (j < ni)%nat ->
  let strain k t s p := response D k "plus" t s p * hp + response D k "cross" t s p * hc in
  sky_mean (fun t s p => strain i t s p * strain j t s p)
    (2 / 5 * (contract (sym (det D i)) (sym (det D j)) - trace (det D i) * trace (det D j) / 3) * (hp ^ 2 + hc ^ 2)).
Proof.
  intros SD Hi Hj strain. destruct (sky_moments D ni i j SD Hi Hj) as (M1 & M2 & M3 & _).
  destruct (sky_moments D ni j i SD Hj Hi) as (_ & _ & M3' & _).
  set (v := 2 / 5 * _) in *. replace (v * (hp ^ 2 + hc ^ 2)) with (hp ^ 2 * v + (hc ^ 2 * v + (hp * hc * 0 + (hp * hc * 0 + 0)))) by ring.
  eapply sky_ext; [|apply sky_lin; [exact M1|apply sky_lin; [exact M2|apply sky_lin; [exact M3|apply sky_lin; [exact M3'|
    apply (sky_const (fun _ _ => 0)), dir_zero]]]]].
  intros t s p. unfold strain. cbn beta. ring.
Qed.
Example sky_moments_example : exists D V, get_ifo_geometry ["H1"; "V1"]%string = Ok (D, V) /\
  exists v, sky_mean (fun t s p => response D 1 "plus" t s p * response D 0 "plus" t s p) v.
Proof.
  destruct (get_ifo_geometry_spec ["H1"; "V1"]%string) as (D & V & E & SD & _); [discriminate|intros s [<-|[<-|[]]]; unfold known_ifo; cbn; auto|].
  exists D, V. split; [exact E|]. eexists. apply (sky_moments D 2 1 0 SD ltac:(lia) ltac:(lia)).
Qed.
