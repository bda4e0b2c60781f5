(** Property C51, part 6: the fitted function is a spline in the textbook sense, and the modules never fail on increasing coordinates. *)
From Coq Require Import Sorted.
From Coquelicot Require Import Coquelicot.
From Verif Require Import Base Tensor Rutil Slicing_model Norm_model Gw_model Linsolve Spline_model Spline_props Spline2_props Spline3_props Spline4_props Sw_props.
Local Open Scope R_scope.

(** ** specification: a polynomial of degree at most k *)
Definition poly (k : nat) (a : nat -> R) (y : R) : R := Rsum (k + 1) (fun j => a j * y ^ j).

Lemma poly_lin k a p q : exists b, forall y, (p + q * y) * poly k a y = poly (S k) b y.
Proof.
  exists (fun j => p * (if (j <=? k)%nat then a j else 0) + q * (if (j =? 0)%nat then 0 else a (j - 1)%nat)). intros y.
  unfold poly. replace (S k + 1)%nat with (S (k + 1)) by lia. rewrite Rmult_plus_distr_r.
  rewrite (Rsum_ext (S (k + 1)) _ (fun j => p * ((if (j <=? k)%nat then a j else 0) * y ^ j) + q * ((if (j =? 0)%nat then 0 else a (j - 1)%nat) * y ^ j))) by (intros; ring).
  rewrite Rsum_plus, !Rsum_scal. f_equal.
  - f_equal. cbn [Rsum]. replace (k + 1 <=? k)%nat with false by (symmetry; apply Nat.leb_gt; lia). rewrite Rmult_0_l, Rplus_0_r.
    apply Rsum_ext. intros j Hj. replace (j <=? k)%nat with true by (symmetry; apply Nat.leb_le; lia). reflexivity.
  - rewrite Rsum_S_l. cbn [Nat.eqb]. rewrite Rmult_0_l, Rplus_0_l, Rmult_assoc. f_equal. rewrite <- Rsum_scal. apply Rsum_ext. intros j Hj. replace (S j - 1)%nat with j by lia. cbn [pow]. ring.
Qed.
Lemma poly_add k a b y : poly k a y + poly k b y = poly k (fun j => a j + b j) y.
Proof. unfold poly. rewrite <- Rsum_plus. apply Rsum_ext. intros; ring. Qed.
Lemma poly_sum n k (a : nat -> nat -> R) c y : Rsum n (fun i => c i * poly k (a i) y) = poly k (fun j => Rsum n (fun i => c i * a i j)) y.
Proof.
  unfold poly. rewrite (Rsum_ext n _ (fun i => Rsum (k + 1) (fun j => c i * a i j * y ^ j))) by (intros; rewrite <- Rsum_scal; apply Rsum_ext; intros; ring).
  rewrite Rsum_swap. apply Rsum_ext. intros j Hj. rewrite <- Rsum_scal_r. reflexivity.
Qed.
Lemma choose_n n (P : nat -> (nat -> R) -> Prop) : (forall j, (j < n)%nat -> exists a, P j a) -> exists a, forall j, (j < n)%nat -> P j (a j).
Proof.
  induction n as [|n IH]; intros H; [exists (fun _ _ => 0); lia|]. destruct IH as [a Ha]; [intros; apply H; lia|]. destruct (H n ltac:(lia)) as [b Hb].
  exists (fun j => if (j =? n)%nat then b else a j). intros j Hj. destruct (Nat.eqb_spec j n) as [->|]; [assumption|apply Ha; lia].
Qed.
(** a continuous function whose derivative off a finite set extends continuously is differentiable there too *)
Lemma deriv_through f g x r : 0 < r -> (forall y, continuity_pt f y) -> (forall y, Rabs (y - x) < r -> y <> x -> derivable_pt_lim f y (g y)) -> continuity_pt g x -> derivable_pt_lim f x (g x).
Proof.
  intros Hr Cf D Cg eps He. destruct (Cg eps He) as [del [Hd Hg]]. assert (P : 0 < Rmin r del) by (apply Rmin_glb_lt; assumption).
  exists (mkposreal _ P). intros h Hh Hl. cbn in Hl. assert (Hl1 := Rlt_le_trans _ _ _ Hl (Rmin_l _ _)). assert (Hl2 := Rlt_le_trans _ _ _ Hl (Rmin_r _ _)).
  destruct (MVT_gen f x (x + h) g) as [c [Hc E]].
  - intros y Hy. apply is_derive_Reals. apply D; [|intros ->; unfold Rmin, Rmax in Hy; destruct (Rle_dec x (x + h)); lra].
    eapply Rle_lt_trans; [|exact Hl1]. unfold Rmin, Rmax in Hy. unfold Rabs. destruct (Rcase_abs h), (Rcase_abs (y - x)), (Rle_dec x (x + h)); lra.
  - intros y _. apply Cf.
  - replace ((f (x + h) - f x) / h) with (g c) by (rewrite E; field; assumption).
    destruct (Req_dec c x) as [->|Nc]; [rewrite Rminus_eq_0, Rabs_R0; assumption|]. apply Hg. split; [split; [exact I|auto]|]. cbn. unfold R_dist.
    eapply Rle_lt_trans; [|exact Hl2]. unfold Rmin, Rmax in Hc. unfold Rabs. destruct (Rcase_abs h), (Rcase_abs (c - x)), (Rle_dec x (x + h)); lra.
Qed.

Section Smooth.
Variables (t : nat -> R) (n k : nat).
Hypothesis (Hk : (1 <= k)%nat) (Hn : (k + 2 <= n)%nat).
Hypothesis MONO : forall i j, (i <= j)%nat -> (j <= n + k)%nat -> t i <= t j.
Hypothesis FIRST : forall j, (j <= k)%nat -> t j = t 0%nat.
Hypothesis LAST : forall j, (n <= j <= n + k)%nat -> t j = t n.
Hypothesis STRICT : forall i j, (k <= i)%nat -> (i < j)%nat -> (j <= n)%nat -> t i < t j.
Lemma nb_poly i : (k <= i < n)%nat -> forall d j, exists a, forall y, piece t n k i y -> nb t n k d j y = poly d a y.
Proof.
  intros Hi. induction d as [|d IH]; intros j.
  - exists (fun _ => if (j =? i)%nat then 1 else 0). intros y Hy. cbn [nb]. rewrite (ind_at t n k Hk Hn MONO FIRST LAST STRICT i y Hy). unfold poly. cbn. ring.
  - destruct (IH j) as [a Ha], (IH (j + 1)%nat) as [b Hb].
    destruct (poly_lin d a (- t j * qi (t (j + S d)%nat - t j)) (qi (t (j + S d)%nat - t j))) as [a' Ha'].
    destruct (poly_lin d b (t (j + S d + 1)%nat * qi (t (j + S d + 1)%nat - t (j + 1)%nat)) (- qi (t (j + S d + 1)%nat - t (j + 1)%nat))) as [b' Hb'].
    exists (fun l => a' l + b' l). intros y Hy. cbn [nb]. rewrite Ha, Hb by assumption. rewrite <- poly_add, <- Ha', <- Hb'. ring.
Qed.
Lemma sp_poly i : (k <= i < n)%nat -> forall d c, exists a, forall y, piece t n k i y -> sp t n k d c y = poly d a y.
Proof.
  intros Hi d c. destruct (choose_n n (fun j a => forall y, piece t n k i y -> nb t n k d j y = poly d a y)) as [a Ha]; [intros; apply nb_poly; assumption|].
  exists (fun l => Rsum n (fun j => c j * a j l)). intros y Hy. rewrite <- poly_sum. unfold sp. apply Rsum_ext. intros j Hj. rewrite Ha by assumption. reflexivity.
Qed.
Lemma knot_isolated q : (k < q < n)%nat -> exists r, 0 < r /\ forall y, Rabs (y - t q) < r -> y <> t q -> ~ knot t n k y.
Proof.
  intros Hq. assert (A := STRICT (q - 1)%nat q ltac:(lia) ltac:(lia) ltac:(lia)). assert (B := STRICT q (q + 1)%nat ltac:(lia) ltac:(lia) ltac:(lia)).
  exists (Rmin (t q - t (q - 1)%nat) (t (q + 1)%nat - t q)). split; [apply Rmin_glb_lt; lra|]. intros y Hy Ny [i [Hi ->]].
  assert (H1 := Rlt_le_trans _ _ _ Hy (Rmin_l _ _)). assert (H2 := Rlt_le_trans _ _ _ Hy (Rmin_r _ _)). apply Rabs_def2 in H1. apply Rabs_def2 in H2.
  destruct (Nat.lt_trichotomy i q) as [L|[->|L]]; [|congruence|].
  - assert (t i <= t (q - 1)%nat) by (apply MONO; lia). lra.
  - assert (t (q + 1)%nat <= t i) by (apply MONO; lia). lra.
Qed.
(** from degree two on the derivative formula holds at the knots as well *)
Lemma sp_deriv_all d c x : (S (S d) <= k)%nat -> derivable_pt_lim (sp t n k (S (S d)) c) x (sp t n k (S d) (dc t (S d) c) x).
Proof.
  intros Hd. destruct (Classical_Prop.classic (knot t n k x)) as [[q [Hq ->]]|NK].
  - destruct (knot_isolated q Hq) as [r [Hr Iso]]. apply (deriv_through _ (sp t n k (S d) (dc t (S d) c)) _ r Hr).
    + intros y. apply sp_cont; assumption.
    + intros y Hy Ny. apply sp_deriv; auto.
    + apply sp_cont; try assumption; lia.
  - apply sp_deriv; auto.
Qed.
Fixpoint cs (c : nat -> R) (i : nat) : nat -> R := match i with O => c | S i' => dc t (k - S i') (cs c i') end.
Lemma sp_smooth c : exists g : nat -> R -> R, g 0%nat = sp t n k k c /\
  (forall d y, (d + 1 < k)%nat -> derivable_pt_lim (g d) y (g (d + 1)%nat y)) /\ (forall d y, (d < k)%nat -> continuity_pt (g d) y).
Proof.
  exists (fun i => sp t n k (k - i) (cs c i)). split; [cbn [cs]; rewrite Nat.sub_0_r; reflexivity|]. split.
  - intros d y Hd. rewrite Nat.add_1_r. cbn [cs]. assert (E : exists e, (k - d = S (S e))%nat) by (exists (k - d - 2)%nat; lia). destruct E as [e E].
    rewrite E. replace (k - S d)%nat with (S e) by lia. apply sp_deriv_all. lia.
  - intros d y Hd. assert (E : exists e, (k - d = S e)%nat) by (exists (k - d - 1)%nat; lia). destruct E as [e E]. rewrite E. apply sp_cont; try assumption; lia.
Qed.
End Smooth.

(** the function the modules evaluate is a spline of degree k on the knots of the interpolator: between two consecutive knots it is a
    polynomial of degree at most k, and it has k - 1 continuous derivatives inside the data interval *)
Theorem spline_is_spline x k c : (1 <= k)%nat -> (k + 2 <= List.length x)%nat -> increasing x ->
  (forall i, (k <= i < List.length x)%nat -> exists a, forall y, at_ (fit_knots x k) i <= y < at_ (fit_knots x k) (i + 1) -> spline_at x k c y = poly k a y) /\
  (exists g : nat -> R -> R, (forall y, at_ x 0 <= y <= at_ x (List.length x - 1) -> g 0%nat y = spline_at x k c y) /\
    (forall d y, (d + 1 < k)%nat -> derivable_pt_lim (g d) y (g (d + 1)%nat y)) /\ (forall d y, (d < k)%nat -> continuity_pt (g d) y)).
Proof.
  intros Hk Hn HI. destruct (fit_knots_clamped x k Hk Hn HI) as [C [T0 [TN SW]]]. pose proof C as [_ _ Cmono Cf Cl _].
  pose proof (fit_knots_strict x k Hk Hn HI) as ST. set (n := List.length x) in *. set (t := at_ (fit_knots x k)) in *.
  assert (EQ : forall y, at_ x 0 <= y <= at_ x (n - 1) -> sp t n k k c y = spline_at x k c y).
  { intros y Hy. unfold spline_at, sp. fold n t. apply Rsum_ext. intros j Hj. rewrite clamp_in by assumption.
    rewrite (basis_nb t n k Hk Hn Cmono Cf Cl ST y k ltac:(rewrite T0, TN; assumption) ltac:(lia) j Hj). ring. }
  split.
  - intros i Hi. destruct (sp_poly t n k Hk Hn Cmono Cf Cl ST i Hi k c) as [a Ha]. exists a. intros y Hy. rewrite <- Ha; [symmetry; apply EQ|].
    + assert (t 0%nat <= t i) by (apply Cmono; lia). assert (t (i + 1)%nat <= t n) by (apply Cmono; lia). rewrite <- T0, <- TN. lra.
    + split; [lia|]. split; right; lra.
  - destruct (sp_smooth t n k Hk Hn Cmono Cf Cl ST c) as [g [G0 G]]. exists g. split; [rewrite G0; exact EQ|exact G].
Qed.

(** ** the modules on increasing coordinates: an accepted call always succeeds *)
Lemma fit_always x k s z : (1 <= k)%nat -> (k + 2 <= List.length x)%nat -> increasing x -> 0 <= s -> exists u, fit1 x k s z = Some u.
Proof.
  intros Hk Hn HI [Hs|<-].
  - destruct (fit_regularised x k s z Hs) as [u [E _]]. eauto.
  - destruct (fit_exists x k z Hk Hn HI) as [u [E _]]. eauto.
Qed.
Theorem spline1_total x k s x0 m h Z xo xs : spline1_create x k s x0 = Ok m -> (1 <= k)%nat -> increasing x -> 0 <= s -> (xo <> None \/ x0 <> None) ->
  accepted1 (List.length x) Z = true -> call_grid (grid_after (List.length x) x0 h) xo = Some xs ->
  exists b c w Y, shape4 Z = [b; c; w; List.length x] /\ fst (spline1_forward (calls1 m h) Z xo) = Ok Y /\ shape Y = [b; c; w; List.length xs] /\
    forall p q r o, inb [p; q; r; o] (shape Y) -> exists u, fit1 x k s (fun j => data4 Z [p; q; r; j]) = Some u /\ get Y [p; q; r; o] = Some (spline_at x k u (at_ xs o)).
Proof.
  intros E Hk HI Hs Hg A G. destruct (spline1_spec x k s x0 m h Z xo xs E Hg A G) as [b [c [w [SZ [OKc _]]]]].
  assert (Hn : (k + 2 <= List.length x)%nat) by (destruct (Nat.le_gt_cases (k + 2) (List.length x)) as [|L]; [assumption|]; rewrite (proj1 (spline1_create_spec x k s x0) L) in E; discriminate).
  destruct (OKc (fit_always x k s _ Hk Hn HI Hs)) as [Y [EY [SY VY]]]. exists b, c, w, Y. auto.
Qed.
Theorem spline2_total x y kx ky sx sy x0 y0 m h Z xo yo xs ys : spline2_create x y kx ky sx sy x0 y0 = Ok m ->
  (1 <= kx)%nat -> (1 <= ky)%nat -> increasing x -> increasing y -> 0 <= sx -> 0 <= sy ->
  accepted_call (List.length y) (List.length x) x0 y0 (Z, (xo, yo)) = true ->
  call_grid (gridx_after (List.length y) (List.length x) x0 y0 h) xo = Some xs -> call_grid (gridy_after (List.length y) (List.length x) x0 y0 h) yo = Some ys ->
  exists b c Y, shape4 Z = [b; c; List.length y; List.length x] /\ fst (spline2_forward (calls2 m h) Z xo yo) = Ok Y /\ shape Y = [b; c; List.length ys; List.length xs] /\
    forall p q r o, inb [p; q; r; o] (shape Y) -> exists (u : nat -> nat -> R) d,
      (forall l, fit1 y ky sy (fun i => data4 Z [p; q; i; l]) = Some (u l)) /\
      fit1 x kx sx (fun l => spline_at y ky (u l) (at_ ys r)) = Some d /\ get Y [p; q; r; o] = Some (spline_at x kx d (at_ xs o)).
Proof.
  intros E Hkx Hky IX IY Hsx Hsy A GX GY. destruct (spline2_spec x y kx ky sx sy x0 y0 m h Z xo yo xs ys E A GX GY) as [b [c [SZ [OKc _]]]].
  destruct (create2_state _ _ _ _ _ _ _ _ _ E) as [Hx [Hy _]]. 
  destruct (fit_always x kx sx (fun _ => 0) Hkx Hx IX Hsx) as [u Hu], (fit_always y ky sy (fun _ => 0) Hky Hy IY Hsy) as [v Hv].
  destruct (OKc (ex_intro _ u (ex_intro _ v (conj Hu Hv)))) as [Y [EY [SY VY]]]. exists b, c, Y. auto.
Qed.
(** the hypotheses are met: a cubic interpolator on unequally spaced coordinates *)
Example cubic_ex : exists m, spline1_create [0; 1; 3; 4; 5; 7] 3 0 (Some [1/2; 9]) = Ok m /\ increasing [0; 1; 3; 4; 5; 7] /\
  accepted1 6 (mk [2; 6]%nat (fun i => INR (nth 1 i 0%nat))) = true.
Proof.
  eexists. split; [reflexivity|]. split; [|reflexivity].
  intros i j Hi Hj. cbn [List.length] in Hj. destruct j as [|[|[|[|[|[|j]]]]]]; try lia; destruct i as [|[|[|[|[|i]]]]]; try lia; unfold at_; cbn [nth]; lra.
Qed.
