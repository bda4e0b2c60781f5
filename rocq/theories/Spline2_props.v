(** Property C51, part 2: fitting and evaluating. *)
From Coq Require Import Sorted.
From Verif Require Import Base Tensor Rutil Slicing_model Norm_model Gw_model Linsolve Spline_model Spline_props.
Local Open Scope R_scope.

(** ** least squares with a square matrix *)
Definition dot (n : nat) (u v : nat -> R) : R := Rsum n (fun i => u i * v i).
Lemma gram_mvec n B s c i : (i < n)%nat -> mvec n (gram n B s) c i = Rsum n (fun l => B l i * mvec n B c l) + s * c i.
Proof.
  intros Hi. unfold mvec at 1, gram. rewrite (Rsum_ext n _ (fun j => Rsum n (fun l => B l i * B l j * c j) + (if (i =? j)%nat then s * c j else 0))).
  - rewrite Rsum_plus. f_equal.
    + rewrite Rsum_swap. apply Rsum_ext. intros l Hl. unfold mvec. rewrite <- Rsum_scal. apply Rsum_ext. intros j Hj. ring.
    + rewrite (Rsum_single n i); [rewrite Nat.eqb_refl; reflexivity|assumption|]. intros j Hj N. replace (i =? j)%nat with false by (symmetry; apply Nat.eqb_neq; lia). reflexivity.
  - intros j Hj. rewrite Rmult_plus_distr_r, <- Rsum_scal_r. f_equal. destruct (i =? j)%nat; ring.
Qed.
Lemma mvec_lin n B u v a b i : mvec n B (fun j => a * u j + b * v j) i = a * mvec n B u i + b * mvec n B v i.
Proof. unfold mvec. rewrite <- !Rsum_scal, <- Rsum_plus. apply Rsum_ext. intros; ring. Qed.
Lemma mvec_T n B u v : Rsum n (fun i => v i * Rsum n (fun l => B l i * u l)) = Rsum n (fun l => u l * mvec n B v l).
Proof.
  rewrite (Rsum_ext n _ (fun i => Rsum n (fun l => v i * (B l i * u l)))) by (intros; rewrite Rsum_scal; reflexivity).
  rewrite Rsum_swap. apply Rsum_ext. intros l Hl. unfold mvec. rewrite <- Rsum_scal. apply Rsum_ext. intros; ring.
Qed.
Lemma sq_sum_zero n u : Rsum n (fun i => u i * u i) = 0 -> forall i, (i < n)%nat -> u i = 0.
Proof. intros H i Hi. assert (u i * u i = 0) by (apply (Rsum_nonneg_zero n (fun i => u i * u i)); [intros; nra|assumption|assumption]). nra. Qed.
(** the Gram matrix is singular exactly when B is; never with a positive regularisation *)
Lemma gram_injective n B : injective n (gram n B 0) <-> injective n B.
Proof.
  split; intros H v Hv.
  - apply H. intros i Hi. rewrite gram_mvec by assumption. rewrite Rsum_0; [ring|]. intros l Hl. rewrite Hv by assumption. ring.
  - apply H. apply sq_sum_zero. rewrite <- (mvec_T n B (mvec n B v) v).
    apply Rsum_0. intros i Hi. pose proof (Hv i Hi) as E. rewrite gram_mvec in E by assumption. replace (Rsum n (fun l => B l i * mvec n B v l)) with 0 by lra. ring.
Qed.
Lemma gram_ridge n B s : 0 < s -> injective n (gram n B s).
Proof.
  intros Hs v Hv. assert (E : Rsum n (fun i => v i * mvec n (gram n B s) v i) = 0) by (apply Rsum_0; intros i Hi; rewrite Hv by assumption; ring).
  rewrite (Rsum_ext n _ (fun i => v i * Rsum n (fun l => B l i * mvec n B v l) + s * (v i * v i))) in E by (intros i Hi; rewrite gram_mvec by assumption; ring).
  rewrite Rsum_plus, mvec_T, Rsum_scal in E.
  assert (0 <= Rsum n (fun l => mvec n B v l * mvec n B v l)) by (apply Rsum_nonneg; intros; nra).
  assert (0 <= Rsum n (fun i => v i * v i)) by (apply Rsum_nonneg; intros; nra). apply sq_sum_zero. nra.
Qed.
(** an unregularised solution of the normal equations solves the system itself *)
Lemma normal_exact n B z c : injective n (gram n B 0) -> (forall i, (i < n)%nat -> mvec n (gram n B 0) c i = Rsum n (fun l => B l i * z l)) ->
  forall l, (l < n)%nat -> mvec n B c l = z l.
Proof.
  intros HI Hc l Hl. pose proof (proj1 (gram_injective n B) HI) as HB. destruct (proj2 (gsolve_some_iff n B z) HB) as [c' Ec'].
  pose proof (gsolve_sound n B z c' Ec') as S. rewrite <- (S l Hl). apply mvec_ext; [reflexivity|].
  destruct (proj2 (gsolve_some_iff n (gram n B 0) z) HI) as [c'' Ec''].
  apply (gsolve_unique n (gram n B 0) z c'' Ec'' (fun i => Rsum n (fun l => B l i * z l)) c c' Hc).
  intros i Hi. rewrite gram_mvec by assumption. rewrite Rmult_0_l, Rplus_0_r. apply Rsum_ext. intros j Hj. rewrite S by assumption. reflexivity.
Qed.
(** a regularised one minimises the penalised residual *)
Definition objective (n : nat) (B : nat -> nat -> R) (s : R) (z c : nat -> R) : R :=
  Rsum n (fun l => (mvec n B c l - z l) ^ 2) + s * Rsum n (fun i => c i ^ 2).
Lemma normal_minimises n B s z c : 0 <= s -> (forall i, (i < n)%nat -> mvec n (gram n B s) c i = Rsum n (fun l => B l i * z l)) ->
  forall c', objective n B s z c <= objective n B s z c'.
Proof.
  intros Hs Hc c'. set (e := fun i => c' i - c i).
  assert (ME : forall l, mvec n B c' l = mvec n B c l + mvec n B e l).
  { intros l. unfold mvec. rewrite <- Rsum_plus. apply Rsum_ext. intros; unfold e; ring. }
  assert (Z : Rsum n (fun l => (mvec n B c l - z l) * mvec n B e l) + s * Rsum n (fun i => c i * e i) = 0).
  { rewrite <- mvec_T, <- Rsum_scal, <- Rsum_plus. apply Rsum_0. intros i Hi.
    pose proof (Hc i Hi) as E. rewrite gram_mvec in E by assumption.
    rewrite (Rsum_ext n (fun l => B l i * (mvec n B c l - z l)) (fun l => B l i * mvec n B c l - B l i * z l)) by (intros; ring). rewrite Rsum_minus.
    replace (Rsum n (fun l => B l i * mvec n B c l)) with (Rsum n (fun l => B l i * z l) - s * c i) by lra. ring. }
  assert (E : objective n B s z c' = objective n B s z c + 2 * (Rsum n (fun l => (mvec n B c l - z l) * mvec n B e l) + s * Rsum n (fun i => c i * e i))
     + (Rsum n (fun l => mvec n B e l ^ 2) + s * Rsum n (fun i => e i ^ 2))).
  { unfold objective.
    rewrite (Rsum_ext n (fun l => (mvec n B c' l - z l) ^ 2) (fun l => (mvec n B c l - z l) ^ 2 + (2 * ((mvec n B c l - z l) * mvec n B e l) + mvec n B e l ^ 2))) by (intros l Hl; rewrite ME; ring).
    rewrite (Rsum_ext n (fun i => c' i ^ 2) (fun i => c i ^ 2 + (2 * (c i * e i) + e i ^ 2))) by (intros i Hi; unfold e; ring).
    rewrite !Rsum_plus, !Rsum_scal. ring. }
  rewrite E, Z. assert (0 <= Rsum n (fun l => mvec n B e l ^ 2)) by (apply Rsum_nonneg; intros; nra). assert (0 <= Rsum n (fun i => e i ^ 2)) by (apply Rsum_nonneg; intros; nra). nra.
Qed.

(** ** the spline through the data *)
(** value at xi of the degree-k spline with coefficients c on the knots fitted to x; outside [x_0, x_last] the end value *)
Definition spline_at (x : list R) (k : nat) (c : nat -> R) (xi : R) : R :=
  Rsum (List.length x) (fun j => basis (at_ (fit_knots x k)) (List.length x) k (clamp (at_ x 0) (at_ x (List.length x - 1)) xi) k j * c j).
Lemma clamp_range lo hi x : lo <= hi -> lo <= clamp lo hi x <= hi.
Proof. intros H. unfold clamp. split; [apply Rmin_glb; [apply Rmax_r|assumption]|apply Rmin_r]. Qed.
Lemma clamp_in lo hi x : lo <= x <= hi -> clamp lo hi x = x.
Proof. intros H. unfold clamp. rewrite Rmax_left, Rmin_left by lra. reflexivity. Qed.
Lemma inc_le x i j : increasing x -> (i <= j)%nat -> (j < List.length x)%nat -> at_ x i <= at_ x j.
Proof. intros H Hij Hj. destruct (Nat.eq_dec i j) as [->|]; [lra|]. left. apply H; lia. Qed.
Lemma out_matrix_eval x k xs o c : (k + 2 <= List.length x)%nat -> (o < List.length xs)%nat ->
  Rsum (List.length x) (fun j => out_matrix (fit_knots x k) k xs o j * c j) = spline_at x k c (at_ xs o).
Proof.
  intros Hn Ho. unfold spline_at, out_matrix, bmat. rewrite fit_knots_length by assumption. replace (List.length x + k + 1 - k - 1)%nat with (List.length x) by lia.
  destruct (fit_knots_spec x k Hn) as [K1 [_ K3]]. rewrite K1, K3 by lia. unfold at_ at 2.
  rewrite (nth_indep _ 0 (clamp (at_ x 0) (at_ x (List.length x - 1)) 0)) by (rewrite map_length; assumption). rewrite map_nth. reflexivity.
Qed.
Lemma bmat_eval x k i c : (k + 2 <= List.length x)%nat -> increasing x -> (i < List.length x)%nat ->
  mvec (List.length x) (bmat (fit_knots x k) k x) c i = spline_at x k c (at_ x i).
Proof.
  intros Hn HI Hi. unfold mvec, spline_at, bmat. rewrite fit_knots_length by assumption. replace (List.length x + k + 1 - k - 1)%nat with (List.length x) by lia.
  rewrite clamp_in; [reflexivity|]. split; apply inc_le; try assumption; lia.
Qed.
(** whether the fit succeeds depends on the coordinates only *)
Lemma fit1_some x k s z z' c : fit1 x k s z = Some c -> exists c', fit1 x k s z' = Some c'.
Proof. unfold fit1. intros E. apply gsolve_some_iff. apply (proj1 (gsolve_some_iff _ _ (fun i => Rsum (List.length x) (fun j => bmat (fit_knots x k) k x j i * z j)))). eauto. Qed.
Theorem fit_interpolates x k z c : (1 <= k)%nat -> (k + 2 <= List.length x)%nat -> increasing x -> fit1 x k 0 z = Some c ->
  forall i, (i < List.length x)%nat -> spline_at x k c (at_ x i) = z i.
Proof.
  intros Hk Hn HI E i Hi. rewrite <- bmat_eval by assumption. unfold fit1 in E.
  apply (normal_exact (List.length x) (bmat (fit_knots x k) k x) z c); [|apply (gsolve_sound _ _ _ _ E)|assumption].
  apply (gsolve_some_iff _ _ (fun i => Rsum (List.length x) (fun j => bmat (fit_knots x k) k x j i * z j))). eauto.
Qed.
(** and the coefficients are the only ones doing so *)
Theorem fit_unique x k z c c' : (1 <= k)%nat -> (k + 2 <= List.length x)%nat -> increasing x -> fit1 x k 0 z = Some c ->
  (forall i, (i < List.length x)%nat -> spline_at x k c' (at_ x i) = z i) -> forall j, (j < List.length x)%nat -> c' j = c j.
Proof.
  intros Hk Hn HI E Hc' j Hj. unfold fit1 in E.
  apply (gsolve_unique _ _ _ _ E (fun i => Rsum (List.length x) (fun l => bmat (fit_knots x k) k x l i * z l)) c' c); [|apply (gsolve_sound _ _ _ _ E)|assumption].
  intros i Hi. rewrite gram_mvec by assumption. rewrite Rmult_0_l, Rplus_0_r. apply Rsum_ext. intros l Hl. rewrite bmat_eval, Hc' by assumption. reflexivity.
Qed.
Theorem fit_regularised x k s z : 0 < s -> exists c, fit1 x k s z = Some c /\
  forall c', objective (List.length x) (bmat (fit_knots x k) k x) s z c <= objective (List.length x) (bmat (fit_knots x k) k x) s z c'.
Proof.
  intros Hs. unfold fit1. destruct (proj2 (gsolve_some_iff (List.length x) (gram (List.length x) (bmat (fit_knots x k) k x) s) (fun i => Rsum (List.length x) (fun j => bmat (fit_knots x k) k x j i * z j))) (gram_ridge _ _ _ Hs)) as [c E].
  exists c. split; [exact E|]. apply normal_minimises; [lra|]. apply (gsolve_sound _ _ _ _ E).
Qed.
(** a repeated coordinate makes the unregularised fit impossible *)
Lemma rows_dependent n B a b : (a < n)%nat -> (b < n)%nat -> a <> b -> (forall j, (j < n)%nat -> B a j = B b j) -> ~ injective n B.
Proof.
  intros Ha Hb N E H. destruct (proj2 (gsolve_some_iff n B (fun i => if (i =? a)%nat then 1 else 0)) H) as [c Ec]. pose proof (gsolve_sound _ _ _ _ Ec) as S.
  pose proof (S a Ha) as Sa. pose proof (S b Hb) as Sb. cbv beta in Sa, Sb. rewrite Nat.eqb_refl in Sa. replace (b =? a)%nat with false in Sb by (symmetry; apply Nat.eqb_neq; lia).
  assert (mvec n B c a = mvec n B c b) by (unfold mvec; apply Rsum_ext; intros j Hj; rewrite E by assumption; reflexivity). lra.
Qed.
Theorem fit_repeated x k z a b : (a < List.length x)%nat -> (b < List.length x)%nat -> a <> b -> at_ x a = at_ x b -> fit1 x k 0 z = None.
Proof.
  intros Ha Hb N E. destruct (fit1 x k 0 z) as [c|] eqn:F; [|reflexivity]. exfalso.
  apply (rows_dependent (List.length x) (bmat (fit_knots x k) k x) a b Ha Hb N); [intros j Hj; unfold bmat; rewrite E; reflexivity|].
  apply gram_injective. unfold fit1 in F. apply (gsolve_some_iff _ _ (fun i => Rsum (List.length x) (fun j => bmat (fit_knots x k) k x j i * z j))). eauto.
Qed.
(** straight lines (in particular constants) are reproduced everywhere *)
Lemma spline_of_line x k a b xi : (1 <= k)%nat -> (k + 2 <= List.length x)%nat -> increasing x ->
  spline_at x k (fun j => a + b * knot_mean (at_ (fit_knots x k)) k j) xi = a + b * clamp (at_ x 0) (at_ x (List.length x - 1)) xi.
Proof.
  intros Hk Hn HI. destruct (fit_knots_clamped x k Hk Hn HI) as [C [T0 [TN _]]]. unfold spline_at. set (y := clamp _ _ xi).
  assert (Hy : at_ (fit_knots x k) 0 <= y <= at_ (fit_knots x k) (List.length x)) by (rewrite T0, TN; apply clamp_range, inc_le; try assumption; lia).
  rewrite (Rsum_ext _ _ (fun j => a * basis (at_ (fit_knots x k)) (List.length x) k y k j + b * (knot_mean (at_ (fit_knots x k)) k j * basis (at_ (fit_knots x k)) (List.length x) k y k j))) by (intros; ring).
  rewrite Rsum_plus, !Rsum_scal, basis_partition, basis_identity by (try assumption; lia). ring.
Qed.
Theorem fit_line x k z c a b : (1 <= k)%nat -> (k + 2 <= List.length x)%nat -> increasing x -> fit1 x k 0 z = Some c ->
  (forall i, (i < List.length x)%nat -> z i = a + b * at_ x i) -> forall xi, spline_at x k c xi = a + b * clamp (at_ x 0) (at_ x (List.length x - 1)) xi.
Proof.
  intros Hk Hn HI E Hz xi. rewrite <- (spline_of_line x k a b xi Hk Hn HI). unfold spline_at. apply Rsum_ext. intros j Hj. f_equal. symmetry.
  apply (fit_unique x k z c (fun j => a + b * knot_mean (at_ (fit_knots x k)) k j) Hk Hn HI E); [|assumption].
  intros i Hi. rewrite spline_of_line, Hz by assumption. f_equal. f_equal. apply clamp_in. split; apply inc_le; try assumption; lia.
Qed.
(** outside the data the end values are held *)
Theorem fit_outside x k z c : (1 <= k)%nat -> (k + 2 <= List.length x)%nat -> increasing x -> fit1 x k 0 z = Some c ->
  (forall xi, xi <= at_ x 0 -> spline_at x k c xi = z 0%nat) /\ (forall xi, at_ x (List.length x - 1) <= xi -> spline_at x k c xi = z (List.length x - 1)%nat).
Proof.
  intros Hk Hn HI E. assert (L : at_ x 0 <= at_ x (List.length x - 1)) by (apply inc_le; try assumption; lia). split; intros xi Hxi.
  - rewrite <- (fit_interpolates x k z c Hk Hn HI E 0%nat ltac:(lia)). unfold spline_at. apply Rsum_ext. intros j Hj. do 2 f_equal. unfold clamp. rewrite !Rmax_right by lra. reflexivity.
  - rewrite <- (fit_interpolates x k z c Hk Hn HI E (List.length x - 1)%nat ltac:(lia)). unfold spline_at. apply Rsum_ext. intros j Hj. do 2 f_equal. unfold clamp. rewrite !Rmin_right by (eapply Rle_trans; [|apply Rmax_l]; lra). reflexivity.
Qed.

(** ** degree 1: always possible, and piecewise linear *)
Lemma knots1 x i : (3 <= List.length x)%nat -> (i < List.length x)%nat -> at_ (fit_knots x 1) (i + 1) = at_ x i.
Proof.
  intros Hn Hi. destruct (fit_knots_spec x 1 ltac:(lia)) as [K1 [K2 K3]]. destruct (Nat.eq_dec i 0) as [->|]; [apply K1; lia|].
  destruct (Nat.eq_dec i (List.length x - 1)) as [->|]; [apply K3; lia|].
  replace (i + 1)%nat with (1 + 1 + (i - 1))%nat by lia. rewrite K2 by lia. cbn [Rsum INR]. replace (i - 1 + 1 + 0)%nat with i by lia. field.
Qed.
Lemma basis1_at x i j : (3 <= List.length x)%nat -> increasing x -> (i < List.length x)%nat -> (j < List.length x)%nat ->
  basis (at_ (fit_knots x 1)) (List.length x) 1 (at_ x i) 1 j = if (i =? j)%nat then 1 else 0.
Proof.
  intros Hn HI Hi Hj. set (t := at_ (fit_knots x 1)). set (n := List.length x) in *.
  destruct (fit_knots_clamped x 1 ltac:(lia) ltac:(fold n; lia) HI) as [C [T0 [TN _]]]. fold t n in C, T0, TN.
  assert (K : forall i, (i < n)%nat -> t (i + 1)%nat = at_ x i) by (intros; apply knots1; assumption).
  destruct (Nat.eq_dec i (n - 1)) as [->|Ni].
  { rewrite <- TN. rewrite (basis_at_end t n 1 C) by lia. rewrite (Nat.eqb_sym (n - 1)). reflexivity. }
  assert (Hx : t 0%nat <= at_ x i <= t n) by (rewrite T0, TN; split; apply inc_le; try assumption; fold n; lia).
  assert (Z : forall j, (j < n)%nat -> zeroth t n 1 (at_ x i) j = if (j =? i + 1)%nat then 1 else 0).
  { intros j' Hj'. rewrite zeroth_cases by assumption.
    assert (Kj : (j' = 0)%nat \/ t j' = at_ x (j' - 1)) by (destruct j'; [left; reflexivity|right; rewrite <- K by lia; f_equal; lia]).
    rewrite (K j') by assumption.
    destruct (Nat.eqb_spec j' (i + 1)) as [->|Nj].
    - rewrite K by assumption. destruct (Rle_dec (at_ x i) (at_ x i)); [|lra]. destruct (Rlt_dec (at_ x i) (at_ x (i + 1))) as [|N]; [reflexivity|]. exfalso. apply N. apply HI; fold n; lia.
    - destruct (Nat.lt_ge_cases i j') as [A|A].
      + destruct Kj as [->|Kj]; [lia|]. rewrite Kj. destruct (Rle_dec (at_ x (j' - 1)) (at_ x i)) as [L|]; [|reflexivity]. exfalso.
        assert (at_ x i < at_ x (j' - 1)) by (apply HI; fold n; lia). lra.
      + destruct (Rle_dec (t j') (at_ x i)); [|reflexivity]. destruct (Rlt_dec (at_ x i) (at_ x j')) as [L|].
        * exfalso. assert (at_ x j' <= at_ x i) by (apply inc_le; try assumption; fold n; lia). lra.
        * replace (j' =? n - 1)%nat with false by (symmetry; apply Nat.eqb_neq; lia). reflexivity. }
  cbn [basis]. rewrite Z by assumption.
  destruct (Nat.ltb_spec (j + 1) n) as [Hj1|Hj1].
  - rewrite Z by assumption. destruct (Nat.eqb_spec j (i + 1)) as [->|Nj].
    + replace (i =? i + 1)%nat with false by (symmetry; apply Nat.eqb_neq; lia). replace (i + 1 + 1 =? i + 1)%nat with false by (symmetry; apply Nat.eqb_neq; lia).
      unfold coefL, qdiv. rewrite (K i) by assumption. destruct (Req_EM_T _ 0); unfold Rdiv; ring.
    + destruct (Nat.eqb_spec i j) as [->|Nij].
      * rewrite Nat.eqb_refl. unfold coefR, qdiv. rewrite !K by lia. assert (at_ x j < at_ x (j + 1)) by (apply HI; fold n; lia).
        destruct (Req_EM_T _ 0); [lra|]. field. lra.
      * replace (j + 1 =? i + 1)%nat with false by (symmetry; apply Nat.eqb_neq; lia). ring.
  - replace (i =? j)%nat with false by (symmetry; apply Nat.eqb_neq; lia). destruct (Nat.eqb_spec j (i + 1)) as [->|]; [|ring].
    unfold coefL, qdiv. rewrite (K i) by assumption. destruct (Req_EM_T _ 0); unfold Rdiv; ring.
Qed.
Theorem fit_degree_one x z : (3 <= List.length x)%nat -> increasing x ->
  exists c, fit1 x 1 0 z = Some c /\ (forall j, (j < List.length x)%nat -> c j = z j) /\
    forall i xi, (i + 1 < List.length x)%nat -> at_ x i <= xi <= at_ x (i + 1) ->
      spline_at x 1 c xi = ((at_ x (i + 1) - xi) * z i + (xi - at_ x i) * z (i + 1)%nat) / (at_ x (i + 1) - at_ x i).
Proof.
  intros Hn HI. set (n := List.length x) in *.
  assert (BI : injective n (bmat (fit_knots x 1) 1 x)).
  { intros v Hv j Hj. rewrite <- (Hv j Hj). unfold mvec, bmat. rewrite fit_knots_length by (fold n; lia). fold n. replace (n + 1 + 1 - 1 - 1)%nat with n by lia.
    rewrite (Rsum_single n j); [|assumption|].
    - unfold n. rewrite basis1_at by assumption. rewrite Nat.eqb_refl. ring.
    - intros i Hi N. unfold n. rewrite basis1_at by assumption. replace (j =? i)%nat with false by (symmetry; apply Nat.eqb_neq; lia). ring. }
  destruct (proj2 (gsolve_some_iff n (gram n (bmat (fit_knots x 1) 1 x) 0) (fun i => Rsum n (fun j => bmat (fit_knots x 1) 1 x j i * z j))) (proj2 (gram_injective _ _) BI)) as [c E].
  assert (F : fit1 x 1 0 z = Some c) by exact E. exists c. split; [exact F|].
  assert (CZ : forall j, (j < n)%nat -> c j = z j).
  { intros j Hj. rewrite <- (fit_interpolates x 1 z c ltac:(lia) ltac:(fold n; lia) HI F j Hj). rewrite <- bmat_eval by (try assumption; fold n; lia). fold n.
    unfold mvec, bmat. rewrite fit_knots_length by (fold n; lia). fold n. replace (n + 1 + 1 - 1 - 1)%nat with n by lia.
    rewrite (Rsum_single n j); [|assumption|].
    - unfold n. rewrite basis1_at by assumption. rewrite Nat.eqb_refl. ring.
    - intros i Hi N. unfold n. rewrite basis1_at by assumption. replace (j =? i)%nat with false by (symmetry; apply Nat.eqb_neq; lia). ring. }
  split; [exact CZ|]. intros i xi Hi Hxi. unfold spline_at. fold n.
  assert (L0 : at_ x 0 <= at_ x i) by (apply inc_le; try assumption; fold n; lia). assert (L1 : at_ x (i + 1) <= at_ x (n - 1)) by (apply inc_le; try assumption; fold n; lia).
  rewrite clamp_in by lra. destruct (fit_knots_clamped x 1 ltac:(lia) ltac:(fold n; lia) HI) as [C [T0 [TN _]]]. set (t := at_ (fit_knots x 1)) in *. fold n in C, T0, TN.
  assert (K : forall i, (i < n)%nat -> t (i + 1)%nat = at_ x i) by (intros; apply knots1; assumption).
  assert (LT : at_ x i < at_ x (i + 1)) by (apply HI; fold n; lia).
  destruct (Req_EM_T xi (at_ x (i + 1))) as [->|Nx].
  { rewrite (Rsum_single n (i + 1)%nat); [|lia|].
    - unfold n, t. rewrite basis1_at by (try assumption; fold n; lia). rewrite Nat.eqb_refl, CZ by lia. field. lra.
    - intros j Hj N. unfold n, t. rewrite basis1_at by (try assumption; fold n; lia). replace (i + 1 =? j)%nat with false by (symmetry; apply Nat.eqb_neq; lia). ring. }
  assert (Hx : t 0%nat <= xi <= t n) by (rewrite T0, TN; lra).
  assert (Z : forall j, (j < n)%nat -> zeroth t n 1 xi j = if (j =? i + 1)%nat then 1 else 0).
  { intros j Hj. rewrite zeroth_cases by assumption. rewrite (K j) by assumption. destruct (Nat.eqb_spec j (i + 1)) as [->|Nj].
    - rewrite K by lia. destruct (Rle_dec (at_ x i) xi); [|lra]. destruct (Rlt_dec xi (at_ x (i + 1))); [reflexivity|lra].
    - destruct (Nat.lt_ge_cases i j) as [A|A].
      + destruct j as [|j]; [lia|]. replace (S j) with (j + 1)%nat in * by lia. rewrite (K j) by lia. destruct (Rle_dec (at_ x j) xi) as [L|]; [|reflexivity]. exfalso.
        assert (at_ x (i + 1) <= at_ x j) by (apply inc_le; try assumption; fold n; lia). lra.
      + destruct (Rle_dec (t j) xi); [|reflexivity]. destruct (Rlt_dec xi (at_ x j)) as [L|].
        * exfalso. assert (at_ x j <= at_ x i) by (apply inc_le; try assumption; fold n; lia). lra.
        * replace (j =? n - 1)%nat with false by (symmetry; apply Nat.eqb_neq; lia). reflexivity. }
  assert (BV : forall j, (j < n)%nat -> basis t n 1 xi 1 j = if (j =? i)%nat then (at_ x (i + 1) - xi) / (at_ x (i + 1) - at_ x i) else if (j =? i + 1)%nat then (xi - at_ x i) / (at_ x (i + 1) - at_ x i) else 0).
  { intros j Hj. cbn [basis]. rewrite Z by assumption. destruct (Nat.eqb_spec j i) as [->|N1].
    - replace (i =? i + 1)%nat with false by (symmetry; apply Nat.eqb_neq; lia). replace (i + 1 <? n)%nat with true by (symmetry; apply Nat.ltb_lt; lia). rewrite Z, Nat.eqb_refl by lia.
      unfold coefR, qdiv. rewrite !K by lia. destruct (Req_EM_T _ 0); [lra|]. ring.
    - destruct (Nat.eqb_spec j (i + 1)) as [->|N2].
      + unfold coefL, qdiv. rewrite !K by lia. destruct (Req_EM_T _ 0); [lra|].
        destruct (Nat.ltb_spec (i + 1 + 1) n); [rewrite Z by lia; replace (i + 1 + 1 =? i + 1)%nat with false by (symmetry; apply Nat.eqb_neq; lia)|]; ring.
      + destruct (Nat.ltb_spec (j + 1) n); [rewrite Z by lia; replace (j + 1 =? i + 1)%nat with false by (symmetry; apply Nat.eqb_neq; lia)|]; ring. }
  rewrite (Rsum_ext n _ (fun j => (if (j =? i)%nat then (at_ x (i + 1) - xi) / (at_ x (i + 1) - at_ x i) * z i else 0) + (if (j =? i + 1)%nat then (xi - at_ x i) / (at_ x (i + 1) - at_ x i) * z (i + 1)%nat else 0))).
  - rewrite Rsum_plus, (Rsum_single n i), (Rsum_single n (i + 1)); try lia.
    + rewrite !Nat.eqb_refl. unfold Rdiv. ring.
    + intros j Hj N. replace (j =? i + 1)%nat with false by (symmetry; apply Nat.eqb_neq; lia). reflexivity.
    + intros j Hj N. replace (j =? i)%nat with false by (symmetry; apply Nat.eqb_neq; lia). reflexivity.
  - intros j Hj. rewrite BV, CZ by assumption. destruct (Nat.eqb_spec j i) as [->|]; [replace (i =? i + 1)%nat with false by (symmetry; apply Nat.eqb_neq; lia); ring|].
    destruct (Nat.eqb_spec j (i + 1)) as [->|]; ring.
Qed.
