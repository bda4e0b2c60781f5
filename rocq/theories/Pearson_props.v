(** Property C40: ShiftedPearsonCorrelation. *)
From Verif Require Import Base Tensor Rutil Bcast Slicing_model Slicing_proofs Slicing_props Autoenc_model Norm_model Norm_props Dft Gw_model Spectral_model Psd_props Fastpsd2_props Trans_model.
From Coquelicot Require Import Rcomplements.
Local Open Scope R_scope.

(** ** specification *)
Definition avg (n : nat) (u : nat -> R) : R := Rsum n u / INR n.
Definition cov (n : nat) (u v : nat -> R) : R := Rsum n (fun t => (u t - avg n u) * (v t - avg n v)).
(** Pearson's coefficient of two n-sample series, undefined when one of them is constant *)
Definition pearson_coef (n : nat) (u v : nat -> R) : option R :=
  if Req_EM_T (cov n u u * cov n v v) 0 then None else Some (cov n u v / sqrt (cov n u u * cov n v v)).
(** u moved by d samples towards the past, zeros outside of the n samples *)
Definition moved (n : nat) (d : Z) (u : nat -> R) (t : nat) : R :=
  let p := (Z.of_nat t + d)%Z in if ((0 <=? p) && (p <? Z.of_nat n))%Z then u (Z.to_nat p) else 0.
(** y has the trailing dimensions of x *)
Definition trailing (sy sx : list nat) : Prop := exists pre, sx = pre ++ sy.

Lemma same_prefix_spec y x : same_prefix y x = true <-> exists r, x = y ++ r.
Proof.
  revert x. induction y as [|d y IH]; intros [|e x]; cbn.
  - split; eauto.
  - split; eauto.
  - split; [discriminate|]. intros [r H]. discriminate.
  - rewrite andb_true_iff, IH, Nat.eqb_eq. split.
    + intros [-> [r ->]]. eauto.
    + intros [r H]. injection H as -> ->. eauto.
Qed.
Lemma pearson_checks_spec x y : (ndim x <= 3)%nat -> (pearson_checks x y = Ok tt <-> trailing (shape y) (shape x)) /\
  (~ trailing (shape y) (shape x) -> pearson_checks x y = Err ValueError).
Proof.
  intros H3. unfold pearson_checks, trailing. replace (3 <? ndim x)%nat with false by lia.
  assert (TR : (exists pre, shape x = pre ++ shape y) <-> same_prefix (rev (shape y)) (rev (shape x)) = true).
  { rewrite same_prefix_spec. split.
    - intros [p ->]. exists (rev p). apply rev_app_distr.
    - intros [r E]. exists (rev r). rewrite <- (rev_involutive (shape x)), E, rev_app_distr, rev_involutive. reflexivity. }
  destruct (Nat.ltb_spec (ndim x) (ndim y)) as [L|L].
  - split; [|reflexivity]. split; [discriminate|]. intros [p E]. unfold ndim in L. rewrite E, app_length in L. lia.
  - destruct (same_prefix (rev (shape y)) (rev (shape x))) eqn:E; cbn [negb].
    + split; [split; [intros _; apply TR; reflexivity|reflexivity]|]. intros N. elim N. apply TR. reflexivity.
    + split; [|reflexivity]. split; [discriminate|]. intros H. apply TR in H. discriminate.
Qed.
Theorem pearson_spec m x y pre suf T : shape x = pre ++ suf ++ [T] -> shape y = suf ++ [T] -> (List.length (pre ++ suf) <= 2)%nat ->
  (0 < T)%nat -> Forall (fun b => (0 < b)%nat) (pre ++ suf) ->
  exists r, pearson m x y = Ok r /\ shape r = (2 * m + 1)%nat :: pre ++ suf /\
  forall s p q, (s < 2 * m + 1)%nat -> inb p pre -> inb q suf ->
    get r (s :: p ++ q) = Some (pearson_coef T (moved T (Z.of_nat s - Z.of_nat m) (fun t => elt x (p ++ q ++ [t]))) (fun t => elt y (q ++ [t]))).
Proof.
  intros Sx Sy Hl HT HP. rewrite app_assoc in Sx. set (bt := pre ++ suf) in *. unfold pearson.
  assert (CK : pearson_checks x y = Ok tt).
  { apply pearson_checks_spec. { unfold ndim. rewrite Sx, app_length. cbn [List.length]. lia. } exists pre. rewrite Sx, Sy. unfold bt. rewrite app_assoc. reflexivity. }
  rewrite CK. cbn [bind]. destruct (shape x) as [|d0 sx0] eqn:Ex; [destruct bt; discriminate|]. rewrite <- Ex in *. clear Ex d0 sx0.
  set (px := pad_last 0 m m x).
  assert (Spx : shape px = bt ++ [(2 * m + T)%nat]). { unfold px, pad_last. cbn [shape]. rewrite Sx, last_last, removelast_last. f_equal. f_equal. lia. }
  rewrite Sx, last_last.
  destruct (unfold_windows_correct 0 px bt (2 * m + T) T 1 true Spx Hl HP HT ltac:(lia) ltac:(lia)) as [u [tl0 [Eu [Su [Gu _]]]]].
  change (Z.of_nat 1) with 1%Z in Eu. rewrite Eu. cbn [bind].
  assert (NW : ((2 * m + T - T) / 1 + 1 = 2 * m + 1)%nat) by (rewrite Nat.div_1_r; lia). rewrite NW in *.
  assert (EU : forall s b t, (s < 2 * m + 1)%nat -> inb b bt -> (t < T)%nat -> elt u (s :: b ++ [t]) = moved T (Z.of_nat s - Z.of_nat m) (fun t => elt x (b ++ [t])) t).
  { intros s b t Hs Hb Ht. assert (I1 : inb (s :: b ++ [t]) (shape u)) by (rewrite Su; cbn; split; [assumption|apply inb_app; [assumption|cbn; auto]]).
    assert (I2 : inb (b ++ [(s * 1 + t)%nat]) (shape px)) by (rewrite Spx; apply inb_app; [assumption|cbn; lia]).
    specialize (Gu s b t Hs Hb Ht). rewrite !get_inb in Gu by assumption. injection Gu as ->. unfold px, pad_last, moved. cbn [elt].
    rewrite last_last, removelast_last, Sx, last_last. rewrite Nat.mul_1_r.
    destruct (Nat.leb_spec m (s + t)), (Nat.ltb_spec (s + t) (m + T)); cbn [andb];
      destruct (Z.leb_spec 0 (Z.of_nat t + (Z.of_nat s - Z.of_nat m))), (Z.ltb_spec (Z.of_nat t + (Z.of_nat s - Z.of_nat m)) (Z.of_nat T)); cbn [andb]; try lia; try reflexivity.
    f_equal. f_equal. f_equal. lia. }
  clear Gu. clearbody px. set (W := (2 * m + 1)%nat) in *.
  assert (Su' : shape u = (W :: bt) ++ [T]) by (rewrite Su; reflexivity).
  (* de-meaned x *)
  unfold bzip at 1. unfold mean_last at 1. cbn [shape]. rewrite Su', removelast_last, bshape_last1. cbn [bind].
  rewrite Sy. destruct (suf ++ [T]) as [|d0 l0] eqn:Es; [destruct suf; discriminate|]. rewrite <- Es in *. clear Es d0 l0.
  unfold bzip at 1. unfold mean_last at 1. cbn [shape]. rewrite Sy, removelast_last, bshape_last1. cbn [bind].
  match goal with |- context [mk ((W :: bt) ++ [T]) ?g] => set (xc := mk ((W :: bt) ++ [T]) g) end.
  match goal with |- context [mk (suf ++ [T]) ?g] => set (yc := mk (suf ++ [T]) g) end.
  assert (XC : forall s b t, (s < W)%nat -> inb b bt -> (t < T)%nat -> elt xc (s :: b ++ [t]) =
     let u := moved T (Z.of_nat s - Z.of_nat m) (fun t => elt x (b ++ [t])) in u t - avg T u).
  { intros s b t Hs Hb Ht. unfold xc. cbn [elt]. change (s :: b ++ [t]) with ((s :: b) ++ [t]).
    assert (Ib : inb (s :: b) (W :: bt)) by (cbn; auto).
    rewrite bidx_self by (apply inb_app; [assumption|cbn; auto]). unfold mean_last. cbn [elt shape]. rewrite Su', last_last, removelast_last, bidx_last1, removelast_last by assumption.
    cbn zeta. change ((s :: b) ++ [t]) with (s :: b ++ [t]). rewrite EU by assumption. f_equal. unfold avg. f_equal. apply Rsum_ext. intros j Hj.
    change ((s :: b) ++ [j]) with (s :: b ++ [j]). apply EU; assumption. }
  assert (YC : forall q t, inb q suf -> (t < T)%nat -> elt yc (q ++ [t]) = let v := fun t => elt y (q ++ [t]) in v t - avg T v).
  { intros q t Hq Ht. unfold yc. cbn [elt]. rewrite bidx_self by (apply inb_app; [assumption|cbn; auto]). unfold mean_last. cbn [elt shape].
    rewrite Sy, last_last, removelast_last, bidx_last1, removelast_last by assumption. reflexivity. }
  assert (Sxc : shape xc = (W :: pre) ++ suf ++ [T]) by (unfold xc; cbn [shape]; unfold bt; rewrite app_comm_cons, <- app_assoc; reflexivity).
  assert (Syc : shape yc = suf ++ [T]) by reflexivity.
  clearbody xc yc. clear EU Eu Su Su' u tl0.
  unfold bzip at 1. rewrite Sxc, Syc, (bshape_pre (W :: pre)) by (apply bshape_self || lia). cbn [bind].
  unfold bzip at 1. unfold sum_last, tmap. cbn [shape elt]. rewrite Sxc, Syc, !last_last.
  assert (RL : removelast ((W :: pre) ++ suf ++ [T]) = (W :: pre) ++ suf) by (rewrite app_assoc, removelast_last; reflexivity).
  assert (LL : last ((W :: pre) ++ suf ++ [T]) 0%nat = T) by (rewrite app_assoc, last_last; reflexivity).
  rewrite RL, LL, removelast_last, (bshape_pre (W :: pre)) by (apply bshape_self || lia). cbn [bind].
  unfold bzip. cbn [shape elt]. rewrite bshape_self. cbn [bind]. eexists. split; [reflexivity|]. cbn [shape]. split; [reflexivity|].
  intros s p q Hs Hp Hq.
  assert (Hb : inb (p ++ q) bt) by (apply inb_app; assumption).
  assert (Isp : inb ((s :: p) ++ q) ((W :: pre) ++ suf)) by (apply (inb_app (s :: p)); [cbn; auto|assumption]).
  rewrite get_inb by exact Isp. f_equal. cbn [elt].
  change (s :: p ++ q) with ((s :: p) ++ q). rewrite !(bidx_self ((s :: p) ++ q)) by assumption. rewrite bidx_pre by (apply inb_length, Hq). rewrite bidx_self by assumption.
  set (u := moved T (Z.of_nat s - Z.of_nat m) (fun t => elt x (p ++ q ++ [t]))). set (v := fun t => elt y (q ++ [t])).
  assert (XE : forall j, (j < T)%nat -> elt xc (((s :: p) ++ q) ++ [j]) = u j - avg T u).
  { intros j Hj. change (((s :: p) ++ q) ++ [j]) with (s :: (p ++ q) ++ [j]). rewrite XC by assumption. cbn zeta.
    assert (EE : moved T (Z.of_nat s - Z.of_nat m) (fun t => elt x ((p ++ q) ++ [t])) = u).
    { unfold u, moved. apply FunctionalExtensionality.functional_extensionality. intros t. cbn zeta. rewrite <- app_assoc. reflexivity. }
    rewrite EE. reflexivity. }
  assert (YE : forall j, (j < T)%nat -> elt yc (q ++ [j]) = v j - avg T v) by (intros; apply YC; assumption).
  rewrite (Rsum_ext T (fun j => elt xc (((s :: p) ++ q) ++ [j]) ^ 2) (fun t => (u t - avg T u) * (u t - avg T u))) by (intros; rewrite XE by assumption; ring).
  rewrite (Rsum_ext T (fun j => elt yc (q ++ [j]) ^ 2) (fun t => (v t - avg T v) * (v t - avg T v))) by (intros; rewrite YE by assumption; ring).
  match goal with |- fdiv (Rsum T ?f) _ = _ => rewrite (Rsum_ext T f (fun t => (u t - avg T u) * (v t - avg T v))) end.
  2:{ intros j Hj. rewrite <- app_assoc. rewrite (bidx_self ((s :: p) ++ q ++ [j])).
      2:{ apply (inb_app (s :: p)); [cbn; auto|apply inb_app; [assumption|cbn; auto]]. }
      rewrite bidx_pre by (rewrite !app_length; f_equal; apply inb_length, Hq). rewrite bidx_self by (apply inb_app; [assumption|cbn; auto]).
      rewrite app_assoc, XE, YE by assumption. reflexivity. }
  fold (cov T u v) (cov T u u) (cov T v v). unfold fdiv, pearson_coef.
  assert (N : 0 <= cov T u u * cov T v v) by (apply Rmult_le_pos; apply Rsum_nonneg; intros; apply Rle_0_sqr).
  destruct (Req_EM_T (cov T u u * cov T v v) 0) as [E|E], (Req_EM_T (sqrt (cov T u u * cov T v v)) 0) as [E'|E']; try reflexivity.
  - elim E'. rewrite E. apply sqrt_0.
  - elim E. apply sqrt_eq_0; assumption.
Qed.
Theorem pearson_errors m x y : (ndim x > 3)%nat \/ ~ trailing (shape y) (shape x) -> pearson m x y = Err ValueError.
Proof.
  intros H. unfold pearson. destruct (Nat.ltb_spec 3 (ndim x)) as [L|L].
  - unfold pearson_checks. replace (3 <? ndim x)%nat with true by lia. reflexivity.
  - destruct H as [H|H]; [lia|]. destruct (pearson_checks_spec x y ltac:(lia)) as [_ E]. rewrite E by assumption. reflexivity.
Qed.

(** ** what the coefficient tells *)
Lemma cov_uu_nonneg n u : 0 <= cov n u u.
Proof. apply Rsum_nonneg; intros; apply Rle_0_sqr. Qed.
Lemma avg_affine n u a c : (0 < n)%nat -> avg n (fun t => a * u t + c) = a * avg n u + c.
Proof. intros H. unfold avg. rewrite Rsum_plus, Rsum_scal, Rsum_const. field. apply not_0_INR. lia. Qed.
Lemma cov_affine n u v a c b d : (0 < n)%nat -> cov n (fun t => a * u t + c) (fun t => b * v t + d) = a * b * cov n u v.
Proof. intros H. unfold cov. rewrite <- Rsum_scal. apply Rsum_ext. intros t _. rewrite !avg_affine by assumption. ring. Qed.
Lemma cov_ext n u v u' v' : (forall t, (t < n)%nat -> u t = u' t) -> (forall t, (t < n)%nat -> v t = v' t) -> cov n u v = cov n u' v'.
Proof.
  intros H H'. unfold cov, avg. rewrite (Rsum_ext n u u' H), (Rsum_ext n v v' H'). apply Rsum_ext. intros t Ht. rewrite H, H' by assumption. reflexivity.
Qed.
Theorem pearson_bounded n u v r : pearson_coef n u v = Some r -> -1 <= r <= 1.
Proof.
  unfold pearson_coef. destruct (Req_EM_T _ _) as [|N]; [discriminate|]. intros E; injection E as <-.
  assert (CS : cov n u v ^ 2 <= cov n u u * cov n v v).
  { unfold cov. pose proof (Rsum_CS n (fun t => u t - avg n u) (fun t => v t - avg n v)) as H. cbv beta in H.
    eapply Rle_trans; [exact H|]. apply Req_le. f_equal; apply Rsum_ext; intros; ring. }
  pose proof (cov_uu_nonneg n u). pose proof (cov_uu_nonneg n v).
  assert (P : 0 < cov n u u * cov n v v) by nra. set (s := sqrt (cov n u u * cov n v v)).
  assert (S0 : 0 < s) by (apply sqrt_lt_R0; assumption).
  assert (S2 : s * s = cov n u u * cov n v v) by (apply sqrt_sqrt; lra).
  assert (A : Rabs (cov n u v / s) <= 1).
  { unfold Rdiv. rewrite Rabs_mult, Rabs_inv, (Rabs_right s) by lra. apply Rmult_le_reg_r with s; [assumption|].
    rewrite Rmult_assoc, Rinv_l, Rmult_1_r, Rmult_1_l by lra. apply Rsqr_incr_0_var; [|lra]. rewrite <- Rsqr_abs. unfold Rsqr. nra. }
  apply Rabs_le_between in A. lra.
Qed.
(** changing the offset or (positive) scale of the second series changes nothing; a sign change flips the sign *)
Theorem pearson_affine n u v a c : (0 < n)%nat -> a <> 0 ->
  pearson_coef n u (fun t => a * v t + c) = option_map (fun r => if Rlt_dec 0 a then r else - r) (pearson_coef n u v).
Proof.
  intros Hn Ha. unfold pearson_coef.
  assert (E1 : cov n u (fun t => a * v t + c) = a * cov n u v).
  { rewrite (cov_ext n u _ (fun t => 1 * u t + 0) (fun t => a * v t + c)) by (intros; ring). rewrite cov_affine by assumption. ring. }
  rewrite E1, cov_affine by assumption. replace (cov n u u * (a * a * cov n v v)) with (a * a * (cov n u u * cov n v v)) by ring.
  assert (A2 : 0 < a * a) by nra.
  destruct (Req_EM_T (cov n u u * cov n v v) 0) as [E|E], (Req_EM_T (a * a * (cov n u u * cov n v v)) 0) as [E'|E']; cbn.
  - reflexivity.
  - elim E'. rewrite E. ring.
  - elim E. nra.
  - f_equal. pose proof (cov_uu_nonneg n u). pose proof (cov_uu_nonneg n v).
    rewrite sqrt_mult by nra. assert (sqrt (cov n u u * cov n v v) <> 0) by (apply Rgt_not_eq, sqrt_lt_R0; nra).
    fold (Rsqr a). rewrite sqrt_Rsqr_abs. destruct (Rlt_dec 0 a); [rewrite Rabs_right by lra|rewrite Rabs_left by lra]; field; split; assumption.
Qed.
(** the coefficient is 1 exactly when the second series is an increasing affine function of the moved first one *)
Theorem pearson_one_iff n u v : (0 < n)%nat -> (exists r, pearson_coef n u v = Some r) ->
  (pearson_coef n u v = Some 1 <-> exists a c, 0 < a /\ forall t, (t < n)%nat -> v t = a * u t + c).
Proof.
  intros Hn [r Hr]. pose proof (cov_uu_nonneg n u) as U. pose proof (cov_uu_nonneg n v) as V.
  assert (P : 0 < cov n u u * cov n v v).
  { unfold pearson_coef in Hr. destruct (Req_EM_T _ _) as [|N]; [discriminate|]. nra. }
  assert (U0 : 0 < cov n u u) by nra.
  assert (S0 : 0 < sqrt (cov n u u * cov n v v)) by (apply sqrt_lt_R0; assumption).
  unfold pearson_coef in *. destruct (Req_EM_T _ _) as [|N]; [discriminate|]. split.
  - intros E. injection E as E. assert (E1 : cov n u v = sqrt (cov n u u * cov n v v)).
    { apply Rmult_eq_reg_r with (/ sqrt (cov n u u * cov n v v)); [|apply Rinv_neq_0_compat; lra]. fold (cov n u v / sqrt (cov n u u * cov n v v)). rewrite E, Rinv_r; lra. }
    assert (E2 : cov n u v ^ 2 = cov n u u * cov n v v) by (rewrite E1; cbn; rewrite Rmult_1_r; apply sqrt_sqrt; lra).
    set (l := cov n u v / cov n u u).
    assert (Z : Rsum n (fun t => ((v t - avg n v) - l * (u t - avg n u)) ^ 2) = 0).
    { transitivity (cov n v v - 2 * l * cov n u v + l ^ 2 * cov n u u).
      - unfold cov. rewrite <- !Rsum_scal, <- Rsum_minus, <- Rsum_plus. apply Rsum_ext. intros. ring.
      - unfold l. apply Rmult_eq_reg_r with (cov n u u); [|lra]. field_simplify; [|lra]. rewrite E2. ring. }
    exists l, (avg n v - l * avg n u). split; [unfold l; apply Rdiv_lt_0_compat; [rewrite E1|]; assumption|].
    intros t Ht. pose proof (Rsum_nonneg_zero n _ (fun i _ => pow2_ge_0 _) Z t Ht) as Q. cbv beta in Q. assert (v t - avg n v - l * (u t - avg n u) = 0) by nra. lra.
  - intros [a [c [Ha Hv]]]. f_equal.
    assert (Euv : cov n u v = a * cov n u u).
    { rewrite (cov_ext n u v (fun t => 1 * u t + 0) (fun t => a * u t + c)) by (intros; try apply Hv; try ring; assumption). rewrite cov_affine by assumption. ring. }
    assert (Evv : cov n v v = a * a * cov n u u).
    { rewrite (cov_ext n v v (fun t => a * u t + c) (fun t => a * u t + c)) by (intros; apply Hv; assumption). apply cov_affine; assumption. }
    rewrite Euv, Evv. replace (cov n u u * (a * a * cov n u u)) with ((a * cov n u u) * (a * cov n u u)) by ring.
    rewrite sqrt_square by nra. field. nra.
Qed.
(** hence a series delayed by d samples is found at shift d: if y is x advanced by d (zeros shifted in), entry max_shift + d is 1 *)
Theorem pearson_detects_shift m x y T d : shape x = [T] -> shape y = [T] -> (0 < T)%nat -> (- Z.of_nat m <= d <= Z.of_nat m)%Z ->
  (forall t, (t < T)%nat -> elt y [t] = moved T d (fun t => elt x [t]) t) ->
  cov T (fun t => elt y [t]) (fun t => elt y [t]) <> 0 ->
  exists r, pearson m x y = Ok r /\ get r [Z.to_nat (Z.of_nat m + d)] = Some (Some 1).
Proof.
  intros Sx Sy HT Hd Hy Hc. destruct (pearson_spec m x y [] [] T Sx Sy ltac:(cbn; lia) HT ltac:(constructor)) as [r [E [Sr G]]].
  exists r. split; [assumption|]. specialize (G (Z.to_nat (Z.of_nat m + d)) [] [] ltac:(lia) I I). cbn [app] in G. rewrite G. f_equal.
  replace (Z.of_nat (Z.to_nat (Z.of_nat m + d)) - Z.of_nat m)%Z with d by lia.
  apply pearson_one_iff; [assumption| |].
  - unfold pearson_coef. rewrite (cov_ext T (moved T d _) (moved T d _) (fun t => elt y [t]) (fun t => elt y [t])) by (intros; symmetry; apply Hy; assumption).
    destruct (Req_EM_T _ _) as [Z|]; [|eauto]. elim Hc. nra.
  - exists 1, 0. split; [lra|]. intros t Ht. rewrite Hy by assumption. ring.
Qed.

(** ** non-vacuity: x = (0, 1, 0), y = (1, 0, 0), shift 1 *)
Example pearson_ex : exists r, pearson 1 (mk [3%nat] (fun i => if (hd 0 i =? 1)%nat then 1 else 0)) (mk [3%nat] (fun i => if (hd 0 i =? 0)%nat then 1 else 0)) = Ok r /\
  get r [2%nat] = Some (Some 1).
Proof.
  apply (pearson_detects_shift 1 _ _ 3 1); try reflexivity; try lia.
  - intros t Ht. destruct t as [|[|[|t]]]; [| | |lia]; cbn; reflexivity.
  - unfold cov, avg. cbn. lra.
Qed.
Example pearson_2d_ex : exists r, pearson 4 (mk [5; 2; 7]%nat (fun _ => 1)) (mk [2; 7]%nat (fun i => INR (last i 0%nat))) = Ok r /\ shape r = [9; 5; 2]%nat.
Proof.
  destruct (pearson_spec 4 (mk [5; 2; 7]%nat (fun _ => 1)) (mk [2; 7]%nat (fun i => INR (last i 0%nat))) [5%nat] [2%nat] 7) as [r [E [Sr _]]]; try reflexivity; cbn; try lia.
  - repeat constructor.
  - exists r. split; assumption.
Qed.
