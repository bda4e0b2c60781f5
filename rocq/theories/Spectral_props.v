(** Properties C33, C34: shape validation and power spectral densities. *)
From Coq Require Import String Permutation Sorted.
From Verif Require Import Base Tensor Rutil Slicing_model Slicing_proofs Streaming_model Norm_model Norm_props Gw_model Gw_props Dft Snr_props Spectral_model.
From Coquelicot Require Import Complex.
Local Open Scope R_scope.

(** ** C33: which pairs of shapes are accepted *)
(** the documented combinations: x and y of the same shape; x (channel, time) with y (time);
    x (batch, channel, time) with y (batch, time) *)
Definition documented_pair (x y : list nat) : Prop :=
  y = x \/ (exists c t, x = [c; t] /\ y = [t]) \/ (exists b c t, x = [b; c; t] /\ y = [b; t]).

Theorem validate_shapes_spec x nperseg y : x <> [] -> y <> Some [] ->
  (validate_shapes x nperseg y = Ok tt <->
     (nperseg <= last x 0)%nat /\ (List.length x <= 3)%nat /\ match y with None => True | Some y => documented_pair x y end) /\
  (validate_shapes x nperseg y <> Ok tt -> validate_shapes x nperseg y = Err ValueError).
Proof.
  intros Hx Hy. unfold validate_shapes. destruct x as [|x0 x]; [congruence|]. set (X := x0 :: x) in *.
  destruct (Nat.ltb_spec (last X 0%nat) nperseg) as [H1|H1].
  { split; [split; [discriminate|lia]|reflexivity]. }
  destruct (Nat.ltb_spec 3 (List.length X)) as [H2|H2].
  { split; [split; [discriminate|lia]|reflexivity]. }
  destruct y as [y|]; [|split; [tauto|congruence]].
  destruct y as [|y0 y]; [congruence|]. set (Y := y0 :: y) in *.
  destruct (Nat.eqb_spec (last X 0%nat) (last Y 0%nat)) as [E|E]; cbn [negb].
  2:{ split; [|reflexivity]. split; [discriminate|]. intros [_ [_ [D|[[c [t [D1 D2]]]|[b [c [t [D1 D2]]]]]]]]; exfalso; apply E;
      [congruence|rewrite D1, D2; reflexivity|rewrite D1, D2; reflexivity]. }
  assert (K : forall (P Q : Prop) (r : res unit), (P <-> r = Ok tt) -> (r = Ok tt \/ r = Err ValueError) ->
     (r = Ok tt <-> (nperseg <= last X 0)%nat /\ (List.length X <= 3)%nat /\ P) /\ (r <> Ok tt -> r = Err ValueError)) by (intros; split; tauto).
  apply (K _ True); [|repeat match goal with |- context [if ?c then _ else _] => destruct c end; tauto].
  unfold X, Y, documented_pair in *. clear K H1.
  destruct x as [|x1 [|x2 [|? ?]]]; cbn [List.length] in *; [| | |lia].
  - destruct y as [|y1 y]; cbn; [|split; [intros [D|[[c [t [D1 D2]]]|[b [c [t [D1 D2]]]]]]; congruence|discriminate]].
    cbn in E. split; [reflexivity|]. left; congruence.
  - destruct y as [|y1 [|y2 y]].
    + cbn in E |- *. split; [reflexivity|]. intros _. right; left. exists x0, x1. subst; auto.
    + cbn -[list_eq_dec]. destruct (list_eq_dec Nat.eq_dec [y0; y1] [x0; x1]) as [D|D]; [tauto|].
      split; [|discriminate]. intros [D'|[[c [t [D1 D2]]]|[b [c [t [D1 D2]]]]]]; congruence.
    + cbn. split; [|destruct (List.length y =? 0)%nat; discriminate]. intros [D'|[[c [t [D1 D2]]]|[b [c [t [D1 D2]]]]]]; congruence.
  - destruct y as [|y1 [|y2 [|y3 y]]].
    + cbn. split; [|discriminate]. intros [D'|[[c [t [D1 D2]]]|[b [c [t [D1 D2]]]]]]; congruence.
    + cbn in E |- *. destruct (Nat.eqb_spec y0 x0) as [D|D]; cbn [negb].
      * split; [reflexivity|]. intros _. right; right. exists x0, x1, x2. subst; auto.
      * split; [|discriminate]. intros [D'|[[c [t [D1 D2]]]|[b [c [t [D1 D2]]]]]]; congruence.
    + cbn -[list_eq_dec]. destruct (list_eq_dec Nat.eq_dec [y0; y1; y2] [x0; x1; x2]) as [D|D]; [tauto|].
      split; [|discriminate]. intros [D'|[[c [t [D1 D2]]]|[b [c [t [D1 D2]]]]]]; congruence.
    + cbn. split; [|destruct (List.length y =? 0)%nat; discriminate]. intros [D'|[[c [t [D1 D2]]]|[b [c [t [D1 D2]]]]]]; congruence.
Qed.
(** the docstring of fast_spectral_density also promises that a 2D y whose 0th dimension differs from x's batch is
    treated as one multi-channel timeseries for all batch elements: it is always rejected *)
Theorem unbatched_multichannel_y_refuted b c t nperseg : (b <> c)%nat -> (nperseg <= t)%nat ->
  validate_shapes [b; c; t] nperseg (Some [c; t]) = Err ValueError.
Proof.
  intros H Hn. unfold validate_shapes. cbn. replace (t <? nperseg)%nat with false by lia. rewrite Nat.eqb_refl. cbn.
  replace (c =? b)%nat with false by lia. reflexivity.
Qed.
Example validate_ex : validate_shapes [4; 2; 100]%nat 64 (Some [4; 100]%nat) = Ok tt /\ validate_shapes [4; 2; 100]%nat 64 (Some [2; 100]%nat) = Err ValueError.
Proof. split; reflexivity. Qed.

(** ** the median *)
Lemma rinsert_perm x l : Permutation (x :: l) (rinsert x l).
Proof.
  induction l as [|y l IH]; cbn; [reflexivity|]. destruct (Rle_dec x y); [reflexivity|].
  eapply perm_trans; [apply perm_swap|]. constructor. exact IH.
Qed.
Lemma rsort_perm l : Permutation l (rsort l).
Proof. induction l as [|x l IH]; cbn; [reflexivity|]. eapply perm_trans; [|apply rinsert_perm]. constructor; exact IH. Qed.
Lemma rinsert_sorted x l : StronglySorted Rle l -> StronglySorted Rle (rinsert x l).
Proof.
  induction 1 as [|y l HS IH HF]; cbn; [repeat constructor|]. destruct (Rle_dec x y).
  - constructor; [constructor; assumption|]. constructor; [assumption|]. rewrite Forall_forall in *. intros z Hz. apply Rle_trans with y; auto.
  - constructor; [exact IH|]. rewrite Forall_forall in *. intros z Hz.
    apply (Permutation_in _ (Permutation_sym (rinsert_perm x l))) in Hz. destruct Hz as [->|Hz]; [lra|auto].
Qed.
Lemma rsort_sorted l : StronglySorted Rle (rsort l).
Proof. induction l; cbn; [constructor|apply rinsert_sorted; assumption]. Qed.
Lemma sorted_perm_eq l m : StronglySorted Rle l -> StronglySorted Rle m -> Permutation l m -> l = m.
Proof.
  intros Hl. revert m. induction Hl as [|x l HS IH HF]; intros m Hm P.
  - apply Permutation_nil in P. congruence.
  - destruct m as [|y m]; [apply Permutation_sym, Permutation_nil in P; discriminate|].
    inversion Hm as [|? ? Sm Fm]; subst. rewrite Forall_forall in HF, Fm.
    assert (x = y).
    { assert (In y (x :: l)) as [|I1] by (eapply Permutation_in; [apply Permutation_sym; exact P|left; reflexivity]); [assumption|].
      assert (In x (y :: m)) as [|I2] by (eapply Permutation_in; [exact P|left; reflexivity]); [congruence|].
      apply Rle_antisym; auto. }
    subst y. f_equal. apply IH; [assumption|]. eapply Permutation_cons_inv; exact P.
Qed.
Lemma rsort_unique l m : Permutation l m -> rsort l = rsort m.
Proof.
  intros P. apply sorted_perm_eq; try apply rsort_sorted.
  eapply perm_trans; [apply Permutation_sym, rsort_perm|]. eapply perm_trans; [exact P|apply rsort_perm].
Qed.
Lemma rsort_length l : List.length (rsort l) = List.length l.
Proof. symmetry. apply Permutation_length, rsort_perm. Qed.
Lemma rsort_map_mono g l : (forall a b, a <= b -> g a <= g b) -> rsort (map g l) = map g (rsort l).
Proof.
  intros Hg. apply sorted_perm_eq; [apply rsort_sorted| |].
  - induction (rsort_sorted l) as [|x k HS IH HF]; cbn; constructor; [assumption|]. rewrite Forall_map. eapply Forall_impl; [|exact HF]. auto.
  - eapply perm_trans; [apply Permutation_sym, rsort_perm|]. apply Permutation_map, rsort_perm.
Qed.

(** textbook median: the middle one of the sorted values, the average of the two middle ones when their number is even *)
Theorem quantile_half_spec n f s : (0 < n)%nat -> StronglySorted Rle s -> Permutation s (map f (seq 0 n)) ->
  quantile_half n f = if Nat.odd n then nth (n / 2) s 0 else (nth (n / 2 - 1) s 0 + nth (n / 2) s 0) / 2.
Proof.
  intros Hn HS HP. unfold quantile_half.
  rewrite (rsort_unique _ s) by (apply Permutation_sym; exact HP).
  rewrite (sorted_perm_eq (rsort s) s) by (auto using rsort_sorted, Permutation_sym, rsort_perm).
  rewrite <- Nat.negb_odd. destruct (Nat.odd n) eqn:O; cbn [negb].
  - apply Nat.odd_spec in O as [m ->].
    assert (E1 : ((2 * m + 1 - 1) / 2 = m)%nat) by (replace (2 * m + 1 - 1)%nat with (m * 2)%nat by lia; apply Nat.div_mul; lia).
    assert (E2 : ((2 * m + 1) / 2 = m)%nat) by (symmetry; apply Nat.div_unique with 1%nat; lia).
    rewrite E1, E2. ring.
  - assert (Ev : Nat.even n = true) by (rewrite <- Nat.negb_odd, O; reflexivity). apply Nat.even_spec in Ev as [m ->].
    assert (E1 : ((2 * m - 1) / 2 = m - 1)%nat) by (symmetry; apply Nat.div_unique with 1%nat; lia).
    assert (E2 : (2 * m / 2 = m)%nat) by (rewrite Nat.mul_comm; apply Nat.div_mul; lia).
    rewrite E1, E2. field.
Qed.
(** the bias is the partial sum of the alternating harmonic series, between 1/2 and 1 *)
Lemma median_bias_S k : median_bias (2 * S k + 1) = median_bias (2 * k + 1) - 1 / ((2 * INR k + 2) * (2 * INR k + 3)).
Proof.
  unfold median_bias.
  assert (E : forall m, ((2 * m + 1 - 1) / 2 = m)%nat) by (intros m; replace (2 * m + 1 - 1)%nat with (m * 2)%nat by lia; apply Nat.div_mul; lia).
  rewrite !E. cbn [Rsum]. cbv zeta. pose proof (pos_INR k). field. lra.
Qed.
Lemma median_bias_bounds_odd k : 1 / 2 + 1 / (2 * (2 * INR k + 1)) <= median_bias (2 * k + 1) <= 1.
Proof.
  induction k as [|k IH].
  - unfold median_bias. change ((2 * 0 + 1 - 1) / 2)%nat with 0%nat. cbn [Rsum INR]. lra.
  - rewrite median_bias_S, S_INR. pose proof (pos_INR k) as P. set (a := INR k) in *.
    assert (E : 1 / (2 * (2 * a + 1)) - 1 / (2 * (2 * (a + 1) + 1)) - 1 / ((2 * a + 2) * (2 * a + 3)) = 1 / ((2 * a + 1) * (2 * a + 2) * (2 * a + 3))) by (field; lra).
    assert (0 < 1 / ((2 * a + 1) * (2 * a + 2) * (2 * a + 3))) by (apply Rdiv_lt_0_compat; [lra|]; repeat apply Rmult_lt_0_compat; lra).
    assert (0 < 1 / ((2 * a + 2) * (2 * a + 3))) by (apply Rdiv_lt_0_compat; [lra|]; repeat apply Rmult_lt_0_compat; lra).
    lra.
Qed.
Theorem median_bias_bounds n : 1 / 2 < median_bias n <= 1.
Proof.
  assert (E : median_bias n = median_bias (2 * ((n - 1) / 2) + 1)).
  { unfold median_bias. replace (2 * ((n - 1) / 2) + 1 - 1)%nat with ((n - 1) / 2 * 2)%nat by lia. rewrite Nat.div_mul by lia. reflexivity. }
  rewrite E. pose proof (median_bias_bounds_odd ((n - 1) / 2)) as B. pose proof (pos_INR ((n - 1) / 2)) as P.
  assert (0 < 1 / (2 * (2 * INR ((n - 1) / 2) + 1))) by (apply Rdiv_lt_0_compat; lra). lra.
Qed.
Lemma median_ext n f g : (forall i, (i < n)%nat -> f i = g i) -> median n f = median n g.
Proof.
  intros H. unfold median, quantile_half. replace (map f (seq 0 n)) with (map g (seq 0 n)); [reflexivity|].
  apply map_ext_in. intros i I0. apply in_seq in I0. symmetry; apply H; lia.
Qed.
Lemma mean_ext n f g : (forall i, (i < n)%nat -> f i = g i) -> mean n f = mean n g.
Proof. intros H. unfold mean. f_equal. apply Rsum_ext; assumption. Qed.
Lemma aggregate_ext a n f g : (forall i, (i < n)%nat -> f i = g i) -> aggregate a n f = aggregate a n g.
Proof. unfold aggregate. destruct (string_dec a "mean"); [apply mean_ext|apply median_ext]. Qed.
Lemma nth_In_or_0 {n s} : nth n s 0 = 0 \/ In (nth n s 0) s.
Proof. destruct (Nat.lt_ge_cases n (List.length s)); [right; apply nth_In; assumption|left; apply nth_overflow; assumption]. Qed.
Lemma quantile_half_nonneg n f : (forall i, (i < n)%nat -> 0 <= f i) -> 0 <= quantile_half n f.
Proof.
  intros H. unfold quantile_half.
  assert (A : forall k, 0 <= nth k (rsort (map f (seq 0 n))) 0).
  { intros k. destruct (@nth_In_or_0 k (rsort (map f (seq 0 n)))) as [E|I0]; [lra|].
    apply (Permutation_in _ (Permutation_sym (rsort_perm _))) in I0. apply in_map_iff in I0 as [i [<- I0]]. apply in_seq in I0. apply H; lia. }
  pose proof (A ((n - 1) / 2)%nat). pose proof (A (n / 2)%nat). destruct (Nat.even n); lra.
Qed.
Lemma aggregate_nonneg a n f : (forall i, (i < n)%nat -> 0 <= f i) -> 0 <= aggregate a n f.
Proof.
  intros H. unfold aggregate. destruct (string_dec a "mean").
  - unfold mean, Rdiv. destruct n; [cbn; rewrite Rmult_0_l; lra|]. apply Rmult_le_pos; [apply Rsum_nonneg; assumption|].
    apply Rlt_le, Rinv_0_lt_compat, lt_0_INR; lia.
  - unfold median. pose proof (median_bias_bounds n). apply Rmult_le_pos; [apply quantile_half_nonneg; assumption|]. apply Rlt_le, Rinv_0_lt_compat; lra.
Qed.
Lemma quantile_half_scal c n f : 0 <= c -> quantile_half n (fun i => c * f i) = c * quantile_half n f.
Proof.
  intros Hc. unfold quantile_half. replace (map (fun i => c * f i) (seq 0 n)) with (map (Rmult c) (map f (seq 0 n))) by (rewrite map_map; reflexivity).
  rewrite rsort_map_mono by (intros; apply Rmult_le_compat_l; assumption).
  assert (E : forall k l, nth k (map (Rmult c) l) 0 = c * nth k l 0).
  { intros k l. rewrite <- (Rmult_0_r c) at 1. apply map_nth. }
  rewrite !E. destruct (Nat.even n); ring.
Qed.
Lemma aggregate_scal a c n f : 0 <= c -> aggregate a n (fun i => c * f i) = c * aggregate a n f.
Proof.
  intros Hc. unfold aggregate. destruct (string_dec a "mean").
  - unfold mean. rewrite Rsum_scal. unfold Rdiv; ring.
  - unfold median. rewrite quantile_half_scal by assumption. unfold Rdiv; ring.
Qed.
Lemma Rsum_list n f : Rsum n f = fold_right Rplus 0 (map f (seq 0 n)).
Proof.
  induction n; [reflexivity|]. rewrite seq_S, map_app, fold_right_app. cbn.
  assert (G : forall l a, fold_right Rplus a l = fold_right Rplus 0 l + a) by (intros l a; induction l as [|? l IH]; cbn; [lra|rewrite IH; lra]).
  rewrite G, <- IHn. lra.
Qed.
(** the aggregate depends only on the multiset of the values *)
Theorem aggregate_perm a n f g : Permutation (map f (seq 0 n)) (map g (seq 0 n)) -> aggregate a n f = aggregate a n g.
Proof.
  intros P. unfold aggregate. destruct (string_dec a "mean").
  - unfold mean. f_equal. rewrite !Rsum_list. revert P. generalize (map f (seq 0 n)), (map g (seq 0 n)). intros l m.
    induction 1; cbn; lra.
  - unfold median, quantile_half. rewrite (rsort_unique _ _ P). reflexivity.
Qed.
(** what the two averages are: the mean, and (for any other string) the textbook median of the values divided by the
    partial sum of the alternating harmonic series with the largest odd number of terms not exceeding n *)
Theorem aggregate_spec average n f s : (0 < n)%nat -> StronglySorted Rle s -> Permutation s (map f (seq 0 n)) ->
  aggregate average n f =
    if string_dec average "mean" then Rsum n f / INR n
    else (if Nat.odd n then nth (n / 2) s 0 else (nth (n / 2 - 1) s 0 + nth (n / 2) s 0) / 2)
         / Rsum (if Nat.odd n then n else n - 1) (fun k => (-1) ^ k / INR (k + 1)).
Proof.
  intros Hn HS HP. unfold aggregate. destruct (string_dec average "mean"); [reflexivity|].
  unfold median. rewrite (quantile_half_spec n f s Hn HS HP). f_equal.
  assert (Q : forall m, 1 + Rsum m (fun i => 1 / (2 * (INR i + 1) + 1) - 1 / (2 * (INR i + 1))) = Rsum (2 * m + 1) (fun k => (-1) ^ k / INR (k + 1))).
  { induction m as [|m IH]; [cbn; field|].
    replace (2 * S m + 1)%nat with (S (S (2 * m + 1))) by lia. cbn [Rsum]. rewrite <- IH.
    rewrite <- (tech_pow_Rmult (-1) (2 * m + 1)), pow_add, pow_mult, pow_1. replace ((-1) ^ 2) with 1 by ring. rewrite pow1.
    replace (INR (2 * m + 1 + 1)) with (2 * (INR m + 1)) by (rewrite !plus_INR, mult_INR; cbn [INR]; ring).
    replace (INR (S (2 * m + 1) + 1)) with (2 * (INR m + 1) + 1) by (rewrite plus_INR, S_INR, plus_INR, mult_INR; cbn [INR]; ring).
    pose proof (pos_INR m). field. lra. }
  unfold median_bias. cbv zeta. rewrite Q. f_equal.
  pose proof (Nat.odd_spec n) as O. destruct (Nat.odd n) eqn:E.
  - destruct (proj1 O eq_refl) as [m ->]. replace (2 * m + 1 - 1)%nat with (m * 2)%nat by lia. rewrite Nat.div_mul; lia.
  - assert (Ev : Nat.even n = true) by (rewrite <- Nat.negb_odd, E; reflexivity). apply Nat.even_spec in Ev as [m ->].
    replace ((2 * m - 1) / 2)%nat with (m - 1)%nat by (apply Nat.div_unique with 1%nat; lia). lia.
Qed.
Example aggregate_spec_ex : aggregate "median" 4 (fun i => nth i [4; 1; 3; 2] 0) = (2 + 3) / 2 / (1 - 1 / 2 + 1 / 3).
Proof.
  rewrite (aggregate_spec "median" 4 _ [1; 2; 3; 4]); [|lia| |].
  - change (4 / 2)%nat with 2%nat. cbn. field.
  - repeat constructor; lra.
  - cbn. apply (Permutation_cons_app [4] [3; 2] 1). apply (Permutation_cons_app [4; 3] [] 2). apply perm_swap.
Qed.
Lemma aggregate_const a n c : (0 < n)%nat -> aggregate a n (fun _ => c) = if string_dec a "mean" then c else c / median_bias n.
Proof.
  intros Hn. unfold aggregate. destruct (string_dec a "mean").
  - unfold mean. rewrite Rsum_const. field. apply not_0_INR; lia.
  - unfold median. f_equal. rewrite (quantile_half_spec n _ (repeat c n)); [| assumption | |].
    + assert (N : forall k, (k < n)%nat -> nth k (repeat c n) 0 = c).
      { intros k Hk. rewrite (nth_indep _ 0 c) by (rewrite repeat_length; assumption). apply nth_repeat. }
      assert (n / 2 < n)%nat by (apply Nat.div_lt; lia).
      rewrite !N by lia. destruct (Nat.odd n); lra.
    + induction n as [|m IH]; cbn; [lia|]. destruct m; [repeat constructor|]. constructor; [apply IH; lia|].
      apply Forall_forall. intros x Hx. apply repeat_spec in Hx. lra.
    + replace (map (fun _ => c) (seq 0 n)) with (repeat c n); [reflexivity|].
      clear Hn. generalize 0%nat. induction n; intros k; cbn; [reflexivity|]. f_equal. apply IHn.
Qed.
