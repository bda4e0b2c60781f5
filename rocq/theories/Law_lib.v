(** Facts about the laws of torch's draws. *)
From Coq Require Import Reals Lra Lia List ZArith Permutation.
Import ListNotations.
From Verif Require Import Base Tensor Slicing_model Data_model Norm_model Prob Law_model.
Local Open Scope R_scope.
Fixpoint lprod {A} (f : A -> R) (l : list A) : R := match l with [] => 1 | a :: l' => f a * lprod f l' end.
Lemma lprod_ext {A} (f g : A -> R) l : (forall a, In a l -> f a = g a) -> lprod f l = lprod g l.
Proof. induction l as [|a l IH]; intros H; cbn; [reflexivity|]. rewrite H by (left; reflexivity). rewrite IH; [reflexivity|]. intros b Hb. apply H. right. exact Hb. Qed.
Lemma lprod_const {A} c (l : list A) : lprod (fun _ => c) l = c ^ length l.
Proof. induction l as [|a l IH]; cbn; [reflexivity|]. rewrite IH. reflexivity. Qed.
Lemma pr_ret {A} (a : A) E : pr (ret a) E = if E a then 1 else 0.
Proof. unfold pr, ret. cbn. destruct (E a); lra. Qed.
Lemma pr_ext {A} (d : dist A) (E F : A -> bool) : (forall w a, In (w, a) d -> E a = F a) -> pr d E = pr d F.
Proof. intros H. unfold pr. apply lsum_ext. intros [w a] Hin. cbn. rewrite (H w a Hin). reflexivity. Qed.
Lemma pr_bind_ret {A B} (d : dist A) (f : A -> B) E : pr (dbind d (fun a => ret (f a))) E = pr d (fun a => E (f a)).
Proof. rewrite pr_bind. unfold pr at 2. apply lsum_ext. intros [w a] _. cbn [fst snd]. rewrite pr_ret. destruct (E (f a)); lra. Qed.
Lemma pr_scal {A} (d : dist A) c (E : A -> bool) : lsum (fun wa => if E (snd wa) then fst wa * c else 0) d = pr d E * c.
Proof. unfold pr. rewrite Rmult_comm, <- lsum_scal. apply lsum_ext. intros [w a] _. cbn. destruct (E a); lra. Qed.

(** independence: the probability of a product event *)
Lemma field_prob {A} (d : dist A) a0 cells (P : list nat -> A -> bool) : NoDup cells ->
  pr (field_law d a0 cells) (fun f => forallb (fun i => P i (f i)) cells) = lprod (fun i => pr d (P i)) cells.
Proof.
  induction cells as [|i l IH]; intros ND; [cbn; lra|]. inversion ND as [|? ? Hi ND']; subst. cbn [field_law lprod].
  rewrite pr_bind. rewrite (lsum_ext _ (fun wa => if P i (snd wa) then fst wa * lprod (fun i => pr d (P i)) l else 0)); [apply pr_scal|].
  intros [w a] _. cbn [fst snd]. rewrite pr_bind_ret. cbn [forallb].
  rewrite (pr_ext _ _ (fun f => (P i a && forallb (fun j => P j (f j)) l)%bool)).
  - destruct (P i a); cbn [andb].
    + rewrite IH by exact ND'. reflexivity.
    + unfold pr. rewrite lsum_zero by reflexivity. lra.
  - intros w' f _. destruct (list_eq_dec Nat.eq_dec i i) as [_|N]; [|congruence]. f_equal.
    assert (K : forall l', (forall j, In j l' -> j <> i) -> forallb (fun i0 => P i0 (if list_eq_dec Nat.eq_dec i0 i then a else f i0)) l' = forallb (fun j => P j (f j)) l').
    { induction l' as [|j l' IHl]; intros Hl; [reflexivity|]. cbn [forallb]. rewrite IHl by (intros; apply Hl; right; assumption). destruct (list_eq_dec Nat.eq_dec j i) as [E|_]; [exfalso; apply (Hl j); [left; reflexivity|exact E]|reflexivity]. }
    apply K. intros j Hj ->. contradiction.
Qed.
Lemma field_mass {A} (d : dist A) a0 cells : mass d = 1 -> mass (field_law d a0 cells) = 1.
Proof.
  intros H. induction cells as [|i l IH]; [cbn; lra|]. cbn [field_law]. rewrite mass_pr, (pr_bind_const _ _ _ 1); [lra|]. intros w a _.
  rewrite (pr_bind_const _ _ _ 1); [lra|]. intros; apply pr_ret.
Qed.
Lemma all_idx_NoDup s : NoDup (all_idx s).
Proof.
  induction s as [|d s IH]; cbn [all_idx]; [constructor; [intros []|constructor]|].
  assert (K : forall l, NoDup l -> NoDup (flat_map (fun x => map (cons x) (all_idx s)) l)).
  { induction l as [|x l IHl]; intros ND; [constructor|]. inversion ND; subst. cbn [flat_map].
    assert (D : forall i, In i (map (cons x) (all_idx s)) -> ~ In i (flat_map (fun y => map (cons y) (all_idx s)) l)).
    { intros i Hi Hj. apply in_map_iff in Hi as (i1 & <- & _). apply in_flat_map in Hj as (y & Hy & Hj). apply in_map_iff in Hj as (i2 & E & _). injection E as -> _. contradiction. }
    assert (N1 : NoDup (map (cons x) (all_idx s))).
    { clear -IH. induction IH as [|a l Ha _ IH]; cbn; constructor; [|exact IH]. rewrite in_map_iff. intros (b & E & Hb). injection E as ->. contradiction. }
    assert (N2 := IHl H2). clear -D N1 N2. induction (map (cons x) (all_idx s)) as [|a m IHm]; [exact N2|]. inversion N1; subst. cbn. constructor.
    - rewrite in_app_iff. intros [Q|Q]; [contradiction|]. apply (D a); [left; reflexivity|exact Q].
    - apply IHm; [|assumption]. intros i Hi. apply D. right. exact Hi. }
  apply K, seq_NoDup.
Qed.
Lemma all_idx_length s : length (all_idx s) = prod s.
Proof.
  induction s as [|d s IH]; [reflexivity|]. cbn [all_idx prod].
  assert (K : forall l, length (flat_map (fun x => map (cons x) (all_idx s)) l) = (length l * prod s)%nat).
  { induction l as [|x l IHl]; [reflexivity|]. cbn [flat_map length]. rewrite app_length, map_length, IHl, IH. reflexivity. }
  rewrite K, seq_length. reflexivity.
Qed.

(** ** one word modulo a range *)
Definition count (p : nat -> bool) (l : list nat) : nat := length (filter p l).
Lemma count_seq_S p n : count p (seq 0 (S n)) = (count p (seq 0 n) + if p n then 1 else 0)%nat.
Proof. rewrite seq_S. unfold count. rewrite filter_app, app_length. cbn. destruct (p n); reflexivity. Qed.
Lemma count_mod r a M : (0 < r)%nat -> (a < r)%nat -> count (fun w => Nat.eqb (w mod r) a) (seq 0 M) = (M / r + if a <? M mod r then 1 else 0)%nat.
Proof.
  intros Hr Ha. induction M as [|M IH].
  - rewrite Nat.div_0_l, Nat.mod_0_l by lia. reflexivity.
  - rewrite count_seq_S, IH. pose proof (Nat.div_mod M r ltac:(lia)) as D. pose proof (Nat.mod_upper_bound M r ltac:(lia)) as B.
    destruct (Nat.eq_dec (M mod r) (r - 1)) as [E|E].
    + assert (S M = r * S (M / r) + 0)%nat as D2 by nia. rewrite <- (Nat.div_unique (S M) r (S (M / r)) 0 ltac:(lia) D2), <- (Nat.mod_unique (S M) r (S (M / r)) 0 ltac:(lia) D2).
      rewrite E. destruct (Nat.eqb_spec (r - 1) a), (Nat.ltb_spec a (r - 1)), (Nat.ltb_spec a 0); lia.
    + assert (S M = r * (M / r) + S (M mod r))%nat as D2 by nia. rewrite <- (Nat.div_unique (S M) r (M / r) (S (M mod r)) ltac:(lia) D2), <- (Nat.mod_unique (S M) r (M / r) (S (M mod r)) ltac:(lia) D2).
      destruct (Nat.eqb_spec (M mod r) a), (Nat.ltb_spec a (M mod r)), (Nat.ltb_spec a (S (M mod r))); lia.
Qed.
Lemma lsum_count (p : nat -> bool) c l : lsum (fun i => if p i then c else 0) l = INR (count p l) * c.
Proof. unfold count. induction l as [|a l IH]; [cbn; lra|]. cbn [lsum filter]. rewrite IH. destruct (p a); cbn [length]; [rewrite S_INR|]; lra. Qed.
(** a word modulo r: every residue has probability 1/r up to 1/M, exactly 1/r when r divides M *)
Lemma word_residue M r a : (0 < r <= M)%nat -> (a < r)%nat ->
  Rabs (pr (word_law M) (fun w => Z.eqb (w mod Z.of_nat r) (Z.of_nat a)) - / INR r) < / INR M
  /\ ((M mod r = 0)%nat -> pr (word_law M) (fun w => Z.eqb (w mod Z.of_nat r) (Z.of_nat a)) = / INR r).
Proof.
  intros [Hr HM] Ha. unfold pr, word_law. rewrite lsum_map. cbn [fst snd].
  rewrite (lsum_ext _ (fun i => if Nat.eqb (i mod r) a then / INR M else 0)).
  2:{ intros i _. rewrite <- Nat2Z.inj_mod. destruct (Z.eqb_spec (Z.of_nat (i mod r)) (Z.of_nat a)), (Nat.eqb_spec (i mod r) a); try reflexivity; lia. }
  rewrite lsum_count, count_mod by assumption.
  assert (PM : 0 < INR M) by (apply lt_0_INR; lia). assert (Pr : 0 < INR r) by (apply lt_0_INR; lia).
  pose proof (Nat.div_mod M r ltac:(lia)) as D. pose proof (Nat.mod_upper_bound M r ltac:(lia)) as B.
  assert (DI : INR M = INR r * INR (M / r) + INR (M mod r)) by (rewrite <- mult_INR, <- plus_INR, <- D; reflexivity).
  assert (BI : INR (M mod r) < INR r) by (apply lt_INR; exact B). assert (B0 := pos_INR (M mod r)).
  assert (QR : forall q, q * / INR M - / INR r = (q * INR r - INR M) / INR r * / INR M) by (intros q; field; lra).
  split.
  - rewrite QR, Rabs_mult, (Rabs_pos_eq (/ INR M)) by (apply Rlt_le, Rinv_0_lt_compat, PM).
    assert (K : Rabs ((INR (M / r + (if a <? M mod r then 1 else 0)) * INR r - INR M) / INR r) < 1).
    { apply Rabs_def1.
      - apply Rmult_lt_reg_r with (INR r); [exact Pr|]. unfold Rdiv. rewrite Rmult_assoc, Rinv_l, Rmult_1_r, Rmult_1_l by lra. rewrite plus_INR. destruct (Nat.ltb_spec a (M mod r)) as [L|L]; cbn [INR]; [|nra].
        assert (1 <= INR (M mod r)) by (change 1 with (INR 1); apply le_INR; lia). nra.
      - apply Rmult_lt_reg_r with (INR r); [exact Pr|]. unfold Rdiv. rewrite (Rmult_assoc (_ - _)), Rinv_l, Rmult_1_r by lra. rewrite plus_INR. destruct (Nat.ltb_spec a (M mod r)) as [L|L]; cbn [INR]; nra. }
    rewrite <- (Rmult_1_l (/ INR M)) at 2. apply Rmult_lt_compat_r; [apply Rinv_0_lt_compat, PM|exact K].
  - intros E. rewrite E in *. replace (a <? 0) with false by (symmetry; apply Nat.ltb_ge; lia). rewrite Nat.add_0_r. cbn [INR] in DI. rewrite DI, Rplus_0_r.
    assert (INR (M / r) <> 0) by (intros Q; rewrite Q in DI; cbn in DI; lra). field. split; [lra|assumption].
Qed.
Lemma word_mass M : (0 < M)%nat -> mass (word_law M) = 1.
Proof. intros H. unfold mass, word_law. rewrite lsum_map. cbn [fst]. rewrite lsum_const, seq_length. apply Rinv_r. apply not_0_INR. lia. Qed.
Lemma rand_mass M : (0 < M)%nat -> mass (rand_law M) = 1.
Proof. intros H. unfold mass, rand_law. rewrite lsum_map. cbn [fst]. rewrite lsum_const, seq_length. apply Rinv_r. apply not_0_INR. lia. Qed.

(** ** torch.rand < prob *)
Definition below (prob v : R) : bool := if Rlt_dec v prob then true else false.
Lemma rand_below N prob : (0 < N)%nat -> 0 <= prob <= 1 ->
  prob <= pr (rand_law N) (below prob) < prob + / INR N
  /\ (forall k, prob = INR k / INR N -> pr (rand_law N) (below prob) = prob)
  /\ pr (rand_law N) (fun v => negb (below prob v)) = 1 - pr (rand_law N) (below prob).
Proof.
  intros HN [H0 H1]. assert (PN : 0 < INR N) by (apply lt_0_INR; lia). split; [|split].
  3:{ assert (M := rand_mass N HN). rewrite mass_pr in M. rewrite <- M. unfold pr, rand_law. rewrite !lsum_map. cbn [fst snd].
      assert (K : forall l, lsum (fun k => if negb (below prob (INR k / INR N)) then / INR N else 0) l = lsum (fun _ => / INR N) l - lsum (fun k => if below prob (INR k / INR N) then / INR N else 0) l).
      { induction l as [|k l IH]; cbn [lsum]; [lra|]. rewrite IH. destruct (below prob (INR k / INR N)); cbn [negb]; lra. } apply K. }
  all: unfold pr, rand_law; rewrite lsum_map; cbn [fst snd]; rewrite (lsum_count (fun k => below prob (INR k / INR N)) (/ INR N)).
  - assert (K : forall n, (n <= N)%nat -> (INR n <= prob * INR N /\ count (fun k => below prob (INR k / INR N)) (seq 0 n) = n) \/ (prob * INR N < INR n /\ prob * INR N <= INR (count (fun k => below prob (INR k / INR N)) (seq 0 n)) < prob * INR N + 1)).
    { induction n as [|n IH]; intros Hn; [left; cbn; split; [nra|reflexivity]|]. rewrite count_seq_S, S_INR.
      assert (BL : below prob (INR n / INR N) = true <-> INR n < prob * INR N).
      { unfold below. assert (E : INR n = INR n / INR N * INR N) by (field; lra). destruct (Rlt_dec (INR n / INR N) prob) as [L|L]; split; intros Q; try congruence; [nra|]. exfalso. nra. }
      destruct (IH ltac:(lia)) as [[A ->]|[A B]].
      - destruct (Rlt_dec (INR n) (prob * INR N)) as [L|L].
        + rewrite (proj2 BL L). destruct (Rle_dec (INR n + 1) (prob * INR N)); [left; split; [assumption|lia]|right; rewrite plus_INR; cbn [INR]; lra].
        + destruct (below prob (INR n / INR N)) eqn:E; [assert (QQ := proj1 BL eq_refl); lra|]. right. rewrite Nat.add_0_r. lra.
      - destruct (below prob (INR n / INR N)) eqn:E; [assert (QQ := proj1 BL eq_refl); lra|]. right. rewrite Nat.add_0_r. lra. }
    destruct (K N ltac:(lia)) as [[A ->]|[A B]].
    + rewrite Rinv_r by lra. assert (0 < / INR N) by (apply Rinv_0_lt_compat, PN). split; [lra|]. nra.
    + assert (PI : 0 < / INR N) by (apply Rinv_0_lt_compat, PN). assert (E : prob = prob * INR N * / INR N) by (field; lra). split; nra.
  - intros j Hj. assert (J : (j <= N)%nat). { apply INR_le. apply (f_equal (fun t => t * INR N)) in Hj. unfold Rdiv in Hj. rewrite Rmult_assoc, Rinv_l, Rmult_1_r in Hj by lra. nra. }
    assert (K : forall n, (n <= N)%nat -> count (fun k => below prob (INR k / INR N)) (seq 0 n) = Nat.min n j).
    { induction n as [|n IH]; intros Hn; [reflexivity|]. rewrite count_seq_S, IH by lia.
      assert (BL : below prob (INR n / INR N) = (n <? j)).
      { unfold below. rewrite Hj. destruct (Nat.ltb_spec n j) as [L|L]; [apply lt_INR in L|apply le_INR in L]; destruct (Rlt_dec _ _) as [Q|Q]; try reflexivity; exfalso.
        - apply Q. unfold Rdiv. apply Rmult_lt_compat_r; [apply Rinv_0_lt_compat, PN|exact L].
        - assert (INR n / INR N * INR N < INR j / INR N * INR N) by (apply Rmult_lt_compat_r; assumption). unfold Rdiv in H. rewrite !Rmult_assoc, Rinv_l, !Rmult_1_r in H by lra. lra. }
      rewrite BL. destruct (Nat.ltb_spec n j); lia. }
    rewrite K by lia. rewrite Nat.min_r by exact J. rewrite Hj. reflexivity.
Qed.

(** ** uniform permutations *)
Lemma remove_len i (l : list nat) : NoDup l -> In i l -> length (remove Nat.eq_dec i l) = (length l - 1)%nat.
Proof.
  intros ND Hi. induction l as [|a l IH]; [destruct Hi|]. inversion ND as [|? ? Ha ND']; subst. cbn [remove length]. destruct (Nat.eq_dec i a) as [->|E].
  - rewrite notin_remove by exact Ha. lia.
  - destruct Hi as [->|Hi]; [congruence|]. cbn [length]. rewrite IH by assumption. destruct l; [destruct Hi|cbn; lia].
Qed.
Lemma remove_nodup i (l : list nat) : NoDup l -> NoDup (remove Nat.eq_dec i l).
Proof.
  intros ND. induction ND as [|a l Ha ND IH]; [constructor|]. cbn [remove]. destruct (Nat.eq_dec i a); [exact IH|]. constructor; [|exact IH]. intros Q. apply in_remove in Q. tauto.
Qed.
Lemma lsum_one {A} (l : list A) : lsum (fun _ => 1) l = INR (length l).
Proof. rewrite lsum_const. lra. Qed.
Lemma shuffle_support k left w p : NoDup left -> (k <= length left)%nat -> In (w, p) (shuffle_law k left) -> length p = k /\ NoDup p /\ (forall x, In x p -> In x left).
Proof.
  revert left w p. induction k as [|k IH]; intros left w p ND Hk Hin.
  - destruct Hin as [E|[]]. injection E as _ <-. split; [reflexivity|]. split; [constructor|intros x []].
  - cbn [shuffle_law] in Hin. apply in_bind in Hin as (w1 & i & u & H1 & H2). apply in_map_iff in H1 as (j & E & Hj). injection E as _ ->. apply in_bind in H2 as (w2 & q & u2 & H3 & H4). destruct H4 as [E|[]]. injection E as _ <-.
    destruct (IH (remove Nat.eq_dec i left) w2 q) as (L & N & S); [apply remove_nodup, ND|rewrite remove_len by assumption; lia|exact H3|].
    split; [cbn; lia|]. split; [constructor; [|exact N]; intros Q; apply S in Q; apply in_remove in Q; tauto|]. intros x [<-|Hx]; [exact Hj|]. apply S in Hx. apply in_remove in Hx. tauto.
Qed.
Lemma perm_support n w p : In (w, p) (perm_law n) -> Permutation p (seq 0 n).
Proof.
  intros H. destruct (shuffle_support n (seq 0 n) w p (seq_NoDup n 0) ltac:(rewrite seq_length; lia) H) as (L & N & S).
  apply NoDup_Permutation_bis; [exact N|rewrite seq_length; lia|exact S].
Qed.
Definition at_pos (r w : nat) (p : list nat) : bool := match nth_error p r with Some x => Nat.eqb x w | None => false end.
Lemma shuffle_mass k left : NoDup left -> (k <= length left)%nat -> mass (shuffle_law k left) = 1.
Proof.
  revert left. induction k as [|k IH]; intros left ND Hk; [cbn; lra|]. cbn [shuffle_law]. rewrite mass_pr, (pr_bind_const _ _ _ 1).
  - rewrite categorical_mass; [lra|]. rewrite lsum_one. apply not_0_INR. lia.
  - intros w i Hi. apply in_map_iff in Hi as (j & E & Hj). injection E as _ ->. rewrite (pr_bind_const _ _ _ 1); [|intros; apply pr_ret]. rewrite IH; [lra|apply remove_nodup, ND|rewrite remove_len by assumption; lia].
Qed.
Lemma shuffle_pos k left r w : NoDup left -> (r < k)%nat -> (k <= length left)%nat -> In w left -> pr (shuffle_law k left) (at_pos r w) = / INR (length left).
Proof.
  revert left r w. induction k as [|k IH]; intros left r w ND Hr Hk Hw; [lia|]. cbn [shuffle_law]. rewrite pr_bind. unfold categorical. rewrite lsum_map. cbn [fst snd]. rewrite lsum_one.
  assert (PL : 0 < INR (length left)) by (apply lt_0_INR; lia).
  destruct r as [|r].
  - rewrite (lsum_ext _ (fun i => if Nat.eqb i w then / INR (length left) else 0)).
    + apply (lsum_single (fun _ => / INR (length left)) (fun i => Nat.eqb i w) left w); [exact ND|exact Hw|intros b _; apply Nat.eqb_eq].
    + intros i Hi. rewrite pr_bind_ret. unfold at_pos. cbn [nth_error]. destruct (Nat.eqb i w).
      * change (pr (shuffle_law k (remove Nat.eq_dec i left)) (fun _ => true)) with (mass (shuffle_law k (remove Nat.eq_dec i left))). rewrite shuffle_mass; [lra|apply remove_nodup, ND|rewrite remove_len by assumption; lia].
      * unfold pr. rewrite lsum_zero by reflexivity. lra.
  - assert (PL1 : 0 < INR (length left - 1)) by (apply lt_0_INR; lia).
    rewrite (lsum_ext _ (fun i => if Nat.eqb i w then 0 else / INR (length left) * / INR (length left - 1))).
    + assert (K : forall l, NoDup l -> In w l -> lsum (fun i => if Nat.eqb i w then 0 else / INR (length left) * / INR (length left - 1)) l = INR (length l - 1) * (/ INR (length left) * / INR (length left - 1))).
      { induction l as [|a l IHl]; intros NDl Hl; [destruct Hl|]. inversion NDl as [|? ? Ha NDl']; subst. cbn [lsum length]. replace (S (length l) - 1)%nat with (length l) by lia. destruct (Nat.eqb_spec a w) as [->|E].
        - rewrite (lsum_ext _ (fun _ => / INR (length left) * / INR (length left - 1))); [rewrite lsum_const; lra|]. intros b Hb. destruct (Nat.eqb_spec b w) as [->|_]; [contradiction|reflexivity].
        - destruct Hl as [->|Hl]; [congruence|]. rewrite IHl by assumption. assert (length l <> 0)%nat by (destruct l; [destruct Hl|discriminate]). replace (INR (length l)) with (INR (length l - 1) + 1) by (rewrite <- S_INR; f_equal; lia). lra. }
      rewrite K by assumption. field. split; lra.
    + intros i Hi. rewrite pr_bind_ret. unfold at_pos at 1. cbn [nth_error]. change (fun a : list nat => match nth_error a r with Some x => Nat.eqb x w | None => false end) with (at_pos r w).
      destruct (Nat.eqb_spec i w) as [->|E].
      * rewrite (pr_ext _ _ (fun _ => false)). { unfold pr. rewrite lsum_zero by reflexivity. lra. } intros w' p Hp. destruct (shuffle_support k _ _ _ (remove_nodup w left ND) ltac:(rewrite remove_len by assumption; lia) Hp) as (_ & _ & S).
        unfold at_pos. destruct (nth_error p r) as [x|] eqn:En; [|reflexivity]. apply Nat.eqb_neq. intros ->. apply nth_error_In in En. apply S in En. apply in_remove in En. tauto.
      * rewrite IH; [rewrite remove_len by assumption; field; lra|apply remove_nodup, ND|lia|rewrite remove_len by assumption; lia|apply in_in_remove; [congruence|exact Hw]].
Qed.
(** every permutation has probability 1/n! *)
Lemma shuffle_uniform left q : NoDup left -> Permutation q left -> pr (shuffle_law (length left) left) (fun p => if list_eq_dec Nat.eq_dec p q then true else false) = / INR (fact (length left)).
Proof.
  remember (length left) as n eqn:En. revert left q En. induction n as [|n IH]; intros left q En ND HP.
  - assert (q = []) as -> by (apply Permutation_length in HP; destruct q; [reflexivity|cbn in HP; lia]). cbn. lra.
  - destruct q as [|a q]; [apply Permutation_length in HP; cbn in HP; lia|]. cbn [shuffle_law]. rewrite pr_bind. unfold categorical. rewrite lsum_map. cbn [fst snd]. rewrite lsum_one, <- En.
    assert (Ha : In a left) by (apply (Permutation_in a HP); left; reflexivity).
    rewrite (lsum_ext _ (fun i => if Nat.eqb i a then / INR (S n) * / INR (fact n) else 0)).
    + rewrite (lsum_single (fun _ => / INR (S n) * / INR (fact n)) (fun i => Nat.eqb i a) left a); [|exact ND|exact Ha|intros b _; apply Nat.eqb_eq]. change (fact (S n)) with (S n * fact n)%nat. rewrite mult_INR. rewrite Rinv_mult. reflexivity.
    + intros i Hi. rewrite pr_bind_ret. destruct (Nat.eqb_spec i a) as [->|E].
      * rewrite (pr_ext _ _ (fun p => if list_eq_dec Nat.eq_dec p q then true else false)).
        -- rewrite IH; [lra|rewrite remove_len by assumption; lia|apply remove_nodup, ND|].
           apply NoDup_Permutation_bis.
           ++ assert (N : NoDup (a :: q)) by (apply (Permutation_NoDup (Permutation_sym HP)), ND). inversion N; assumption.
           ++ rewrite remove_len by assumption. apply Permutation_length in HP. cbn in HP. lia.
           ++ intros x Hx. assert (N : NoDup (a :: q)) by (apply (Permutation_NoDup (Permutation_sym HP)), ND). inversion N; subst. apply in_in_remove; [intros ->; contradiction|]. apply (Permutation_in x HP). right. exact Hx.
        -- intros w p _. destruct (list_eq_dec Nat.eq_dec (a :: p) (a :: q)) as [Q|Q], (list_eq_dec Nat.eq_dec p q) as [Q'|Q']; try reflexivity; congruence.
      * rewrite (pr_ext _ _ (fun _ => false)). { unfold pr. rewrite lsum_zero by reflexivity. lra. } intros w p _. destruct (list_eq_dec Nat.eq_dec (i :: p) (a :: q)); [congruence|reflexivity].
Qed.
