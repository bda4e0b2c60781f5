(** C05 for every input rank: which combinations of starts sample_kernels can draw. *)
From Verif Require Import Base Tensor Slicing_model Slicing_spec Slicing_proofs2 Slicing_props.
Local Open Scope nat_scope.

(** 1D: every list of n starts in [0, T-k) is drawn by some random state *)
Theorem any_starts_1d {A} (X : tensor A) (T k n : nat) off co (f : nat -> Z) :
  shape X = [T] -> 0 < k < T -> (forall i, i < n -> (0 <= f i < Z.of_nat (T - k))%Z) ->
  exists rng y idx, sample_kernels X (Z.of_nat k) (Some (Z.of_nat n)) off co rng = Ok (y, idx) /\ shape idx = [n] /\ forall i, i < n -> get idx [i] = Some (f i).
Proof.
  intros Hs Hk Hf. set (rng := fun i => match i with [a] => f a | _ => 0%Z end). exists rng.
  destruct (sample_1d X T k n off co rng Hs ltac:(lia)) as [_ [_ G]]. destruct (G ltac:(lia)) as [y [idx [E [S1 _]]]]. exists y, idx. split; [exact E|]. split; [exact S1|].
  unfold sample_kernels, last_dim, py_len, ndim in E. rewrite Hs in E. cbn [bind last length] in E. change (3 <? 1) with false in E. change (1 <? 3) with true in E. change (1 =? 3) with false in E. change (1 =? 1) with true in E.
  cbn [andb] in E. replace (Z.of_nat T <? Z.of_nat k)%Z with false in E by lia. cbn iota in E. apply bind_ok in E. destruct E as [ix [E1 E]]. apply bind_ok in E. destruct E as [z [_ E]].
  assert (idx = ix) by congruence. subst ix. intros i Hi. rewrite get_inb by (rewrite S1; cbn; lia). f_equal.
  unfold randint_z, randint in E1. destruct (existsb _ _); [discriminate|]. destruct (_ <=? _)%Z in E1; [discriminate|]. injection E1 as <-. cbn [elt]. unfold rng. rewrite Z.mod_small by (specialize (Hf i Hi); lia). lia.
Qed.
(** 2D, coincident: every list of n starts; 2D, independent: every n x C table of starts (the channels move independently); 3D: every
    list of starts, one per batch element *)
Theorem any_starts_2d {A} (X : tensor A) (C T k n : nat) off lo hi (f : nat -> Z) :
  shape X = [C; T] -> 0 < C -> 0 < k <= T -> 0 < n -> start_range (Z.of_nat T) (Z.of_nat k) off lo hi -> (0 <= lo < hi)%Z -> (forall i, i < n -> (lo <= f i < hi)%Z) ->
  exists rng y idx, sample_kernels X (Z.of_nat k) (Some (Z.of_nat n)) off true rng = Ok (y, idx) /\ shape idx = [n] /\ forall i, i < n -> get idx [i] = Some (f i).
Proof.
  intros Hs HC Hk Hn Hr Hb Hf. set (rng := fun i => match i with [a] => (f a - lo)%Z | _ => 0%Z end). exists rng.
  destruct (sample_2d_co X C T k n off rng lo hi Hs HC Hk Hn Hr) as [G _]. destruct (G Hb) as [y [idx [E [S1 [_ V]]]]]. exists y, idx. split; [exact E|]. split; [exact S1|].
  intros i Hi. rewrite get_inb by (rewrite S1; cbn; lia). f_equal. destruct (V i Hi) as [-> _]. unfold rng. specialize (Hf i Hi). rewrite Z.mod_small by lia. lia.
Qed.
Theorem any_starts_2d_independent {A} (X : tensor A) (C T k n : nat) off lo hi (f : nat -> nat -> Z) :
  shape X = [C; T] -> 0 < C -> 0 < k <= T -> start_range (Z.of_nat T) (Z.of_nat k) off lo hi -> (0 <= lo < hi)%Z -> (forall i c, i < n -> c < C -> (lo <= f i c < hi)%Z) ->
  exists rng y idx, sample_kernels X (Z.of_nat k) (Some (Z.of_nat n)) off false rng = Ok (y, idx) /\ shape idx = [n; C] /\ forall i c, i < n -> c < C -> get idx [i; c] = Some (f i c).
Proof.
  intros Hs HC Hk Hr Hb Hf. set (rng := fun i => match i with [a; b] => (f a b - lo)%Z | _ => 0%Z end). exists rng.
  destruct (sample_2d_indep X C T k n off rng lo hi Hs HC Hk Hr) as [G _]. destruct (G Hb) as [y [idx [E [S1 [_ V]]]]]. exists y, idx. split; [exact E|]. split; [exact S1|].
  intros i c Hi Hc. rewrite get_inb by (rewrite S1; cbn; lia). f_equal. destruct (V i c Hi Hc) as [-> _]. unfold rng. specialize (Hf i c Hi Hc). rewrite Z.mod_small by lia. lia.
Qed.
Theorem any_starts_3d {A} (X : tensor A) (B C T k : nat) N off co lo hi (f : nat -> Z) :
  shape X = [B; C; T] -> 0 < C -> 0 < k <= T -> N = None \/ N = Some (Z.of_nat B) -> start_range (Z.of_nat T) (Z.of_nat k) off lo hi -> (0 <= lo < hi)%Z -> (forall i, i < B -> (lo <= f i < hi)%Z) ->
  exists rng y idx, sample_kernels X (Z.of_nat k) N off co rng = Ok (y, idx) /\ shape idx = [B] /\ forall i, i < B -> get idx [i] = Some (f i).
Proof.
  intros Hs HC Hk HN Hr Hb Hf. set (rng := fun i => match i with [a] => (f a - lo)%Z | _ => 0%Z end). exists rng.
  destruct (sample_3d X B C T k N off co rng lo hi Hs HC Hk HN Hr) as [G _]. destruct (G Hb) as [y [idx [E [S1 [_ V]]]]]. exists y, idx. split; [exact E|]. split; [exact S1|].
  intros i Hi. rewrite get_inb by (rewrite S1; cbn; lia). f_equal. destruct (V i Hi) as [-> _]. unfold rng. specialize (Hf i Hi). rewrite Z.mod_small by lia. lia.
Qed.
(** whatever the rank, N, coincidence and random state: without an offset no start outside [0, T-k) is ever returned, in particular
    never T-k; and a timeseries of exactly kernel_size samples never yields anything *)
Theorem starts_never_last {A} (X : tensor A) batch (T k : nat) N co rng y idx p s :
  shape X = batch ++ [T] -> sample_kernels X (Z.of_nat k) N None co rng = Ok (y, idx) -> get idx p = Some s -> (0 <= s < Z.of_nat T - Z.of_nat k)%Z.
Proof.
  intros Hs E Hg. destruct batch as [|b0 batch].
  - cbn [app] in Hs. unfold sample_kernels, last_dim, py_len, ndim in E. rewrite Hs in E. cbn [bind last length] in E. change (3 <? 1) with false in E. change (1 <? 3) with true in E. change (1 =? 3) with false in E. change (1 =? 1) with true in E.
    destruct (_ <? _)%Z eqn:L in E; [discriminate|]. cbn [andb] in E. destruct N as [n|]; [|discriminate]. cbn iota in E. apply bind_ok in E. destruct E as [ix [E1 E]]. apply bind_ok in E. destruct E as [z [_ E]].
    assert (idx = ix) by congruence. subst ix. apply get_some in Hg. destruct Hg as [_ <-]. unfold randint_z, randint in E1. destruct (existsb _ _); [discriminate|].
    destruct (_ <=? _)%Z eqn:L2 in E1; [discriminate|]. injection E1 as <-. cbn [elt]. pose proof (Z.mod_pos_bound (rng p) (Z.of_nat T - Z.of_nat k - 0) ltac:(lia)). lia.
  - destruct (sample_idx_range X (b0 :: batch) T (Z.of_nat k) N None co rng y idx 0%Z (Z.of_nat T - Z.of_nat k)%Z p s Hs ltac:(discriminate) E ltac:(cbn; auto) Hg) as [_ [_ H]]. exact H.
Qed.
Theorem full_length_never {A} (X : tensor A) batch (T : nat) N co rng y idx p :
  shape X = batch ++ [T] -> sample_kernels X (Z.of_nat T) N None co rng = Ok (y, idx) -> get idx p = None.
Proof. intros Hs E. destruct (get idx p) as [s|] eqn:G; [|reflexivity]. pose proof (starts_never_last X batch T T N co rng y idx p s Hs E G). lia. Qed.
Theorem full_length_raises {A} (X : tensor A) batch (T : nat) N co rng :
  shape X = batch ++ [T] -> length batch <= 2 -> (forall n, N = Some n -> (0 <= n)%Z) -> 0 < T -> (length batch < 2 -> N <> None) -> (length batch = 2 -> N = None \/ N = Some (Z.of_nat (hd 0 batch))) ->
  sample_kernels X (Z.of_nat T) N None co rng = Err RuntimeError.
Proof.
  intros Hs Hl Hp HT HN H3. unfold sample_kernels, last_dim, py_len, ndim. rewrite Hs.
  assert (En : forall (l : list Z), randint_z 0 (Z.of_nat T - Z.of_nat T) l rng = Err RuntimeError).
  { intros l. unfold randint_z, randint. destruct (existsb _ _); [reflexivity|]. replace (_ <=? 0)%Z with true by lia. reflexivity. }
  destruct batch as [|b0 [|b1 [|]]]; cbn [app bind last length] in *; try lia; replace (Z.of_nat T <? Z.of_nat T)%Z with false by lia.
  - destruct N as [n|]; [|exfalso; apply HN; [lia|reflexivity]]. change (3 <? 1) with false. change (1 <? 3) with true. change (1 =? 3) with false. change (1 =? 1) with true. cbn [andb]. rewrite En. reflexivity.
  - destruct N as [n|]; [|exfalso; apply HN; [lia|reflexivity]]. change (3 <? 2) with false. change (2 <? 3) with true. change (2 =? 3) with false. change (2 =? 1) with false. cbn [andb orb].
    unfold sample_bounds. cbn [bind]. change (0 <? 0)%Z with false. cbn [bind]. rewrite En. reflexivity.
  - change (3 <? 3) with false. change (3 =? 3) with true. change (3 =? 1) with false. cbn [andb orb].
    destruct (H3 eq_refl) as [->| ->]; cbn [hd]; try rewrite Z.eqb_refl; cbn [negb]; unfold sample_bounds; cbn [bind]; change (0 <? 0)%Z with false; cbn [bind]; rewrite En; reflexivity.
Qed.
Example any_starts_ex : exists rng y idx, sample_kernels (mk [2; 8] (fun i => Z.of_nat (nth 1 i 0))) 3 (Some 2%Z) None false rng = Ok (y, idx) /\
  get idx [0; 0] = Some 4%Z /\ get idx [0; 1] = Some 0%Z /\ get idx [1; 0] = Some 1%Z /\ get idx [1; 1] = Some 4%Z.
Proof.
  destruct (any_starts_2d_independent (mk [2; 8] (fun i => Z.of_nat (nth 1 i 0))) 2 8 3 2 None 0 5 (fun i c => nth c (nth i [[4; 0]; [1; 4]]%Z []) 0%Z) eq_refl ltac:(lia) ltac:(lia) ltac:(cbn; auto) ltac:(lia)) as [rng [y [idx [E [_ V]]]]].
  - intros [|[|i]] [|[|c]] Hi Hc; cbn; lia.
  - exists rng, y, idx. split; [exact E|]. repeat split; (rewrite V by lia; reflexivity).
Qed.
