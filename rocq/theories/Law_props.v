(** C90: the probability of each result of the library's random operations. *)
From Coq Require Import Reals Lra Lia List ZArith Permutation.
Import ListNotations.
From Verif Require Import Base Tensor Slicing_model Slicing_spec Slicing_proofs2 Slicing_props Data_model Data_spec Data_proofs Data_props Norm_model Norm_props Prob Law_model Law_lib.
Local Open Scope R_scope.

(** ** sample_kernels *)
(** the four ways to call sample_kernels with n >= 1 kernels, the shape of the returned start indices, and the interval of starts *)
Definition call_cells {A} (X : tensor A) (k : nat) (N off : option Z) (co : bool) (size : list nat) (lo hi : Z) : Prop :=
  (exists T n, shape X = [T] /\ N = Some (Z.of_nat n) /\ size = [n] /\ (0 < k < T)%nat /\ lo = 0%Z /\ hi = (Z.of_nat T - Z.of_nat k)%Z)
  \/ (exists C T n, shape X = [C; T] /\ N = Some (Z.of_nat n) /\ co = true /\ size = [n] /\ (0 < C)%nat /\ (0 < k <= T)%nat /\ (0 < n)%nat /\ start_range (Z.of_nat T) (Z.of_nat k) off lo hi)
  \/ (exists C T n, shape X = [C; T] /\ N = Some (Z.of_nat n) /\ co = false /\ size = [n; C] /\ (0 < C)%nat /\ (0 < k <= T)%nat /\ start_range (Z.of_nat T) (Z.of_nat k) off lo hi)
  \/ (exists B C T, shape X = [B; C; T] /\ (N = None \/ N = Some (Z.of_nat B)) /\ size = [B] /\ (0 < C)%nat /\ (0 < k <= T)%nat /\ start_range (Z.of_nat T) (Z.of_nat k) off lo hi).
(** the returned start of every cell is the given one *)
Definition starts_are {A} (size : list nat) (s : list nat -> Z) (r : res (tensor A * tensor Z)) : bool :=
  match r with Ok (_, idx) => forallb (fun i => match get idx i with Some v => Z.eqb v (s i) | None => false end) (all_idx size) | Err _ => false end.
(** the returned start of one cell is the given one *)
Definition start_is {A} (i : list nat) (v : Z) (r : res (tensor A * tensor Z)) : bool :=
  match r with Ok (_, idx) => match get idx i with Some u => Z.eqb u v | None => false end | Err _ => false end.

Lemma sample_1d_idx {A} (X : tensor A) (T k n : nat) off co rng : shape X = [T] -> (0 < k < T)%nat ->
  exists y idx, sample_kernels X (Z.of_nat k) (Some (Z.of_nat n)) off co rng = Ok (y, idx) /\ shape idx = [n] /\ forall i, elt idx i = (rng i mod (Z.of_nat T - Z.of_nat k))%Z.
Proof.
  intros Hs Hk. unfold sample_kernels, last_dim, py_len, ndim. rewrite Hs. cbn [bind last length].
  change (3 <? 1)%nat with false. change (1 =? 3)%nat with false. change (1 <? 3)%nat with true. change (1 =? 1)%nat with true. cbn [andb].
  replace (Z.of_nat T <? Z.of_nat k)%Z with false by lia. unfold randint_z. cbn [existsb]. replace (Z.of_nat n <? 0)%Z with false by lia. cbn [orb map]. rewrite Nat2Z.id.
  unfold randint at 1. replace (Z.of_nat T - Z.of_nat k <=? 0)%Z with false by lia. cbn [bind].
  set (idx := mk [n] _). destruct (slice_kernels_11 X idx k T n Hs eq_refl ltac:(lia)) as [G _].
  destruct G as [y [Hy _]]. { intros i Hi. unfold idx. cbn [elt]. pose proof (Z.mod_pos_bound (rng [i]) (Z.of_nat T - Z.of_nat k - 0)). lia. }
  rewrite Hy. cbn [bind]. exists y, idx. split; [reflexivity|]. split; [reflexivity|]. intros i. unfold idx. cbn [elt]. rewrite Z.sub_0_r, Z.add_0_l. reflexivity.
Qed.
Lemma call_cells_idx {A} (X : tensor A) k N off co size lo hi rng : call_cells X k N off co size lo hi -> (0 <= lo < hi)%Z ->
  exists y idx, sample_kernels X (Z.of_nat k) N off co rng = Ok (y, idx) /\ shape idx = size /\ forall i, inb i size -> elt idx i = (lo + rng i mod (hi - lo))%Z.
Proof.
  intros [(T & n & H1 & -> & -> & Hk & -> & ->)|[(C & T & n & H1 & -> & -> & -> & HC & Hk & Hn & Hr)|[(C & T & n & H1 & -> & -> & -> & HC & Hk & Hr)|(B & C & T & H1 & HN & -> & HC & Hk & Hr)]]] H0.
  - destruct (sample_1d_idx X T k n off co rng H1 Hk) as (y & idx & E & S & V). exists y, idx. split; [exact E|]. split; [exact S|]. intros i _. rewrite V, Z.sub_0_r. lia.
  - destruct (sample_2d_co X C T k n off rng lo hi H1 HC Hk Hn Hr) as [G _]. destruct (G H0) as (y & idx & E & S & _ & V). exists y, idx. split; [exact E|]. split; [exact S|].
    intros i Hi. destruct i as [|i [|? ?]]; cbn in Hi; try tauto. apply V. tauto.
  - destruct (sample_2d_indep X C T k n off rng lo hi H1 HC Hk Hr) as [G _]. destruct (G H0) as (y & idx & E & S & _ & V). exists y, idx. split; [exact E|]. split; [exact S|].
    intros i Hi. destruct i as [|i [|c [|? ?]]]; cbn in Hi; try tauto. apply V; tauto.
  - destruct (sample_3d X B C T k N off co rng lo hi H1 HC Hk HN Hr) as [G _]. destruct (G H0) as (y & idx & E & S & _ & V). exists y, idx. split; [exact E|]. split; [exact S|].
    intros i Hi. destruct i as [|i [|? ?]]; cbn in Hi; try tauto. apply V. tauto.
Qed.
Lemma forallb_ext_in {A} (f g : A -> bool) l : (forall a, In a l -> f a = g a) -> forallb f l = forallb g l.
Proof. induction l as [|a l IH]; intros H; [reflexivity|]. cbn. rewrite H, IH; [reflexivity| |left; reflexivity]. intros b Hb. apply H. right. exact Hb. Qed.
(** probability that one word gives the start z *)
Definition start_prob (M : nat) (lo hi z : Z) : R := pr (word_law M) (fun w => Z.eqb (lo + w mod (hi - lo)) z).
Lemma start_prob_spec M lo hi z : (lo < hi)%Z -> (hi - lo <= Z.of_nat M)%Z -> (lo <= z < hi)%Z ->
  Rabs (start_prob M lo hi z - / IZR (hi - lo)) < / INR M /\ ((Z.of_nat M mod (hi - lo) = 0)%Z -> start_prob M lo hi z = / IZR (hi - lo)).
Proof.
  intros H1 H2 H3. destruct (word_residue M (Z.to_nat (hi - lo)) (Z.to_nat (z - lo)) ltac:(lia) ltac:(lia)) as [A B].
  assert (E : pr (word_law M) (fun w => Z.eqb (w mod Z.of_nat (Z.to_nat (hi - lo))) (Z.of_nat (Z.to_nat (z - lo)))) = start_prob M lo hi z).
  { unfold start_prob. apply pr_ext. intros w a _. rewrite !Z2Nat.id by lia. destruct (Z.eqb_spec (a mod (hi - lo)) (z - lo)), (Z.eqb_spec (lo + a mod (hi - lo)) z); try reflexivity; lia. }
  rewrite E in *. rewrite INR_IZR_INZ, Z2Nat.id in A, B by lia. split; [exact A|]. intros HM. apply B. apply Nat2Z.inj. rewrite Nat2Z.inj_mod, Z2Nat.id by lia. exact HM.
Qed.
(** every combination of starts of the cells is (almost) equally likely: the starts are independent, and each start in [lo, hi) has a probability that
    differs from 1/(hi - lo) by less than 1/M, M the number of machine words *)
Theorem sample_kernels_joint_law {A} (M : nat) (X : tensor A) (k : nat) (N off : option Z) (co : bool) size lo hi (s : list nat -> Z) :
  call_cells X k N off co size lo hi -> (0 <= lo < hi)%Z -> (hi - lo <= Z.of_nat M)%Z -> (forall i, inb i size -> (lo <= s i < hi)%Z) ->
  exists q : Z -> R, (forall z, (lo <= z < hi)%Z -> Rabs (q z - / IZR (hi - lo)) < / INR M)
    /\ pr (sample_law M size X (Z.of_nat k) N off co) (starts_are size s) = lprod (fun i => q (s i)) (all_idx size).
Proof.
  intros HC H0 HM Hs. exists (start_prob M lo hi). split; [intros z Hz; apply start_prob_spec; lia|].
  unfold sample_law. rewrite pr_bind_ret. unfold start_prob. rewrite <- (field_prob (word_law M) 0%Z (all_idx size) (fun i w => Z.eqb (lo + w mod (hi - lo)) (s i)) (all_idx_NoDup size)).
  apply pr_ext. intros w rng _. destruct (call_cells_idx X k N off co size lo hi rng HC H0) as (y & idx & E & S & V). rewrite E. cbn [starts_are].
  apply forallb_ext_in. intros i Hi. apply all_idx_spec in Hi. rewrite get_inb by (rewrite S; exact Hi). rewrite V by exact Hi. reflexivity.
Qed.
(** when hi - lo divides the number of words, every combination has the same probability *)
Theorem sample_kernels_uniform {A} (M : nat) (X : tensor A) (k : nat) (N off : option Z) (co : bool) size lo hi (s : list nat -> Z) :
  call_cells X k N off co size lo hi -> (0 <= lo < hi)%Z -> (0 < M)%nat -> (Z.of_nat M mod (hi - lo) = 0)%Z -> (forall i, inb i size -> (lo <= s i < hi)%Z) ->
  pr (sample_law M size X (Z.of_nat k) N off co) (starts_are size s) = (/ IZR (hi - lo)) ^ prod size.
Proof.
  intros HC H0 HM HD Hs. assert (HM' : (hi - lo <= Z.of_nat M)%Z) by (apply Z.mod_divide in HD; [|lia]; apply Z.divide_pos_le in HD; lia).
  unfold sample_law. rewrite pr_bind_ret. rewrite (pr_ext _ _ (fun f => forallb (fun i => (fun j w => Z.eqb (lo + w mod (hi - lo)) (s j)) i (f i)) (all_idx size))).
  - rewrite (field_prob (word_law M) 0%Z (all_idx size) (fun i w => Z.eqb (lo + w mod (hi - lo)) (s i)) (all_idx_NoDup size)).
    rewrite (lprod_ext _ (fun _ => / IZR (hi - lo))); [rewrite lprod_const, all_idx_length; reflexivity|]. intros i Hi. apply all_idx_spec in Hi. apply (start_prob_spec M lo hi (s i)); [lia|lia|apply Hs, Hi|exact HD].
  - intros w rng _. destruct (call_cells_idx X k N off co size lo hi rng HC H0) as (y & idx & E & S & V). rewrite E. cbn [starts_are].
    apply forallb_ext_in. intros i Hi. apply all_idx_spec in Hi. rewrite get_inb by (rewrite S; exact Hi). rewrite V by exact Hi. reflexivity.
Qed.
(** one cell *)
Lemma field_marginal {A} (d : dist A) a0 cells (P : A -> bool) i : mass d = 1 -> NoDup cells -> In i cells -> pr (field_law d a0 cells) (fun f => P (f i)) = pr d P.
Proof.
  intros HM ND Hi. set (Q := fun j (a : A) => if list_eq_dec Nat.eq_dec j i then P a else true).
  rewrite (pr_ext _ _ (fun f => forallb (fun j => Q j (f j)) cells)).
  - rewrite field_prob by exact ND. clear -HM ND Hi. induction cells as [|j l IH]; [destruct Hi|]. inversion ND as [|? ? Hj ND']; subst. cbn [lprod]. unfold Q at 1. destruct (list_eq_dec Nat.eq_dec j i) as [->|E].
    + rewrite (lprod_ext _ (fun _ => 1)); [rewrite lprod_const, pow1; change (fun a : A => P a) with P; lra|]. intros b Hb. unfold Q. destruct (list_eq_dec Nat.eq_dec b i) as [->|_]; [contradiction|]. rewrite <- mass_pr. exact HM.
    + destruct Hi as [->|Hi]; [congruence|]. rewrite IH by assumption. rewrite <- mass_pr, HM. lra.
  - intros w f _. clear -Hi. assert (K : forall l, (In i l -> forallb (fun j => Q j (f j)) l = P (f i)) /\ (~ In i l -> forallb (fun j => Q j (f j)) l = true)).
    { induction l as [|j l [I1 I2]]; [split; [intros []|reflexivity]|]. cbn [forallb]. unfold Q at 1 3. destruct (list_eq_dec Nat.eq_dec j i) as [->|E].
      - split; [intros _|intros H; exfalso; apply H; left; reflexivity]. destruct (in_dec (list_eq_dec Nat.eq_dec) i l) as [H|H]; [rewrite I1 by exact H; apply Bool.andb_diag|rewrite I2 by exact H; apply Bool.andb_true_r].
      - cbn [andb]. split; intros H; [apply I1; destruct H; [congruence|assumption]|apply I2; intros H'; apply H; right; exact H']. }
    symmetry. apply K. exact Hi.
Qed.
Theorem sample_kernels_start_law {A} (M : nat) (X : tensor A) (k : nat) (N off : option Z) (co : bool) size lo hi i z :
  call_cells X k N off co size lo hi -> (0 <= lo < hi)%Z -> (hi - lo <= Z.of_nat M)%Z -> inb i size ->
  ((lo <= z < hi)%Z -> Rabs (pr (sample_law M size X (Z.of_nat k) N off co) (start_is i z) - / IZR (hi - lo)) < / INR M)
  /\ (~ (lo <= z < hi)%Z -> pr (sample_law M size X (Z.of_nat k) N off co) (start_is i z) = 0).
Proof.
  intros HC H0 HM Hi. assert (E : pr (sample_law M size X (Z.of_nat k) N off co) (start_is i z) = start_prob M lo hi z).
  { unfold sample_law. rewrite pr_bind_ret. rewrite (pr_ext _ _ (fun f => (fun w => Z.eqb (lo + w mod (hi - lo)) z) (f i))).
    - rewrite (field_marginal (word_law M) 0%Z (all_idx size) (fun w => Z.eqb (lo + w mod (hi - lo)) z) i); [reflexivity|apply word_mass; lia|apply all_idx_NoDup|apply all_idx_spec, Hi].
    - intros w rng _. destruct (call_cells_idx X k N off co size lo hi rng HC H0) as (y & idx & E & S & V). rewrite E. cbn [start_is]. rewrite get_inb by (rewrite S; exact Hi). rewrite V by exact Hi. reflexivity. }
  rewrite E. split; intros Hz; [apply start_prob_spec; lia|]. unfold start_prob. rewrite (pr_ext _ _ (fun _ => false)); [unfold pr; rewrite lsum_zero by reflexivity; reflexivity|].
  intros w a _. apply Z.eqb_neq. pose proof (Z.mod_pos_bound a (hi - lo)). lia.
Qed.
(** max_center_offset = 0: the documented position of the centre, uniform over the samples of the kernel, is refuted: the centre (sample T/2) is never the
    first sample of a kernel, and with probability 1/k it falls just behind its end; each of the other k - 1 samples has probability 1/k *)
Theorem center_position_refuted {A} (M : nat) (X : tensor A) (C T k n i j : nat) :
  shape X = [C; T] -> (0 < C)%nat -> (0 < k <= T / 2)%nat -> (k <= M)%nat -> (i < n)%nat -> (j <= k)%nat ->
  let p := pr (sample_law M [n] X (Z.of_nat k) (Some (Z.of_nat n)) (Some 0%Z) true) (start_is [i] (Z.of_nat (T / 2) - Z.of_nat j)) in
  (j = 0%nat -> p = 0) /\ ((0 < j)%nat -> Rabs (p - / INR k) < / INR M).
Proof.
  intros HX HC Hk HM Hi Hj p. assert (HT : (T / 2 <= T)%nat) by (apply Nat.div_le_upper_bound; lia).
  assert (CC : call_cells X k (Some (Z.of_nat n)) (Some 0%Z) true [n] (Z.of_nat (T / 2) - Z.of_nat k) (Z.of_nat (T / 2))).
  { right; left. exists C, T, n. split; [exact HX|]. split; [reflexivity|]. split; [reflexivity|]. split; [reflexivity|]. split; [exact HC|]. split; [lia|]. split; [lia|]. cbn. rewrite Nat2Z.inj_div. change (Z.of_nat 2) with 2%Z. split; [lia|reflexivity]. }
  destruct (sample_kernels_start_law M X k _ _ _ _ _ _ [i] (Z.of_nat (T / 2) - Z.of_nat j) CC ltac:(lia) ltac:(lia) ltac:(cbn; lia)) as [P1 P2]. fold p in P1, P2. split.
  - intros ->. apply P2. lia.
  - intros H. specialize (P1 ltac:(lia)). replace (IZR (Z.of_nat (T / 2) - (Z.of_nat (T / 2) - Z.of_nat k))) with (INR k) in P1; [exact P1|]. rewrite INR_IZR_INZ. f_equal. lia.
Qed.
(** ** augmentations *)
(** exactly the series in S are sign-flipped (the others are unchanged) *)
Definition flipped_exactly (x : tensor R) (chosen : list nat -> bool) (r : res (tensor R)) : bool :=
  match r with Ok y => forallb (fun i => if Req_EM_T (elt y i) (if chosen (removelast i) then - elt x i else elt x i) then true else false) (all_idx (shape x)) | Err _ => false end.
(** exactly the series in S are time-reversed *)
Definition reversed_exactly (x : tensor R) (chosen : list nat -> bool) (r : res (tensor R)) : bool :=
  match r with
  | Ok y => forallb (fun i => if Req_EM_T (elt y i) (if chosen (removelast i) then elt x (removelast i ++ [(last (shape x) 0 - 1 - last i 0)%nat]) else elt x i) then true else false) (all_idx (shape x))
  | Err _ => false
  end.
Definition n_series (x : tensor R) : nat := prod (removelast (shape x)).
Definition n_chosen (x : tensor R) (chosen : list nat -> bool) : nat := length (filter chosen (all_idx (removelast (shape x)))).
Lemma bernoulli_prod (p : R) (chosen : list nat -> bool) l : lprod (fun i => if chosen i then p else 1 - p) l = p ^ length (filter chosen l) * (1 - p) ^ (length l - length (filter chosen l)).
Proof.
  induction l as [|a l IH]; [cbn; lra|]. cbn [lprod filter length]. rewrite IH. assert (length (filter chosen l) <= length l)%nat by (clear; induction l as [|b l IH]; cbn; [lia|]; destruct (chosen b); cbn; lia).
  destruct (chosen a); cbn [length].
  - replace (S (length l) - S (length (filter chosen l)))%nat with (length l - length (filter chosen l))%nat by lia. cbn [pow]. ring.
  - replace (S (length l) - length (filter chosen l))%nat with (S (length l - length (filter chosen l)))%nat by lia. cbn [pow]. ring.
Qed.
Lemma field_bernoulli N prob cells (chosen : list nat -> bool) : (0 < N)%nat -> 0 <= prob <= 1 -> NoDup cells ->
  pr (field_law (rand_law N) 0 cells) (fun rand => forallb (fun b => Bool.eqb (below prob (rand b)) (chosen b)) cells)
  = pr (rand_law N) (below prob) ^ length (filter chosen cells) * (1 - pr (rand_law N) (below prob)) ^ (length cells - length (filter chosen cells)).
Proof.
  intros HN HP ND. rewrite <- bernoulli_prod. rewrite (field_prob (rand_law N) 0 cells (fun b v => Bool.eqb (below prob v) (chosen b)) ND).
  apply lprod_ext. intros b _. destruct (rand_below N prob HN HP) as (_ & _ & E). destruct (chosen b).
  - apply pr_ext. intros w v _. destruct (below prob v); reflexivity.
  - rewrite <- E. apply pr_ext. intros w v _. destruct (below prob v); reflexivity.
Qed.
Lemma forallb_iff {A B} (f : A -> bool) (g : B -> bool) l m : ((forall a, In a l -> f a = true) <-> (forall b, In b m -> g b = true)) -> forallb f l = forallb g m.
Proof. intros H. destruct (forallb f l) eqn:E1, (forallb g m) eqn:E2; try reflexivity; exfalso. - assert (K := proj1 H (proj1 (forallb_forall f l) E1)). apply (proj2 (forallb_forall g m)) in K. congruence. - assert (K := proj2 H (proj1 (forallb_forall g m) E2)). apply (proj2 (forallb_forall f l)) in K. congruence. Qed.
(** every series is inverted independently of the others, with one probability p: prob rounded up to a multiple of 1/N (N = 2^24 for float32) *)
Theorem inverter_law N prob (x : tensor R) : (0 < N)%nat -> 0 <= prob <= 1 -> shape x <> [] ->
  (forall b, inb b (removelast (shape x)) -> exists t, inb (b ++ [t]) (shape x) /\ elt x (b ++ [t]) <> 0) ->
  exists p, prob <= p < prob + / INR N /\ (forall k, prob = INR k / INR N -> p = prob) /\
    forall chosen, pr (invert_law N prob x) (flipped_exactly x chosen) = p ^ n_chosen x chosen * (1 - p) ^ (n_series x - n_chosen x chosen).
Proof.
  intros HN HP Hs Hx. destruct (rand_below N prob HN HP) as (R1 & R2 & _). exists (pr (rand_law N) (below prob)). split; [exact R1|]. split; [exact R2|]. intros chosen.
  unfold n_series, n_chosen. rewrite <- all_idx_length, <- field_bernoulli by (try assumption; apply all_idx_NoDup). unfold invert_law. rewrite pr_bind_ret. apply pr_ext. intros w rand _.
  destruct (signal_inverter_spec prob rand x Hs) as (y & E & S & G). rewrite E. cbn [flipped_exactly]. apply forallb_iff. split.
  - intros H b Hb. apply all_idx_spec in Hb. destruct (Hx b Hb) as (t & Ht & Hn). specialize (H _ (proj2 (all_idx_spec _ _) Ht)). destruct (G _ Ht) as [G1 G2]. rewrite removelast_last in *. unfold below.
    destruct (Req_EM_T _ _) as [Q|]; [|discriminate]. destruct (Rlt_dec (rand b) prob) as [L|L], (chosen b); try reflexivity; exfalso.
    + rewrite G1 in Q by exact L. lra.
    + rewrite G2 in Q by lra. lra.
  - intros H i Hi. apply all_idx_spec in Hi. destruct (inb_removelast i (shape x) Hs Hi) as (B1 & _ & _). specialize (H _ (proj2 (all_idx_spec _ _) B1)). destruct (G _ Hi) as [G1 G2]. unfold below in H.
    destruct (Req_EM_T _ _) as [Q|Q]; [reflexivity|]. exfalso. apply Q. destruct (Rlt_dec (rand (removelast i)) prob) as [L|L], (chosen (removelast i)); try discriminate; [apply G1, L|apply G2; lra].
Qed.
Theorem reverser_law N prob (x : tensor R) : (0 < N)%nat -> 0 <= prob <= 1 -> shape x <> [] ->
  (forall b, inb b (removelast (shape x)) -> exists t, inb (b ++ [t]) (shape x) /\ elt x (b ++ [t]) <> elt x (b ++ [(last (shape x) 0 - 1 - t)%nat])) ->
  exists p, prob <= p < prob + / INR N /\ (forall k, prob = INR k / INR N -> p = prob) /\
    forall chosen, pr (reverse_law N prob x) (reversed_exactly x chosen) = p ^ n_chosen x chosen * (1 - p) ^ (n_series x - n_chosen x chosen).
Proof.
  intros HN HP Hs Hx. destruct (rand_below N prob HN HP) as (R1 & R2 & _). exists (pr (rand_law N) (below prob)). split; [exact R1|]. split; [exact R2|]. intros chosen.
  unfold n_series, n_chosen. rewrite <- all_idx_length, <- field_bernoulli by (try assumption; apply all_idx_NoDup). unfold reverse_law. rewrite pr_bind_ret. apply pr_ext. intros w rand _.
  destruct (signal_reverser_spec prob rand x Hs) as (y & E & S & G). rewrite E. cbn [reversed_exactly]. apply forallb_iff. split.
  - intros H b Hb. apply all_idx_spec in Hb. destruct (Hx b Hb) as (t & Ht & Hn). specialize (H _ (proj2 (all_idx_spec _ _) Ht)). destruct (G _ _ Ht) as [G1 G2]. rewrite removelast_last, last_last in *. unfold below.
    destruct (Req_EM_T _ _) as [Q|]; [|discriminate]. destruct (Rlt_dec (rand b) prob) as [L|L], (chosen b); try reflexivity; exfalso.
    + rewrite G1 in Q by exact L. congruence.
    + rewrite G2 in Q by lra. congruence.
  - intros H i Hi. apply all_idx_spec in Hi. destruct (inb_removelast i (shape x) Hs Hi) as (B1 & _ & B3). specialize (H _ (proj2 (all_idx_spec _ _) B1)). rewrite B3 in Hi. destruct (G _ _ Hi) as [G1 G2]. rewrite <- B3 in G1, G2. unfold below in H.
    destruct (Req_EM_T _ _) as [Q|Q]; [reflexivity|]. exfalso. apply Q. destruct (Rlt_dec (rand (removelast i)) prob) as [L|L], (chosen (removelast i)); try discriminate; [apply G1, L|apply G2; lra].
Qed.
(** ** InMemoryDataset with shuffle=True *)
Definition row_uses (r w : nat) (x : res (tensor Z)) : bool := match x with Ok idx => match get idx [r] with Some v => Z.eqb v (Z.of_nat w) | None => false end | Err _ => false end.
Definition rows_are (q : list nat) (x : res (tensor Z)) : bool :=
  match x with Ok idx => (if list_eq_dec Nat.eq_dec (shape idx) [length q] then true else false) && forallb (fun r => match get idx [r] with Some v => Z.eqb v (Z.of_nat (nth r q 0%nat)) | None => false end) (seq 0 (length q)) | Err _ => false end%bool.
(** coincident: every row of every batch uses each of the nk windows with probability 1/nk *)
Theorem imd_shuffled_row_law {A} (M : nat) (X : tensor A) (y : option (tensor A)) (C T k bs s : nat) (bpe : option nat) d r w :
  shape X = [C; T] -> (0 < C)%nat -> (0 < k)%nat -> (k <= T)%nat -> (0 < bs)%nat -> (0 < s)%nat -> (0 < M)%nat -> (forall y', y = Some y' -> ndim y' = 1%nat) ->
  let nk := ((T - k) / s + 1)%nat in
  imd_create X (Z.of_nat k) y (Z.of_nat bs) (Z.of_nat s) (option_map Z.of_nat bpe) true true = Ok d ->
  (w < nk)%nat -> (r < match bpe with Some n => bs * n | None => nk end)%nat ->
  pr (epoch_indices_law M nk [] d) (row_uses r w) = / INR nk.
Proof.
  intros HX HC Hk HkT Hbs Hs HM Hy nk Hc Hw Hr. unfold epoch_indices_law. rewrite (pr_bind_const _ _ _ (/ INR nk)); [rewrite field_mass by (apply word_mass; exact HM); lra|].
  intros w' rng _. rewrite pr_bind_ret. rewrite <- (seq_length nk 0) at 2.
  assert (SL : length (seq 0 nk) = nk) by apply seq_length.
  assert (B : (match bpe with Some n => bs * n | None => nk end <= nk)%nat).
  { destruct bpe as [n|]; [|lia]. destruct (imd_coincident_epoch X y C T k bs s (Some n) true rng (seq 0 nk) d HX HC Hk HkT Hbs Hs Hy (Permutation_refl _) Hc) as (ks & bt & _ & _ & _ & ND & IN & _ & _ & L & _).
    rewrite <- L. rewrite <- SL. apply NoDup_incl_length; [exact ND|]. intros z Hz. apply in_seq. destruct (IN z Hz). fold nk in H. lia. }
  rewrite <- (shuffle_pos nk (seq 0 nk) r w (seq_NoDup nk 0) ltac:(lia) ltac:(lia) ltac:(apply in_seq; lia)). fold (perm_law nk). apply pr_ext. intros v p Hp.
  assert (HP := perm_support nk v p Hp).
  destruct (imd_coincident_epoch X y C T k bs s bpe true rng p d HX HC Hk HkT Hbs Hs Hy HP Hc) as (ks & bt & _ & _ & _ & _ & _ & Ek & (idx & E & S & V) & L).
  rewrite E. cbn [row_uses].
  assert (LK : length ks = match bpe with Some n => (bs * n)%nat | None => nk end). { destruct bpe; [apply L|]. destruct L as [L _]. apply Permutation_length in L. rewrite L. apply SL. }
  rewrite get_inb by (rewrite S; cbn; lia). rewrite V by lia. unfold at_pos.
  assert (NP : nth_error p r = Some (nth r ks 0%nat)).
  { rewrite Ek. rewrite (nth_error_nth' p 0%nat) by (apply Permutation_length in HP; lia). f_equal. symmetry. rewrite <- (firstn_skipn (length ks) p) at 2. rewrite app_nth1; [reflexivity|]. rewrite firstn_length. apply Permutation_length in HP. lia. }
  rewrite NP. destruct (Z.eqb_spec (Z.of_nat (nth r ks 0%nat)) (Z.of_nat w)), (Nat.eqb_spec (nth r ks 0%nat) w); try reflexivity; lia.
Qed.
(** ... and with batches_per_epoch = None every order of the windows is equally likely *)
Theorem imd_shuffled_order_law {A} (M : nat) (X : tensor A) (y : option (tensor A)) (C T k bs s : nat) d q :
  shape X = [C; T] -> (0 < C)%nat -> (0 < k)%nat -> (k <= T)%nat -> (0 < bs)%nat -> (0 < s)%nat -> (0 < M)%nat -> (forall y', y = Some y' -> ndim y' = 1%nat) ->
  let nk := ((T - k) / s + 1)%nat in
  imd_create X (Z.of_nat k) y (Z.of_nat bs) (Z.of_nat s) None true true = Ok d -> Permutation q (seq 0 nk) ->
  pr (epoch_indices_law M nk [] d) (rows_are q) = / INR (fact nk).
Proof.
  intros HX HC Hk HkT Hbs Hs HM Hy nk Hc Hq. unfold epoch_indices_law. rewrite (pr_bind_const _ _ _ (/ INR (fact nk))); [rewrite field_mass by (apply word_mass; exact HM); lra|].
  intros w' rng _. rewrite pr_bind_ret. assert (SL : length (seq 0 nk) = nk) by apply seq_length.
  assert (SU := shuffle_uniform (seq 0 nk) q (seq_NoDup nk 0) Hq). rewrite SL in SU. rewrite <- SU. fold (perm_law nk). apply pr_ext. intros v p Hp.
  assert (HP := perm_support nk v p Hp). assert (Lq := Permutation_length Hq). assert (Lp := Permutation_length HP). rewrite SL in Lq, Lp.
  destruct (imd_coincident_epoch X y C T k bs s None true rng p d HX HC Hk HkT Hbs Hs Hy HP Hc) as (ks & bt & _ & _ & _ & _ & _ & Ek & (idx & E & S & V) & L & _). fold nk in L.
  apply Permutation_length in L. rewrite SL in L. rewrite firstn_all2 in Ek by lia. subst ks. rewrite E. cbn [rows_are]. rewrite S, Lq, Lp.
  destruct (list_eq_dec Nat.eq_dec [nk] [nk]) as [_|N]; [|congruence]. cbn [andb].
  destruct (list_eq_dec Nat.eq_dec p q) as [->|N].
  - apply forallb_forall. intros r Hr. apply in_seq in Hr. rewrite get_inb by (rewrite S, Lq; cbn; lia). rewrite V by lia. apply Z.eqb_refl.
  - apply Bool.not_true_iff_false. intros H. apply N. apply (nth_ext p q 0%nat 0%nat); [lia|]. intros r Hr. rewrite Lp in Hr. assert (K := proj1 (forallb_forall _ _) H r ltac:(apply in_seq; lia)). cbn beta in K.
    rewrite get_inb in K by (rewrite S, Lp; cbn; lia). rewrite V in K by lia. apply Z.eqb_eq in K. lia.
Qed.
(** non-coincident: the windows of all rows and channels are independent, each uniform over the nk windows (up to 1/M) *)
Definition cells_are (size : list nat) (f : list nat -> nat) (x : res (tensor Z)) : bool :=
  match x with Ok idx => forallb (fun i => match get idx i with Some v => Z.eqb v (Z.of_nat (f i)) | None => false end) (all_idx size) | Err _ => false end.
Theorem imd_noncoincident_law {A} (M : nat) (X : tensor A) y (C T k bs s n : nat) d (f : list nat -> nat) :
  shape X = [C; T] -> (0 < C)%nat -> (0 < k)%nat -> (k <= T)%nat -> (0 < bs)%nat -> (0 < s)%nat ->
  let nk := ((T - k) / s + 1)%nat in (nk <= M)%nat ->
  imd_create X (Z.of_nat k) y (Z.of_nat bs) (Z.of_nat s) (Some (Z.of_nat n)) false true = Ok d ->
  (forall i, inb i [bs * n; C]%nat -> (f i < nk)%nat) ->
  exists q : nat -> R, (forall w, (w < nk)%nat -> Rabs (q w - / INR nk) < / INR M /\ ((M mod nk = 0)%nat -> q w = / INR nk)) /\
    pr (epoch_indices_law M nk [bs * n; C]%nat d) (cells_are [bs * n; C]%nat f) = lprod (fun i => q (f i)) (all_idx [bs * n; C]%nat).
Proof.
  intros HX HC Hk HkT Hbs Hs nk HM Hc Hf. set (size := [bs * n; C]%nat) in *. assert (Hnk : (0 < nk)%nat) by (unfold nk; lia).
  exists (fun a => pr (word_law M) (fun w => Z.eqb (w mod Z.of_nat nk) (Z.of_nat a))). split; [intros w Hw; apply word_residue; lia|].
  rewrite <- (field_prob (word_law M) 0%Z (all_idx size) (fun i w => Z.eqb (w mod Z.of_nat nk) (Z.of_nat (f i))) (all_idx_NoDup size)).
  unfold epoch_indices_law. rewrite pr_bind. unfold pr at 2. apply lsum_ext. intros [w rng] _. cbn [fst snd]. rewrite pr_bind_ret.
  assert (E : forall p, cells_are size f (init_indices d rng p) = forallb (fun i => (rng i mod Z.of_nat nk =? Z.of_nat (f i))%Z) (all_idx size)).
  { intros p. destruct (imd_noncoincident_shuffled_epoch X y C T k bs s n rng p d HX HC Hk HkT Hbs Hs Hc) as (kern & bt & _ & _ & _ & (idx & E & S & V) & _). fold nk in V. rewrite E. cbn [cells_are].
    apply forallb_ext_in. intros i Hi. apply all_idx_spec in Hi. fold size in S. rewrite get_inb by (rewrite S; exact Hi). destruct i as [|r [|c [|? ?]]]; cbn in Hi; try tauto. destruct (V r c ltac:(tauto) ltac:(tauto)) as [_ ->]. reflexivity. }
  rewrite (pr_ext _ _ (fun _ => forallb (fun i => (rng i mod Z.of_nat nk =? Z.of_nat (f i))%Z) (all_idx size))) by (intros v p _; apply E).
  destruct (forallb _ (all_idx size)).
  - rewrite <- mass_pr. unfold perm_law. rewrite shuffle_mass; [lra|apply seq_NoDup|rewrite seq_length; lia].
  - unfold pr. rewrite lsum_zero by reflexivity. lra.
Qed.
(** ** non-vacuity *)
(** two kernels of 4 samples from 2 channels of 8: starts 1 and 3 have probability 1/16 *)
Example sample_law_ex : pr (sample_law 8 [2]%nat (mk [2; 8]%nat (fun i => i)) 4 (Some 2%Z) None true) (starts_are [2]%nat (fun i => match i with [0] => 1%Z | _ => 3%Z end)) = 1 / 16.
Proof.
  rewrite (sample_kernels_uniform 8 (mk [2; 8]%nat (fun i => i)) 4 (Some 2%Z) None true [2]%nat 0 4).
  - change (4 - 0)%Z with 4%Z. cbn. field.
  - right; left. exists 2%nat, 8%nat, 2%nat. cbn. repeat split; lia.
  - lia.
  - lia.
  - reflexivity.
  - intros i _. destruct i as [|[|?] [|? ?]]; lia.
Qed.
(** three series of two samples, prob = 1/2: inverting the first and the last only has probability 1/8 *)
Example inverter_law_ex m : (0 < m)%nat -> pr (invert_law (2 * m) (1 / 2) (mk [3; 2]%nat (fun _ => 1))) (flipped_exactly (mk [3; 2]%nat (fun _ => 1)) (fun i => match i with [1] => false | _ => true end)) = 1 / 8.
Proof.
  intros Hm. destruct (inverter_law (2 * m) (1 / 2) (mk [3; 2]%nat (fun _ => 1)) ltac:(lia)) as (p & _ & E & H); [lra|discriminate| |].
  - intros b Hb. exists 0%nat. split; [|cbn; lra]. cbn in Hb |- *. destruct b as [|x [|? ?]]; cbn in *; try tauto. lia.
  - rewrite H. assert (P : p = 1 / 2).
    { apply (E m). rewrite mult_INR. cbn [INR]. assert (0 < INR m) by (apply lt_0_INR; lia). field. lra. }
    rewrite P. unfold n_series, n_chosen. cbn. lra.
Qed.
