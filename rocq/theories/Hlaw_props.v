(** C81: the probabilities with which Hdf5TimeSeriesDataset draws windows. *)
From Coq Require Import Reals Lra Lia List Permutation.
Import ListNotations.
From Verif Require Import Base Prob Hlaw_model.
Local Open Scope R_scope.
(** ** specification *)
Definition total (sizes : list nat) : R := lsum INR sizes.
(** the event: file i, start s *)
Definition at_window (i s : nat) (x : nat * nat) : bool := (Nat.eqb (fst x) i && Nat.eqb (snd x) s)%bool.
Definition in_file (i : nat) (x : nat * nat) : bool := Nat.eqb (fst x) i.
(** every file is longer than the kernel *)
Definition long (sizes : list nat) (k : nat) : Prop := sizes <> [] /\ forall n, In n sizes -> (k < n)%nat.

(** ** lemmas *)
Lemma total_fsize sizes : lsum (fun i => INR (fsize sizes i)) (seq 0 (length sizes)) = total sizes.
Proof.
  unfold total, fsize. rewrite <- (lsum_map (fun i => nth i sizes 0%nat) INR). f_equal.
  induction sizes as [|a l IH]; [reflexivity|]. cbn [length seq map]. f_equal. rewrite <- seq_shift, map_map. cbn [nth]. exact IH.
Qed.
Lemma fsize_in sizes i : (i < length sizes)%nat -> In (fsize sizes i) sizes. Proof. apply nth_In. Qed.
Lemma total_pos sizes k : long sizes k -> 0 < total sizes.
Proof. intros [H1 H2]. apply lsum_pos; [exact H1|]. intros a Ha. apply lt_0_INR. specialize (H2 a Ha). lia. Qed.
Lemma fprob_spec sizes i : fprob sizes i = INR (fsize sizes i) / total sizes. Proof. unfold fprob. rewrite total_fsize. reflexivity. Qed.
Lemma fprob_pos sizes k i : long sizes k -> (i < length sizes)%nat -> 0 < fprob sizes i.
Proof. intros HL Hi. rewrite fprob_spec. apply Rdiv_lt_0_compat; [|apply (total_pos sizes k HL)]. apply lt_0_INR. pose proof (proj2 HL _ (fsize_in sizes i Hi)). lia. Qed.
Lemma fprob_sum sizes k : long sizes k -> lsum (fprob sizes) (seq 0 (length sizes)) = 1.
Proof. intros HL. pose proof (total_pos sizes k HL). rewrite (lsum_ext _ (fun i => / total sizes * INR (fsize sizes i))) by (intros i _; rewrite fprob_spec; unfold Rdiv; lra). rewrite lsum_scal, total_fsize. field. lra. Qed.
Lemma remove_len l : forall i, NoDup l -> In i l -> length (remove Nat.eq_dec i l) = (length l - 1)%nat.
Proof.
  induction l as [|a l IH]; intros i ND Hi; [destruct Hi|]. inversion ND as [|? ? Ha ND']; subst. cbn [remove]. destruct (Nat.eq_dec i a) as [->|E].
  - rewrite notin_remove by exact Ha. cbn. lia.
  - destruct Hi as [Hi|Hi]; [congruence|]. cbn [length]. rewrite (IH i ND' Hi). destruct l; [destruct Hi|cbn; lia].
Qed.
Lemma remove_perm l : forall i, NoDup l -> In i l -> Permutation (i :: remove Nat.eq_dec i l) l.
Proof.
  induction l as [|a l IH]; intros i ND Hi; [destruct Hi|]. inversion ND as [|? ? Ha ND']; subst. cbn [remove]. destruct (Nat.eq_dec i a) as [->|E].
  - rewrite notin_remove by exact Ha. reflexivity.
  - destruct Hi as [Hi|Hi]; [congruence|]. etransitivity; [apply perm_swap|]. constructor. apply IH; assumption.
Qed.
Lemma remove_nodup l i : NoDup l -> NoDup (remove Nat.eq_dec i l).
Proof. induction 1 as [|a l Ha ND IH]; cbn; [constructor|]. destruct (Nat.eq_dec i a); [exact IH|]. constructor; [|exact IH]. intros K. apply in_remove in K. tauto. Qed.
Lemma draw_norep_spec p : forall k idx, NoDup idx -> (forall i, In i idx -> 0 < p i) -> (k <= length idx)%nat -> 
  mass (draw_norep p k idx) = 1 /\ forall w l, In (w, l) (draw_norep p k idx) -> length l = k /\ NoDup l /\ (forall i, In i l -> In i idx) /\ (k = length idx -> Permutation l idx).
Proof.
  induction k as [|k IH]; intros idx ND HP Hk; cbn [draw_norep].
  - split; [unfold mass, ret; cbn; lra|]. intros w l [E|[]]. injection E as _ <-. split; [reflexivity|]. split; [constructor|]. split; [intros i []|]. intros E. destruct idx; [constructor|discriminate].
  - assert (NE : idx <> []) by (intros ->; cbn in Hk; lia).
    assert (REC : forall i, In i idx -> mass (draw_norep p k (remove Nat.eq_dec i idx)) = 1 /\ forall w l, In (w, l) (draw_norep p k (remove Nat.eq_dec i idx)) -> length l = k /\ NoDup l /\ (forall j, In j l -> In j (remove Nat.eq_dec i idx)) /\ (k = length (remove Nat.eq_dec i idx) -> Permutation l (remove Nat.eq_dec i idx))).
    { intros i Hi. apply IH; [apply remove_nodup, ND|intros j Hj; apply HP; apply in_remove in Hj; tauto|rewrite remove_len by assumption; lia]. }
    assert (CI : forall w i, In (w, i) (categorical p idx) -> In i idx) by (intros w i Hw; apply in_map_iff in Hw as (a & E & Ha); injection E as _ <-; exact Ha).
    split.
    + rewrite mass_pr, (pr_bind_const _ _ _ 1).
      * rewrite categorical_mass; [lra|]. pose proof (lsum_pos p idx NE HP). lra.
      * intros w i Hw. rewrite (pr_bind_const _ _ _ 1); [|intros v l _; unfold pr, ret; cbn; lra]. rewrite (proj1 (REC i (CI w i Hw))). lra.
    + intros w l Hl. apply in_bind in Hl as (w1 & i & u & H1 & H2). apply in_bind in H2 as (w2 & l' & u' & H3 & H4). cbn in H4. destruct H4 as [H4|[]]. injection H4 as _ <-. apply CI in H1.
      destruct (proj2 (REC i H1) w2 l' H3) as (A & B & C0 & D). split; [cbn; lia|]. split; [constructor; [intros K; apply C0, in_remove in K; tauto|exact B]|]. split.
      * intros j [<-|Hj]; [exact H1|]. apply C0, in_remove in Hj. tauto.
      * intros E. etransitivity; [constructor; apply D; rewrite remove_len by assumption; lia|]. apply remove_perm; assumption.
Qed.
Lemma subset_spec sizes k nf : long sizes k -> (nf <= length sizes)%nat -> mass (subset_law sizes nf) = 1 /\
  forall w l, In (w, l) (subset_law sizes nf) -> length l = nf /\ NoDup l /\ (forall i, In i l -> (i < length sizes)%nat) /\ (nf = length sizes -> Permutation l (seq 0 (length sizes))).
Proof.
  intros HL Hn. destruct (draw_norep_spec (fprob sizes) nf (seq 0 (length sizes))) as [A B]; [apply seq_NoDup|intros i Hi; apply in_seq in Hi; apply (fprob_pos sizes k); [exact HL|lia]|rewrite seq_length; exact Hn|].
  split; [exact A|]. intros w l Hl. destruct (B w l Hl) as (B1 & B2 & B3 & B4). rewrite seq_length in B4. repeat split; try assumption. intros i Hi. apply B3, in_seq in Hi. lia.
Qed.
Lemma file_prob sizes sel i : NoDup sel -> In i sel -> pr (file_given sizes sel) (Nat.eqb i) = fprob sizes i / lsum (fprob sizes) sel.
Proof. intros ND Hi. unfold file_given. rewrite pr_categorical. f_equal. apply lsum_single; [exact ND|exact Hi|]. intros b _. rewrite Nat.eqb_eq. split; intros; congruence. Qed.
(** the window law given the files of the batch *)
Lemma window_given_prob sizes k sel i s : NoDup sel -> In i sel -> (s < fsize sizes i - k)%nat ->
  pr (window_given sizes k sel) (at_window i s) = fprob sizes i / lsum (fprob sizes) sel / INR (fsize sizes i - k).
Proof.
  intros ND Hi Hs. unfold window_given. rewrite pr_bind. unfold file_given, categorical. rewrite lsum_map. cbn [fst snd].
  rewrite (lsum_ext _ (fun a => if Nat.eqb a i then fprob sizes a / lsum (fprob sizes) sel / INR (fsize sizes a - k) else 0)).
  - apply (lsum_single (fun a => fprob sizes a / lsum (fprob sizes) sel / INR (fsize sizes a - k))); [exact ND|exact Hi|]. intros b _. apply Nat.eqb_eq.
  - intros a _. rewrite pr_bind. unfold uniform_nat. rewrite lsum_map. cbn [fst snd].
    rewrite (lsum_ext (fun t => / INR (fsize sizes a - k) * pr (ret (a, t)) (at_window i s)) (fun t => if (Nat.eqb a i && Nat.eqb t s)%bool then / INR (fsize sizes a - k) else 0)) by (intros t _; unfold pr, ret, at_window; cbn [lsum fst snd]; destruct (_ && _)%bool; ring).
    destruct (Nat.eqb_spec a i) as [->|E]; cbn [andb].
    + unfold Rdiv. f_equal. apply (lsum_single (fun _ => / INR (fsize sizes i - k)) _ _ s); [apply seq_NoDup|apply in_seq; lia|]. intros b _. apply Nat.eqb_eq.
    + rewrite (lsum_zero (fun _ : nat => 0)) by reflexivity. lra.
Qed.
(** ** theorems *)
(** it is a probability law: no draw fails when every file is longer than the kernel *)
Theorem window_law_mass sizes k nf : long sizes k -> (1 <= nf <= length sizes)%nat -> mass (window_law sizes k nf) = 1.
Proof.
  intros HL Hn. destruct (subset_spec sizes k nf HL ltac:(lia)) as [A B]. rewrite mass_pr. unfold window_law. rewrite (pr_bind_const _ _ _ 1); [rewrite A; lra|].
  intros w sel Hs. destruct (B w sel Hs) as (B1 & B2 & B3 & _). unfold window_given. rewrite (pr_bind_const _ _ _ 1).
  - unfold file_given. rewrite categorical_mass; [lra|]. assert (0 < lsum (fprob sizes) sel); [|lra]. apply lsum_pos; [intros ->; cbn in B1; lia|]. intros i Hi. apply (fprob_pos sizes k); [exact HL|apply B3, Hi].
  - intros v i Hi. apply in_map_iff in Hi as (a & E & Ha). injection E as _ <-. rewrite (pr_bind_const _ _ _ 1); [|intros; unfold pr, ret; cbn; lra].
    rewrite uniform_mass; [lra|]. pose proof (proj2 HL _ (fsize_in sizes a (B3 a Ha))). lia.
Qed.
(** all files, or one file, per batch: file i is used with probability size_i / total, and every window starting before its last one has the same share *)
Theorem window_law_prob sizes k nf i s : long sizes k -> nf = length sizes \/ nf = 1%nat -> (i < length sizes)%nat -> (s < fsize sizes i - k)%nat ->
  pr (window_law sizes k nf) (at_window i s) = INR (fsize sizes i) / total sizes / INR (fsize sizes i - k).
Proof.
  intros HL Hnf Hi Hs. rewrite <- fprob_spec. assert (P0 := fprob_pos sizes k i HL Hi). destruct Hnf as [->| ->].
  - destruct (subset_spec sizes k (length sizes) HL ltac:(lia)) as [A B]. unfold window_law. rewrite (pr_bind_const _ _ _ (fprob sizes i / INR (fsize sizes i - k))); [rewrite A; lra|].
    intros w sel Hsel. destruct (B w sel Hsel) as (_ & B2 & _ & B4). specialize (B4 eq_refl). rewrite window_given_prob; [|exact B2|apply (Permutation_in i (Permutation_sym B4)); apply in_seq; lia|exact Hs].
    rewrite (lsum_perm _ _ _ B4), (fprob_sum sizes k HL). field. apply not_0_INR. lia.
  - unfold window_law, subset_law. cbn [draw_norep]. rewrite pr_bind. unfold dbind at 1, categorical at 1. rewrite (fprob_sum sizes k HL).
    rewrite flat_map_concat_map, map_map. cbn [fst snd]. unfold dbind, ret. cbn [flat_map map app fst snd].
    assert (EQ : forall l, lsum (fun wa => fst wa * pr (window_given sizes k (snd wa)) (at_window i s)) (concat (map (fun x => [(fprob sizes x / 1 * (1 * 1), [x])]) l)) = lsum (fun a => fprob sizes a * pr (window_given sizes k [a]) (at_window i s)) l).
    { induction l as [|a l IH]; [reflexivity|]. cbn [map concat app lsum fst snd]. rewrite IH. f_equal. f_equal. field. }
    rewrite EQ. rewrite (lsum_ext _ (fun a => if Nat.eqb a i then fprob sizes a / INR (fsize sizes a - k) else 0)).
    + apply (lsum_single (fun a => fprob sizes a / INR (fsize sizes a - k))); [apply seq_NoDup|apply in_seq; lia|]. intros b _. apply Nat.eqb_eq.
    + intros a Ha. apply in_seq in Ha. destruct (Nat.eqb_spec a i) as [->|E].
      * rewrite window_given_prob; [|constructor; [intros []|constructor]|left; reflexivity|exact Hs]. cbn [lsum]. field. split; [apply not_0_INR; lia|lra].
      * unfold window_given. rewrite pr_bind. unfold file_given, categorical. cbn [map lsum fst snd]. rewrite pr_bind. rewrite lsum_zero; [lra|]. intros [v t] _. unfold pr, ret, at_window. cbn [lsum fst snd]. replace (Nat.eqb a i) with false by (symmetry; apply Nat.eqb_neq; exact E). cbn. lra.
Qed.
(** so the windows are not equally likely: those of a shorter file are drawn more often *)
Theorem window_law_uniform_refuted sizes k nf i j s t : long sizes k -> nf = length sizes \/ nf = 1%nat -> (i < length sizes)%nat -> (j < length sizes)%nat -> (s < fsize sizes i - k)%nat -> (t < fsize sizes j - k)%nat ->
  (0 < k)%nat -> (pr (window_law sizes k nf) (at_window j t) < pr (window_law sizes k nf) (at_window i s) <-> (fsize sizes i < fsize sizes j)%nat).
Proof.
  intros HL Hnf Hi Hj Hs Ht Hk. rewrite !window_law_prob by assumption. pose proof (total_pos sizes k HL) as PT. set (T := total sizes) in *. set (a := fsize sizes i) in *. set (b := fsize sizes j) in *. clearbody T a b.
  rewrite !minus_INR by lia. assert (INR k < INR a) by (apply lt_INR; lia). assert (INR k < INR b) by (apply lt_INR; lia). assert (0 < INR k) by (apply lt_0_INR; lia).
  set (ka := INR k) in *. assert (E : INR a / T / (INR a - ka) - INR b / T / (INR b - ka) = ka * (INR b - INR a) / (T * (INR a - ka) * (INR b - ka))) by (field; lra).
  assert (PD : 0 < T * (INR a - ka) * (INR b - ka)) by (repeat apply Rmult_lt_0_compat; lra).
  split; intros HH.
  - apply INR_lt. destruct (Rlt_dec (INR a) (INR b)) as [K|K]; [exact K|]. exfalso. assert (ka * (INR b - INR a) / (T * (INR a - ka) * (INR b - ka)) <= 0); [|lra].
    assert (0 <= ka * (INR a - INR b) / (T * (INR a - ka) * (INR b - ka))) by (apply Rmult_le_pos; [nra|apply Rlt_le, Rinv_0_lt_compat, PD]). unfold Rdiv in *. lra.
  - apply lt_INR in HH. assert (0 < ka * (INR b - INR a) / (T * (INR a - ka) * (INR b - ka))) by (apply Rdiv_lt_0_compat; [nra|exact PD]). lra.
Qed.
(** a proper subset of the files per batch: not even the files are drawn in proportion to their length *)
Theorem file_share_refuted m k : (k < m)%nat -> pr (window_law [2 * m; m; m]%nat k 2) (in_file 0) = 5 / 9 /\ INR (2 * m) / total [2 * m; m; m]%nat = 1 / 2.
Proof.
  intros Hm. set (sizes := [2 * m; m; m]%nat). assert (PM : 0 < INR m) by (apply lt_0_INR; lia). assert (E2 : INR (2 * m) = 2 * INR m) by (rewrite mult_INR; cbn; lra).
  assert (TT : total sizes = 4 * INR m) by (unfold total, sizes; cbn [lsum]; rewrite E2; lra). split; [|rewrite TT, E2; field; lra].
  assert (P0 : fprob sizes 0 = / 2) by (rewrite fprob_spec, TT; unfold fsize, sizes; cbn [nth]; rewrite E2; field; lra).
  assert (P1 : fprob sizes 1 = / 4) by (rewrite fprob_spec, TT; unfold fsize, sizes; cbn [nth]; field; lra). assert (P2 : fprob sizes 2 = / 4) by (rewrite fprob_spec, TT; unfold fsize, sizes; cbn [nth]; field; lra).
  assert (G : forall sel, (forall i, In i sel -> (i < 3)%nat) -> pr (window_given sizes k sel) (in_file 0) = pr (file_given sizes sel) (Nat.eqb 0)).
  { intros sel Hsel. unfold window_given. rewrite pr_bind. unfold file_given at 1, pr at 2, file_given, categorical. rewrite !lsum_map. cbn [fst snd]. apply lsum_ext. intros i Hi. specialize (Hsel i Hi). destruct (Nat.eqb_spec 0 i) as [<-|N].
    - rewrite (pr_bind_const _ _ _ 1); [|intros v t _; unfold pr, ret; cbn; lra]. rewrite uniform_mass; [lra|]. unfold fsize, sizes. cbn [nth]. lia.
    - rewrite (pr_bind_const _ _ _ 0); [lra|]. intros v t _. unfold pr, ret, in_file. cbn [lsum fst snd]. replace (Nat.eqb i 0) with false by (symmetry; apply Nat.eqb_neq; lia). lra. }
  unfold window_law, subset_law. change (seq 0 (length sizes)) with [0; 1; 2]%nat. cbn [draw_norep]. rewrite pr_bind.
  unfold dbind, categorical, ret. cbn [map flat_map remove Nat.eq_dec nat_rec nat_rect sumbool_rec sumbool_rect lsum app fst snd]. 
  rewrite !G by (intros i Hi; cbn in Hi; lia). unfold file_given. rewrite !pr_categorical. cbn [lsum Nat.eqb]. rewrite P0, P1, P2. field.
Qed.
(** two cells of a batch: independent when all files are used, always the same file when one is *)
Theorem file_pair_all sizes k i j : long sizes k -> (i < length sizes)%nat -> (j < length sizes)%nat -> pr (file_pair_law sizes (length sizes)) (at_window i j) = INR (fsize sizes i) / total sizes * (INR (fsize sizes j) / total sizes).
Proof.
  intros HL Hi Hj. rewrite <- !fprob_spec. destruct (subset_spec sizes k (length sizes) HL ltac:(lia)) as [A B]. unfold file_pair_law. rewrite (pr_bind_const _ _ _ (fprob sizes i * fprob sizes j)); [rewrite A; lra|].
  intros w sel Hsel. destruct (B w sel Hsel) as (_ & B2 & _ & B4). specialize (B4 eq_refl). assert (S1 : lsum (fprob sizes) sel = 1) by (rewrite (lsum_perm _ _ _ B4); apply (fprob_sum sizes k HL)).
  assert (I1 : In i sel) by (apply (Permutation_in i (Permutation_sym B4)), in_seq; lia). assert (I2 : In j sel) by (apply (Permutation_in j (Permutation_sym B4)), in_seq; lia).
  rewrite pr_bind. unfold file_given, categorical. rewrite lsum_map. cbn [fst snd].
  rewrite (lsum_ext _ (fun a => if Nat.eqb a i then fprob sizes a * fprob sizes j else 0)); [apply (lsum_single (fun a => fprob sizes a * fprob sizes j)); [exact B2|exact I1|intros b _; apply Nat.eqb_eq]|].
  intros a _. rewrite pr_bind. rewrite lsum_map. cbn [fst snd]. rewrite S1.
  rewrite (lsum_ext _ (fun t => if (Nat.eqb a i && Nat.eqb t j)%bool then fprob sizes t else 0)) by (intros t _; unfold pr, ret, at_window; cbn [lsum fst snd]; destruct (_ && _)%bool; field).
  destruct (Nat.eqb_spec a i) as [->|E]; cbn [andb]; [|rewrite (lsum_zero (fun _ : nat => 0)) by reflexivity; lra].
  rewrite (lsum_single (fprob sizes) (fun t => Nat.eqb t j) sel j); [field|exact B2|exact I2|]. intros b _. apply Nat.eqb_eq.
Qed.
Theorem file_pair_one sizes k i j : long sizes k -> i <> j -> pr (file_pair_law sizes 1) (at_window i j) = 0.
Proof.
  intros HL Hij. destruct (subset_spec sizes k 1 HL) as [A B]. { destruct HL as [H _]. destruct sizes; [congruence|cbn; lia]. } unfold file_pair_law. rewrite (pr_bind_const _ _ _ 0); [lra|].
  intros w sel Hsel. destruct (B w sel Hsel) as (B1 & _). destruct sel as [|a [|? ?]]; try discriminate. rewrite (pr_bind_const _ _ _ 0); [lra|]. intros v x Hx. apply in_map_iff in Hx as (x' & E & [<-|[]]). injection E as _ <-.
  rewrite (pr_bind_const _ _ _ 0); [lra|]. intros v' y Hy. apply in_map_iff in Hy as (y' & E & [<-|[]]). injection E as _ <-. unfold pr, ret, at_window. cbn [lsum fst snd]. destruct (Nat.eqb_spec a i), (Nat.eqb_spec a j); cbn; try lra. congruence.
Qed.
(** two files of 100 and 200 samples, kernels of 50: a window of the short file has probability 1/150, one of the long file 1/225 *)
Example window_law_ex : pr (window_law [100; 200]%nat 50 2) (at_window 0 7) = 1 / 150 /\ pr (window_law [100; 200]%nat 50 2) (at_window 1 7) = 1 / 225.
Proof.
  assert (L : long [100; 200]%nat 50) by (split; [discriminate|]; intros n [<-|[<-|[]]]; lia).
  assert (I1 : INR 100 = 100) by (rewrite INR_IZR_INZ; reflexivity). assert (I2 : INR 200 = 200) by (rewrite INR_IZR_INZ; reflexivity).
  assert (I3 : INR 50 = 50) by (rewrite INR_IZR_INZ; reflexivity). assert (I4 : INR 150 = 150) by (rewrite INR_IZR_INZ; reflexivity).
  split; rewrite window_law_prob; try exact L; try (left; reflexivity); try (cbn; lia); unfold total, fsize; cbn [lsum nth]; [change (100 - 50)%nat with 50%nat; rewrite I1, I2, I3|change (200 - 50)%nat with 150%nat; rewrite I1, I2, I4]; lra.
Qed.
