(** C90, continued: ChunkedTimeSeriesDataset, WaveformSampler, SnrRescaler. *)
From Coq Require Import String.
From Verif Require Import Base Tensor Rutil Bcast Slicing_model Slicing_proofs2 Data_model Norm_model Gw_model Gw_spec Gw_props Snr_props Dft Spectral_model Psd_props Fit_model Fit_props Scaler_props Rescaler_props Chunk_proofs Chunk_props Wsamp_model Wsamp_props.
From Coq Require Import Reals Lra Lia List ZArith Permutation.
Import ListNotations.
From Verif Require Import Prob Law_model Law_lib Law_props.
Local Open Scope R_scope.

(** the chunk whose samples are their own positions: slicing it shows where every sample was read *)
Definition labelled (s : list nat) : tensor (list nat) := mk s (fun i => i).
(** what reading any chunk returns is read at the positions that the labelled chunk shows *)
Definition cell (co : bool) (b c : nat) : list nat := if co then [b] else [b; c].
(** one batch; element b, channel c is the window of row [row] of the chunk that starts at [start] *)
Definition windows_are (bs C k : nat) (co : bool) (row start : list nat -> nat) (r : res (list (tensor (list nat)))) : bool :=
  match r with
  | Ok [y] => forallb (fun i => match i with
      | [b; c; j] => match get y i with Some p => if list_eq_dec Nat.eq_dec p [row (cell co b c); c; (start (cell co b c) + j)%nat] then true else false | None => false end
      | _ => false end) (all_idx [bs; C; k])
  | _ => false
  end.
Lemma pr_bind2 {A B C} (d : dist A) (e : dist B) (f : A -> B -> C) (E : C -> bool) (P : A -> bool) (Q : B -> bool) :
  (forall a b, E (f a b) = (P a && Q b)%bool) -> pr (dbind d (fun a => dbind e (fun b => ret (f a b)))) E = pr d P * pr e Q.
Proof.
  intros H. rewrite pr_bind. rewrite (lsum_ext _ (fun wa => if P (snd wa) then fst wa * pr e Q else 0)); [apply pr_scal|].
  intros [w a] _. cbn [fst snd]. rewrite pr_bind_ret. rewrite (pr_ext _ _ (fun b => (P a && Q b)%bool)) by (intros; apply H). destruct (P a); cbn [andb].
  - change (fun b : B => Q b) with Q. reflexivity.
  - unfold pr. rewrite lsum_zero by reflexivity. lra.
Qed.
Lemma to_nat_mod w r a : (0 < r)%nat -> Z.to_nat (w mod Z.of_nat r) = a <-> (w mod Z.of_nat r)%Z = Z.of_nat a.
Proof. intros H. pose proof (Z.mod_pos_bound w (Z.of_nat r) ltac:(lia)) as B. generalize dependent (w mod Z.of_nat r)%Z. intros z B. lia. Qed.
(** rows and starts of all cells are independent; each row has probability 1/n and each start before the last one 1/(T-k), up to 1/M *)
Theorem chunk_windows_law (M n C T k bs : nat) (co : bool) (row start : list nat -> nat) :
  (0 < n <= M)%nat -> (0 < C)%nat -> (0 < k < T)%nat -> (T - k <= M)%nat -> (0 < bs)%nat ->
  let size := if co then [bs] else [bs; C] in
  (forall i, inb i size -> (row i < n)%nat /\ (start i < T - k)%nat) ->
  exists qr qs : nat -> R,
    (forall z, (z < n)%nat -> Rabs (qr z - / INR n) < / INR M /\ ((M mod n = 0)%nat -> qr z = / INR n)) /\
    (forall z, (z < T - k)%nat -> Rabs (qs z - / INR (T - k)) < / INR M /\ ((M mod (T - k) = 0)%nat -> qs z = / INR (T - k))) /\
    pr (chunk_law M size (labelled [n; C; T]) k bs co) (windows_are bs C k co row start) = lprod (fun i => qr (row i)) (all_idx size) * lprod (fun i => qs (start i)) (all_idx size).
Proof.
  intros Hn HC Hk HT Hbs size Hf.
  exists (fun a => pr (word_law M) (fun w => Z.eqb (w mod Z.of_nat n) (Z.of_nat a))), (fun a => pr (word_law M) (fun w => Z.eqb (w mod Z.of_nat (T - k)) (Z.of_nat a))).
  split; [intros z Hz; apply word_residue; lia|]. split; [intros z Hz; apply word_residue; lia|].
  rewrite <- (field_prob (word_law M) 0%Z (all_idx size) (fun i w => Z.eqb (w mod Z.of_nat n) (Z.of_nat (row i))) (all_idx_NoDup size)).
  rewrite <- (field_prob (word_law M) 0%Z (all_idx size) (fun i w => Z.eqb (w mod Z.of_nat (T - k)) (Z.of_nat (start i))) (all_idx_NoDup size)).
  unfold chunk_law. apply pr_bind2. intros r1 r2.
  destruct (chunk_base_idx_ok bs C k T Hbs HC ltac:(lia)) as [idx [Ei [Si Vi]]].
  destruct (chunk_batch_ok bs k co (labelled [n; C; T]) n C T idx r1 r2 eq_refl Hbs HC ltac:(lia) ltac:(lia) ltac:(lia) Si Vi) as [y [Ey [Sy Vy]]].
  assert (EI : chunked_iter [labelled [n; C; T]] k bs 1 co (fun call _ _ => match call with O => r1 | _ => r2 end) = Ok [y]).
  { unfold chunked_iter. cbn [labelled shape length seq combine map fst snd]. rewrite Ei. cbn [bind sequence]. unfold chunk_loop at 1. cbn [labelled shape]. replace (T <? k)%nat with false by (symmetry; apply Nat.ltb_ge; lia). cbn [seq map sequence].
    fold (labelled [n; C; T]). rewrite Ey. reflexivity. }
  rewrite EI. cbn [windows_are].
  assert (EC : forall b c, cell co b c = draw_pos co b c) by reflexivity.
  assert (IC : forall b c, (b < bs)%nat -> (c < C)%nat -> inb (cell co b c) size) by (intros b c Hb Hc; unfold cell, size; destruct co; cbn; auto).
  assert (VG : forall b c j, (b < bs)%nat -> (c < C)%nat -> (j < k)%nat -> get y [b; c; j] = Some [Z.to_nat (r1 (cell co b c) mod Z.of_nat n); c; (Z.to_nat (r2 (cell co b c) mod Z.of_nat (T - k)) + j)%nat]).
  { intros b c j Hb Hc Hj. rewrite Vy by assumption. rewrite <- EC. replace (Z.of_nat T - Z.of_nat k)%Z with (Z.of_nat (T - k)) by lia.
    pose proof (Z.mod_pos_bound (r1 (cell co b c)) (Z.of_nat n) ltac:(lia)) as B1. pose proof (Z.mod_pos_bound (r2 (cell co b c)) (Z.of_nat (T - k)) ltac:(lia)) as B2.
    generalize dependent (r1 (cell co b c) mod Z.of_nat n)%Z. generalize dependent (r2 (cell co b c) mod Z.of_nat (T - k))%Z. intros z2 B2 z1 B1.
    rewrite get_inb; [reflexivity|]. cbn [labelled shape inb]. clear - Hn Hk HT B1 B2 Hc Hj. lia. }
  apply Bool.eq_iff_eq_true. rewrite Bool.andb_true_iff, !forallb_forall. split.
  - intros H. assert (K : forall i, In i (all_idx size) -> exists b c, (b < bs)%nat /\ (c < C)%nat /\ i = cell co b c).
    { intros i Hi. apply all_idx_spec in Hi. unfold size, cell in *. destruct co; [destruct i as [|b [|? ?]]; cbn in Hi; try tauto; exists b, 0%nat; repeat split; tauto|destruct i as [|b [|c [|? ?]]]; cbn in Hi; try tauto; exists b, c; repeat split; tauto]. }
    assert (G : forall b c, (b < bs)%nat -> (c < C)%nat -> Z.to_nat (r1 (cell co b c) mod Z.of_nat n) = row (cell co b c) /\ Z.to_nat (r2 (cell co b c) mod Z.of_nat (T - k)) = start (cell co b c)).
    { intros b c Hb Hc. specialize (H [b; c; 0%nat] ltac:(apply all_idx_spec; cbn; lia)). cbn beta iota in H. rewrite VG in H by lia. destruct (list_eq_dec Nat.eq_dec _ _) as [E|]; [|discriminate]. injection E as E1 E2. split; [exact E1|]. rewrite !Nat.add_0_r in E2. exact E2. }
    split; intros i Hi; destruct (K i Hi) as (b & c & Hb & Hc & ->); destruct (G b c Hb Hc) as [G1 G2]; apply Z.eqb_eq.
    + apply to_nat_mod; [apply Hn|exact G1].
    + apply to_nat_mod; [apply Nat.lt_add_lt_sub_r; apply Hk|exact G2].
  - intros [H1 H2] i Hi. apply all_idx_spec in Hi. destruct i as [|b [|c [|j [|? ?]]]]; cbn in Hi; try tauto. destruct Hi as (Hb & Hc & Hj & _). rewrite VG by assumption.
    specialize (H1 _ (proj2 (all_idx_spec _ _) (IC b c Hb Hc))). specialize (H2 _ (proj2 (all_idx_spec _ _) (IC b c Hb Hc))). apply Z.eqb_eq in H1, H2. rewrite H1, H2, !Nat2Z.id.
    destruct (list_eq_dec Nat.eq_dec _ _) as [|N]; [reflexivity|congruence].
Qed.
(** reading any chunk: the samples of the chunk at the positions that the labelled chunk shows *)
Theorem chunk_labelled {A} (chunk : tensor A) (n C T k bs : nat) (co : bool) rng y : shape chunk = [n; C; T] -> (0 < n)%nat -> (0 < C)%nat -> (0 < k < T)%nat -> (0 < bs)%nat ->
  chunked_iter [labelled [n; C; T]] k bs 1 co rng = Ok [y] ->
  exists z, chunked_iter [chunk] k bs 1 co rng = Ok [z] /\ shape z = [bs; C; k] /\ forall i p, get y i = Some p -> get z i = get chunk p.
Proof.
  intros Hs Hn HC Hk Hbs. unfold chunked_iter. cbn [labelled shape]. rewrite Hs. cbn [length seq combine map fst snd].
  destruct (chunk_base_idx_ok bs C k T Hbs HC ltac:(lia)) as [idx [Ei [Si Vi]]]. rewrite Ei. cbn [bind sequence]. unfold chunk_loop. cbn [labelled shape]. rewrite Hs.
  replace (T <? k)%nat with false by (symmetry; apply Nat.ltb_ge; lia). cbn [seq map sequence]. fold (labelled [n; C; T]).
  destruct (chunk_batch_ok bs k co (labelled [n; C; T]) n C T idx (rng 0%nat 0%nat 0%nat) (rng 1%nat 0%nat 0%nat) eq_refl Hbs HC ltac:(lia) ltac:(lia) Hn Si Vi) as [y1 [E1 [S1 V1]]].
  destruct (chunk_batch_ok bs k co chunk n C T idx (rng 0%nat 0%nat 0%nat) (rng 1%nat 0%nat 0%nat) Hs Hbs HC ltac:(lia) ltac:(lia) Hn Si Vi) as [z [E2 [S2 V2]]].
  rewrite E1, E2. cbn. intros E. injection E as <-. exists z. split; [reflexivity|]. split; [exact S2|]. intros i p Hp. assert (Hi := proj1 (proj1 (get_some _ _ _) Hp)). rewrite S1 in Hi.
  destruct i as [|b [|c [|j [|? ?]]]]; cbn in Hi; try tauto. rewrite V1 in Hp by tauto. rewrite V2 by tauto. apply get_some in Hp as [_ Hp]. cbn in Hp. rewrite <- Hp. reflexivity.
Qed.

(** ** WaveformSampler: rows are drawn independently and with replacement, each with probability 1/n (up to 1/M) *)
Definition waveform_law {A} (M : nat) (s : wsampler A) (N : nat) : dist (res (list (string * tensor A) * option (tensor A))) :=
  dbind (field_law (word_law M) 0%Z (all_idx [N])) (fun rng => ret (ws_forward s (Z.of_nat N) rng)).
Definition params_are (N : nat) (j : nat -> nat) (r : res (list (string * tensor nat) * option (tensor nat))) : bool :=
  match r with Ok (_, Some q) => forallb (fun a => match get q [a] with Some v => Nat.eqb v (j a) | None => false end) (seq 0 N) | _ => false end.
Lemma all_idx_1 N : all_idx [N] = map (fun a => [a]) (seq 0 N).
Proof. cbn [all_idx]. induction (seq 0 N) as [|a l IH]; [reflexivity|]. cbn [flat_map map app] in *. rewrite IH. reflexivity. Qed.
Lemma lprod_map {A B} (h : A -> B) (f : B -> R) l : lprod f (map h l) = lprod (fun a => f (h a)) l.
Proof. induction l as [|a l IH]; cbn; [reflexivity|]. rewrite IH. reflexivity. Qed.
Lemma forallb_map' {A B} (h : A -> B) (f : B -> bool) l : forallb f (map h l) = forallb (fun a => f (h a)) l.
Proof. induction l as [|a l IH]; cbn; [reflexivity|]. rewrite IH. reflexivity. Qed.
Theorem waveform_sampler_law (M n N : nat) (s : wsampler nat) (j : nat -> nat) : (0 < n <= M)%nat -> (N <= n)%nat ->
  ws_num s = Some n -> (forall k t, In (k, t) (ws_pols s) -> rows n t) -> ws_params s = Some (mk [n] (fun i => hd 0%nat i)) -> (forall a, (a < N)%nat -> (j a < n)%nat) ->
  exists q : nat -> R, (forall z, (z < n)%nat -> Rabs (q z - / INR n) < / INR M /\ ((M mod n = 0)%nat -> q z = / INR n)) /\
    pr (waveform_law M s N) (params_are N j) = lprod (fun a => q (j a)) (seq 0 N).
Proof.
  intros Hn HN Hs HR HP Hj. exists (fun a => pr (word_law M) (fun w => Z.eqb (w mod Z.of_nat n) (Z.of_nat a))). split; [intros z Hz; apply word_residue; lia|].
  change (lprod (fun a => pr (word_law M) (fun w => (w mod Z.of_nat n =? Z.of_nat (j a))%Z)) (seq 0 N)) with (lprod (fun a => (fun i => pr (word_law M) (fun w => (w mod Z.of_nat n =? Z.of_nat (j (hd 0%nat i)))%Z)) [a]) (seq 0 N)).
  rewrite <- (lprod_map (fun a => [a]) (fun i => pr (word_law M) (fun w => (w mod Z.of_nat n =? Z.of_nat (j (hd 0%nat i)))%Z))), <- all_idx_1.
  rewrite <- (field_prob (word_law M) 0%Z (all_idx [N]) (fun i w => Z.eqb (w mod Z.of_nat n) (Z.of_nat (j (hd 0%nat i)))) (all_idx_NoDup [N])).
  unfold waveform_law. rewrite pr_bind_ret. apply pr_ext. intros w rng _. unfold ws_forward. rewrite Hs. replace (Z.of_nat n <? Z.of_nat N)%Z with false by lia. replace (Z.of_nat N =? -1)%Z with false by lia.
  destruct (randint_z_ok 0 (Z.of_nat n) [N] rng ltac:(lia)) as [idx [E [Si Vi]]]. cbn [map] in E. rewrite E. cbn [bind].
  assert (B : forall a, (0 <= elt idx [a] < Z.of_nat n)%Z) by (intros a; rewrite Vi; pose proof (Z.mod_pos_bound (rng [a]) (Z.of_nat n - 0) ltac:(lia)); lia).
  destruct (forward_rows s n Hs HR ltac:(intros p Ep; rewrite HP in Ep; injection Ep as <-; exists []; reflexivity) idx N Si ltac:(intros a _; apply B)) as [wv [q [E1 [E2 [_ A2]]]]].
  rewrite E1. cbn [bind]. rewrite E2. rewrite HP in A2. cbn [snd] in A2. destruct q as [q|]; [|destruct A2]. cbn [params_are].
  destruct A2 as (n' & rest & S1 & S2 & G). cbn [shape] in S1. injection S1 as <- <-. rewrite all_idx_1, forallb_map'. apply forallb_ext_in. intros a Ha. apply in_seq in Ha. rewrite G by lia.
  assert (Ba := B a). rewrite get_inb by (cbn; lia). cbn [elt hd]. rewrite Vi in *. rewrite Z.sub_0_r, Z.add_0_l in *.
  destruct (Nat.eqb_spec (Z.to_nat (rng [a] mod Z.of_nat n)) (j a)), (Z.eqb_spec (rng [a] mod Z.of_nat n) (Z.of_nat (j a))); try reflexivity; lia.
Qed.

(** ** SnrRescaler without targets: every signal gets the SNR of each signal of the batch with probability 1/B *)
Definition rescaler_law (m : rescaler) (B : nat) (responses : tensor R) : dist (res (tensor R * tensor R)) :=
  dbind (perm_law B) (fun perm => ret (rescaler_forward m perm responses None)).
Definition target_is (b : nat) (v : R) (r : res (tensor R * tensor R)) : bool :=
  match r with Ok (_, t) => match get t [b] with Some u => if Req_EM_T u v then true else false | None => false end | Err _ => false end.
Theorem snr_rescaler_law m background responses B ni n r0 b (v : R) :
  fitted m background -> shape responses = [B; ni; n] -> (0 < n)%nat -> 0 < rs_sr m ->
  psd_ok background B ni -> cut_ok (rs_hp m) (rbins n) -> cut_ok (rs_lp m) (rbins n) ->
  resc_snr m background responses = Ok r0 -> (b < B)%nat ->
  pr (rescaler_law m B responses) (target_is b v) = INR (length (filter (fun c => if Req_EM_T (elt r0 [c]) v then true else false) (seq 0 B))) / INR B.
Proof.
  intros Hf Sr Hn Hsr Hpsd Hh Hl E0 Hb. unfold rescaler_law. rewrite pr_bind_ret.
  set (P := fun c => if Req_EM_T (elt r0 [c]) v then true else false).
  rewrite (pr_ext _ _ (fun p => match nth_error p b with Some c => P c | None => false end)).
  2:{ intros w p Hp. assert (HP := perm_support B w p Hp). assert (LP := Permutation_length HP). rewrite seq_length in LP.
      destruct (snr_rescaler_forward m background responses B ni n p None r0) as [y [t [r [E [Sy [St [Gt _]]]]]]]; try assumption; [discriminate|].
      rewrite E. cbn [target_is]. rewrite get_inb by (rewrite St; cbn; auto). rewrite Gt by exact Hb. rewrite (nth_error_nth' p 0%nat) by lia. reflexivity. }
  (* sum over the values of the permutation at b *)
  assert (K : forall l, NoDup l -> (forall c, In c l -> (c < B)%nat) ->
     pr (perm_law B) (fun p => match nth_error p b with Some c => (P c && existsb (Nat.eqb c) l)%bool | None => false end) = INR (length (filter P l)) / INR B).
  { induction l as [|c l IH]; intros ND Hl'.
    - rewrite (pr_ext _ _ (fun _ => false)); [unfold pr; rewrite lsum_zero by reflexivity; cbn; lra|]. intros w p _. destruct (nth_error p b); [apply Bool.andb_false_r|reflexivity].
    - inversion ND as [|? ? Hc ND']; subst. specialize (IH ND' ltac:(intros; apply Hl'; right; assumption)).
      assert (Q := shuffle_pos B (seq 0 B) b c (seq_NoDup B 0) Hb ltac:(rewrite seq_length; lia) ltac:(apply in_seq; specialize (Hl' c (or_introl eq_refl)); lia)). rewrite seq_length in Q. fold (perm_law B) in Q.
      assert (PB : 0 < INR B) by (apply lt_0_INR; lia).
      assert (D : pr (perm_law B) (fun p => match nth_error p b with Some x => (P x && existsb (Nat.eqb x) (c :: l))%bool | None => false end)
         = (if P c then pr (perm_law B) (at_pos b c) else 0) + pr (perm_law B) (fun p => match nth_error p b with Some x => (P x && existsb (Nat.eqb x) l)%bool | None => false end)).
      { clear IH Q. unfold pr. induction (perm_law B) as [|[w p] d IHd]; [cbn; destruct (P c); lra|]. cbn [lsum fst snd]. rewrite IHd. clear IHd. unfold at_pos. destruct (nth_error p b) as [x|]; [|destruct (P c); lra].
        cbn [existsb]. destruct (Nat.eqb_spec x c) as [->|Nx]; cbn [orb].
        - assert (X : existsb (Nat.eqb c) l = false). { apply Bool.not_true_iff_false. intros X. apply existsb_exists in X as (z & Hz & Ez). apply Nat.eqb_eq in Ez. subst z. contradiction. } rewrite X. destruct (P c); cbn [andb]; lra.
        - destruct (P x && existsb (Nat.eqb x) l)%bool, (P c); lra. }
      rewrite D, IH, Q. cbn [filter]. destruct (P c); [|lra]. cbn [length]. rewrite S_INR. field. lra. }
  rewrite <- (K (seq 0 B) (seq_NoDup B 0) ltac:(intros c Hc; apply in_seq in Hc; lia)). apply pr_ext. intros w p Hp.
  assert (HP := perm_support B w p Hp). destruct (nth_error p b) as [c|] eqn:En; [|reflexivity].
  assert (X : existsb (Nat.eqb c) (seq 0 B) = true) by (apply existsb_exists; exists c; split; [apply (Permutation_in c HP), (nth_error_In _ _ En)|apply Nat.eqb_refl]). rewrite X, Bool.andb_true_r. reflexivity.
Qed.
