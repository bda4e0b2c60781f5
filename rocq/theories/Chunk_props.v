(** C09: properties of ChunkedTimeSeriesDataset. *)
From Verif Require Import Base Tensor Slicing_model Slicing_spec Slicing_proofs Slicing_proofs2 Data_spec Data_model Data_proofs Chunk_proofs.

(** [y] is a batch of true windows of [chunk] (all inside it): element b, channel c of y is the k
    samples of channel c of row [row b c] starting at [start b c]. *)
Definition batch_of_windows {A} (y chunk : tensor A) (bs k C T n : nat) (row start : nat -> nat -> nat) : Prop :=
  shape y = [bs; C; k] /\
  forall b c, b < bs -> c < C ->
    row b c < n /\ start b c + k <= T /\
    forall j, j < k -> get y [b; c; j] = get chunk [row b c; c; start b c + j].

(** Number of batches and true windows, for chunks sharing channels and length (the number of rows may
    differ).  Coincident: one row and one start for all channels of an element.  The batches
    come chunk by chunk: batch i belongs to chunk i / batches_per_chunk. *)
Theorem chunked_iter_windows {A} (chunks : list (tensor A)) (k bs bpc C T : nat) co rng :
  chunks <> [] -> 0 < k -> k < T -> 0 < C -> 0 < bs ->
  (forall ch, In ch chunks -> exists n, 0 < n /\ shape ch = [n; C; T]) ->
  exists batches, chunked_iter chunks k bs bpc co rng = Ok batches
    /\ Z.of_nat (length batches) = chunked_len chunks (Z.of_nat bpc)
    /\ forall i y, nth_error batches i = Some y ->
       exists ch n row start, nth_error chunks (i / bpc) = Some ch /\ shape ch = [n; C; T]
         /\ batch_of_windows y ch bs k C T n row start
         /\ (co = true -> forall b c c', row b c = row b c' /\ start b c = start b c').
Proof.
  intros Hne Hk HkT HC Hbs Hsh. destruct chunks as [|first rest]; [congruence|]. clear Hne.
  set (chunks := first :: rest) in *.
  unfold chunked_iter. unfold chunks at 1.
  destruct (Hsh first (or_introl eq_refl)) as [n0 [_ E0]]. rewrite E0.
  destruct (chunk_base_idx_ok bs C k T Hbs HC Hk) as [idx [Ei [Si Vi]]]. rewrite Ei. cbn [bind].
  set (loop := fun mc : nat * tensor A => chunk_loop bs k bpc (if co then [bs] else [bs; C]) idx rng (fst mc) (snd mc)).
  (* one chunk *)
  assert (L1 : forall m ch, In ch chunks -> exists l, loop (m, ch) = Ok l /\ length l = bpc /\
     forall i y, nth_error l i = Some y -> exists n row start, shape ch = [n; C; T]
         /\ batch_of_windows y ch bs k C T n row start
         /\ (co = true -> forall b c c', row b c = row b c' /\ start b c = start b c')).
  { intros m ch Hin. destruct (Hsh ch Hin) as [n [Hn En]]. unfold loop, chunk_loop. cbn [fst snd]. rewrite En.
    replace (T <? k) with false by lia.
    set (f := fun b => chunk_batch bs k (if co then [bs] else [bs; C]) idx ch n C T (rng 0 m b) (rng 1 m b)).
    assert (F : forall b, exists y, f b = Ok y /\ exists row start, 
         batch_of_windows y ch bs k C T n row start
         /\ (co = true -> forall b c c', row b c = row b c' /\ start b c = start b c')).
    { intros b. destruct (chunk_batch_ok bs k co ch n C T idx (rng 0 m b) (rng 1 m b) En Hbs HC Hk HkT Hn Si Vi)
        as [y [Ey [Sy Vy]]]. exists y. split; [exact Ey|].
      exists (fun b' c => Z.to_nat (rng 0 m b (draw_pos co b' c) mod Z.of_nat n)),
             (fun b' c => Z.to_nat (rng 1 m b (draw_pos co b' c) mod (Z.of_nat T - Z.of_nat k))).
      split.
      - split; [exact Sy|]. intros b' c Hb' Hc.
        assert (B1 := Z.mod_pos_bound (rng 0 m b (draw_pos co b' c)) (Z.of_nat n) ltac:(lia)).
        assert (B2 := Z.mod_pos_bound (rng 1 m b (draw_pos co b' c)) (Z.of_nat T - Z.of_nat k) ltac:(lia)).
        split; [lia|]. split; [lia|]. intros j Hj. apply Vy; assumption.
      - intros -> b' c c'. split; reflexivity. }
    destruct (sequence_map_spec f (seq 0 bpc)) as [l [El [Ll Vl]]].
    { intros b _. destruct (F b) as [y [Ey _]]. eauto. }
    exists l. split; [exact El|]. split; [rewrite Ll, seq_length; reflexivity|].
    intros i y Hy. destruct (Vl i y Hy) as [b [Hb Ey]].
    destruct (F b) as [y' [Ey' [row [start [HW HC']]]]]. rewrite Ey in Ey'. injection Ey' as <-.
    exists n, row, start. auto. }
  destruct (sequence_map_spec loop (combine (seq 0 (length chunks)) chunks)) as [ll [El [Ll Vl]]].
  { intros [m ch] Hin. apply in_combine_r in Hin. destruct (L1 m ch Hin) as [l [E _]]. eauto. }
  change (sequence (map (fun mc => chunk_loop bs k bpc (if co then [bs] else [bs; C]) idx rng (fst mc) (snd mc)) (combine (seq 0 (length chunks)) chunks)))
    with (sequence (map loop (combine (seq 0 (length chunks)) chunks))).
  rewrite El. cbn [bind].
  assert (LB : forall l, In l ll -> length l = bpc).
  { intros l Hl. apply In_nth_error in Hl. destruct Hl as [i Hi]. destruct (Vl i l Hi) as [[m ch] [Hm Em]].
    apply nth_error_In, in_combine_r in Hm. destruct (L1 m ch Hm) as [l' [El' [Ll' _]]]. congruence. }
  exists (concat ll). split; [reflexivity|].
  rewrite (concat_blocks_length ll bpc LB), Ll, combine_length, seq_length, Nat.min_id.
  split; [unfold chunked_len; lia|].
  intros i y Hy.
  assert (Hb : 0 < bpc).
  { assert (i < length (concat ll)) as Hi by (apply nth_error_Some; congruence).
    rewrite (concat_blocks_length ll bpc LB) in Hi. destruct bpc; lia. }
  rewrite (nth_error_concat_blocks ll bpc i LB Hb) in Hy.
  destruct (nth_error ll (i / bpc)) as [l|] eqn:El'; [|discriminate].
  destruct (Vl _ _ El') as [[m ch] [Hm Em]].
  assert (Hch : nth_error chunks (i / bpc) = Some ch).
  { revert Hm. clearbody chunks. clear. generalize (i / bpc) as q, (length chunks) as N, 0.
    induction chunks as [|c l IH]; intros q N s; [destruct N, q; discriminate|].
    destruct N; [destruct q; discriminate|]. destruct q; cbn; [congruence|]. apply IH. }
  destruct (L1 m ch (nth_error_In _ _ Hch)) as [l' [El'' [Ll' V]]]. rewrite Em in El''. injection El'' as <-.
  destruct (V _ _ Hy) as [n [row [start [Sn [HW HC']]]]].
  exists ch, n, row, start. auto.
Qed.

(** Edge cases: a first chunk shorter than the kernel raises ValueError, one exactly as long as the kernel
    RuntimeError (torch.randint with an empty range), an empty iterator RuntimeError. *)
Theorem chunked_iter_raises {A} (chunks : list (tensor A)) (k bs bpc : nat) co rng :
  0 < k -> 0 < bs -> 0 < bpc ->
  (chunks = [] -> chunked_iter chunks k bs bpc co rng = Err RuntimeError)
  /\ (forall n C T rest ch, chunks = ch :: rest -> shape ch = [n; C; T] -> 0 < n -> 0 < C ->
      (T < k -> chunked_iter chunks k bs bpc co rng = Err ValueError)
      /\ (T = k -> chunked_iter chunks k bs bpc co rng = Err RuntimeError)).
Proof.
  intros Hk Hbs Hb. split; [intros ->; reflexivity|].
  intros n C T rest ch -> Hs Hn HC.
  destruct (chunk_base_idx_ok bs C k T Hbs HC Hk) as [idx [Ei [Si Vi]]].
  assert (EQ : forall e, chunk_loop bs k bpc (if co then [bs] else [bs; C]) idx rng 0 ch = Err e ->
     chunked_iter (ch :: rest) k bs bpc co rng = Err e).
  { intros e He. unfold chunked_iter. rewrite Hs, Ei. cbn [bind length seq combine map fst snd sequence].
    rewrite He. reflexivity. }
  split; intros HT; apply EQ; unfold chunk_loop; rewrite Hs.
  - replace (T <? k) with true by lia. reflexivity.
  - subst T. replace (k <? k) with false by lia. destruct bpc as [|bpc]; [lia|]. cbn [seq map sequence].
    replace (chunk_batch bs k _ idx ch n C k _ _) with (@Err (tensor A) RuntimeError); [reflexivity|].
    symmetry. unfold chunk_batch, randint.
    replace (Z.of_nat n <=? 0)%Z with false by lia. cbn [bind].
    destruct (sample_reshape bs C co (tmap (fun v => (v * (Z.of_nat C * Z.of_nat k))%Z)
      (mk (if co then [bs] else [bs; C]) (fun i => (0 + rng 0%nat 0%nat 0%nat i mod (Z.of_nat n - 0))%Z))) Hbs HC eq_refl) as [q [Eq [Sq _]]].
    rewrite Eq. cbn [bind]. unfold bzip at 1, bshape. rewrite Sq, Si. cbn [rev app bshape_rev].
    rewrite bdim_1_l, bdim_refl.
    replace (bdim (if co then 1 else C) C) with (@Ok nat C) by (destruct co; [rewrite bdim_1_l|rewrite bdim_refl]; reflexivity).
    cbn [bind rev app]. replace (Z.of_nat k - Z.of_nat k <=? 0)%Z with true by lia. reflexivity.
Qed.

(** The window geometry of the first chunk is kept for later chunks: with a longer second chunk, channel 1
    of the batch is read from channel 0 of the second chunk, for every draw. *)
Theorem chunked_iter_nonuniform_refuted rng :
  let ch1 := mk [1; 2; 4] (fun i => (0, nth 1 i 0, nth 2 i 0)) in
  let ch2 := mk [1; 2; 6] (fun i => (1, nth 1 i 0, nth 2 i 0)) in
  exists y1 y2, chunked_iter [ch1; ch2] 2 1 1 true rng = Ok [y1; y2]
    /\ (rng 1 1 0 [0] = 0%Z -> get y2 [0; 1; 0] = Some (1, 0, 4)).
Proof.
  intros ch1 ch2.
  destruct (chunk_base_idx_ok 1 2 2 4) as [idx [Ei [Si Vi]]]; [lia..|].
  destruct (chunk_batch_ok 1 2 true ch1 1 2 4 idx (rng 0 0 0) (rng 1 0 0)) as [y1 [E1 _]]; try lia; try reflexivity; try assumption.
  destruct (chunk_batch_indices 1 2 true ch2 1 2 6 4 idx (rng 0 1 0) (rng 1 1 0)) as [K [EK [SK VK]]]; try lia; try reflexivity; try assumption.
  exists y1.
  assert (B2 := Z.mod_pos_bound (rng 1 1 0 [0]) (Z.of_nat 6 - Z.of_nat 2) ltac:(lia)).
  assert (HV : forall b c j, b < 1 -> c < 2 -> j < 2 -> elt K [b; c; j] = (Z.of_nat (c * 4 + j) + rng 1%nat 1%nat 0%nat [0%nat] mod (Z.of_nat 6 - Z.of_nat 2))%Z).
  { intros b c j H1 H2 H3. rewrite VK by assumption. replace b with 0 by lia. cbn [draw_pos].
    change (Z.of_nat 1) with 1%Z. rewrite Z.mod_1_r. lia. }
  assert (EY : exists y2, take ch2 K = Ok y2 /\ shape y2 = [1; 2; 2] /\ (rng 1 1 0 [0] = 0%Z -> get y2 [0; 1; 0] = Some (1, 0, 4))).
  { unfold take, numel. rewrite SK. cbn [shape ch2].
    replace (forallb _ _) with true.
    - eexists; split; [reflexivity|]. split; [reflexivity|]. intros HR. rewrite get_inb by (cbn; lia).
      cbn [elt]. rewrite HV by lia. rewrite HR. reflexivity.
    - symmetry. apply forallb_all_idx. intros i Hi.
      destruct i as [|b [|c [|j [|? ?]]]]; cbn [inb] in Hi; try tauto.
      rewrite HV by lia. cbn [prod]. nia. }
  destruct EY as [y2 [E2 [_ V2]]]. exists y2. split; [|exact V2].
  unfold chunked_iter. cbn [shape ch1]. rewrite Ei. cbn [bind length seq combine map fst snd sequence].
  assert (L1 : chunk_loop 1 2 1 [1] idx rng 0 ch1 = Ok [y1]).
  { unfold chunk_loop. cbn [shape ch1 seq map sequence]. replace (4 <? 2) with false by lia.
    change (mk [1; 2; 4] _) with ch1. rewrite E1. reflexivity. }
  assert (L2 : chunk_loop 1 2 1 [1] idx rng 1 ch2 = Ok [y2]).
  { unfold chunk_loop. cbn [shape ch2 seq map sequence]. replace (6 <? 2) with false by lia.
    change (mk [1; 2; 6] _) with ch2. rewrite EK, E2. reflexivity. }
  rewrite L1. cbn [bind]. rewrite L2. reflexivity.
Qed.

(** Non-vacuity of [chunked_iter_windows]: two chunks with different numbers of rows, non-coincident *)
Example chunked_iter_windows_nonvacuous :
  let ch1 := mk [2; 2; 4] (fun i => (0, i)) in let ch2 := mk [1; 2; 4] (fun i => (1, i)) in
  match chunked_iter [ch1; ch2] 2 3 2 false (fun p m n i => Z.of_nat (p + m + n + list_sum i)) with
  | Ok [a; b; c; d] => get a [1; 1; 1] = Some (0, [0; 1; 2]) /\ get d [2; 1; 0] = Some (1, [0; 1; 0])
  | _ => False end.
Proof. vm_compute. split; reflexivity. Qed.
