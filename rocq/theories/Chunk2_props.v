(** C88: what ChunkedTimeSeriesDataset has yielded when it fails, and what it reads from chunks of another length. *)
From Verif Require Import Base Tensor Slicing_model Slicing_spec Slicing_proofs Slicing_proofs2 Data_spec Data_model Data_proofs Chunk_proofs Chunk_props.

(** ** model: the generator of chunked_dataset.py 63-136 as the list of what it does: the batches it yields, then the exception that ends it (None: exhausted) *)
(** a generator whose steps are the given computations *)
Fixpoint yields {A} (l : list (res A)) : list A * option exn :=
  match l with
  | [] => ([], None)
  | Ok a :: l' => let (ys, e) := yields l' in (a :: ys, e)
  | Err e :: _ => ([], Some e)
  end.
(** 92-136, one turn of the while loop: a chunk that is too short (or not three-dimensional) raises before its first batch *)
Definition chunk_steps {A} (bs k bpc : nat) (sample_size : list nat) (idx : tensor Z)
    (rng : nat -> nat -> nat -> list nat -> Z) (m : nat) (chunk : tensor A) : list (res (tensor A)) :=
  match shape chunk with
  | [n; C; T] =>
    if (T <? k)%nat then [Err ValueError]                                                    (* 95-99 *)
    else map (fun b => chunk_batch bs k sample_size idx chunk n C T (rng 0%nat m b) (rng 1%nat m b)) (seq 0 bpc)   (* 103-130 *)
  | _ => [Err ValueError]                                                                    (* 136: unpacking *)
  end.
Definition chunked_trace {A} (chunks : list (tensor A)) (k bs bpc : nat) (coincident : bool)
    (rng : nat -> nat -> nat -> list nat -> Z) : list (tensor A) * option exn :=
  match chunks with
  | [] => ([], Some RuntimeError)                                                            (* 65: StopIteration inside a generator *)
  | first :: _ =>
    match shape first with
    | [_; C; T] =>
      match chunk_base_idx bs C k T with                                                     (* 80-90 *)
      | Err e => ([], Some e)
      | Ok idx => yields (flat_map (fun mc => chunk_steps bs k bpc (if coincident then [bs] else [bs; C]) idx rng (fst mc) (snd mc))
                            (combine (seq 0 (length chunks)) chunks))
      end
    | _ => ([], Some ValueError)
    end
  end.

(** ** generators *)
Lemma yields_app {A} (l m : list (res A)) : yields (l ++ m) = match snd (yields l) with None => (fst (yields l) ++ fst (yields m), snd (yields m)) | Some e => yields l end.
Proof.
  induction l as [|[a|e] l IH]; cbn; [destruct (yields m); reflexivity| |reflexivity].
  rewrite IH. destruct (yields l) as [ys [e|]]; cbn; [reflexivity|]. destruct (yields m). reflexivity.
Qed.
(** list(it) succeeds with the batches exactly when the generator is exhausted, and fails with its exception otherwise *)
Lemma yields_sequence {A} (l : list (res A)) : sequence l = match yields l with (ys, None) => Ok ys | (_, Some e) => Err e end.
Proof. induction l as [|[a|e] l IH]; cbn; [reflexivity| |reflexivity]. rewrite IH. destruct (yields l) as [ys [e|]]; reflexivity. Qed.
Lemma sequence_flat {A B} (f : A -> list (res B)) l : sequence (flat_map f l) = rmap (@concat B) (sequence (map (fun a => sequence (f a)) l)).
Proof.
  assert (SA : forall (p q : list (res B)), sequence (p ++ q) = let* a := sequence p in let* b := sequence q in Ok (a ++ b)).
  { induction p as [|[a|e] p IH]; intros q; cbn; [destruct (sequence q); reflexivity| |reflexivity].
    rewrite IH. destruct (sequence p); cbn; [|reflexivity]. destruct (sequence q); reflexivity. }
  induction l as [|a l IH]; cbn; [reflexivity|]. rewrite SA, IH. destruct (sequence (f a)); cbn; [|reflexivity].
  destruct (sequence (map _ l)); reflexivity.
Qed.
Theorem chunked_trace_iter {A} (chunks : list (tensor A)) k bs bpc co rng :
  chunked_iter chunks k bs bpc co rng = match chunked_trace chunks k bs bpc co rng with (ys, None) => Ok ys | (_, Some e) => Err e end.
Proof.
  unfold chunked_iter, chunked_trace. destruct chunks as [|first rest]; [reflexivity|].
  destruct (shape first) as [|n0 [|C [|T [|? ?]]]]; try reflexivity.
  destruct (chunk_base_idx bs C k T) as [idx|e]; [|reflexivity]. cbn [bind].
  rewrite <- yields_sequence, sequence_flat. unfold rmap.
  rewrite (map_ext (fun mc => chunk_loop bs k bpc (if co then [bs] else [bs; C]) idx rng (fst mc) (snd mc))
     (fun mc => sequence (chunk_steps bs k bpc (if co then [bs] else [bs; C]) idx rng (fst mc) (snd mc)))).
  - destruct (sequence _); reflexivity.
  - intros [m ch]. unfold chunk_loop, chunk_steps. cbn [fst snd]. destruct (shape ch) as [|? [|? [|? [|? ?]]]]; try reflexivity.
    destruct (_ <? _); reflexivity.
Qed.
Lemma combine_seq_app {A} (l m : list A) s : combine (seq s (length (l ++ m))) (l ++ m) = combine (seq s (length l)) l ++ combine (seq (s + length l) (length m)) m.
Proof.
  revert s; induction l as [|a l IH]; intros s; cbn; [rewrite Nat.add_0_r; reflexivity|]. rewrite IH. f_equal. f_equal. f_equal. f_equal. lia.
Qed.
(** ** the batches of all chunks before a bad one are yielded, then the exception of the bad one is raised; later chunks are not looked at *)
Theorem chunked_trace_prefix {A} (good : list (tensor A)) bad rest k bs bpc C T co rng :
  good <> [] -> 0 < k -> k < T -> 0 < C -> 0 < bs -> 0 < bpc ->
  (forall ch, In ch good -> exists n, 0 < n /\ shape ch = [n; C; T]) ->
  (List.length (shape bad) <> 3 \/ (exists n C' T', shape bad = [n; C'; T'] /\ T' < k)) ->
  exists batches, chunked_iter good k bs bpc co rng = Ok batches /\ List.length batches = List.length good * bpc /\
    chunked_trace good k bs bpc co rng = (batches, None) /\
    chunked_trace (good ++ bad :: rest) k bs bpc co rng = (batches, Some ValueError).
Proof.
  intros Hne Hk HT HC Hbs Hb HG HB.
  destruct (chunked_iter_windows good k bs bpc C T co rng Hne Hk HT HC Hbs HG) as [batches [E [L _]]].
  exists batches. split; [exact E|]. split; [unfold chunked_len in L; lia|].
  rewrite chunked_trace_iter in E. destruct (chunked_trace good k bs bpc co rng) as [ys [e|]] eqn:ET; [discriminate|]. injection E as ->.
  split; [reflexivity|]. destruct good as [|first good']; [congruence|]. revert ET. unfold chunked_trace. cbn [app].
  destruct (HG first (or_introl eq_refl)) as [n0 [_ E0]]. rewrite E0.
  destruct (chunk_base_idx bs C k T) as [idx|e]; [|discriminate].
  change (first :: good' ++ bad :: rest) with ((first :: good') ++ bad :: rest).
  rewrite combine_seq_app, flat_map_app, yields_app. intros ->. cbn [fst snd length seq combine flat_map].
  assert (S1 : forall m, chunk_steps bs k bpc (if co then [bs] else [bs; C]) idx rng m bad = [Err ValueError]).
  { intros m. unfold chunk_steps. destruct HB as [HB|[n [C' [T' [-> H]]]]].
    - destruct (shape bad) as [|? [|? [|? [|? ?]]]]; try reflexivity. cbn in HB. lia.
    - replace (T' <? k) with true by lia. reflexivity. }
  rewrite S1. cbn. rewrite app_nil_r. reflexivity.
Qed.
(** a first chunk of the wrong rank fails before any batch *)
Theorem chunked_trace_first {A} (ch : tensor A) rest k bs bpc co rng : List.length (shape ch) <> 3 -> chunked_trace (ch :: rest) k bs bpc co rng = ([], Some ValueError).
Proof. intros H. unfold chunked_trace. destruct (shape ch) as [|? [|? [|? [|? ?]]]]; try reflexivity. cbn in H. lia. Qed.

(** ** a later chunk with the same number of channels but another length *)
(** element (b, c, j) of a batch is read from position row*C*T + c*T0 + start + j of the flattened chunk, T0 being the length of the first chunk *)
Theorem chunk_batch_other_length {A} (bs k : nat) (co : bool) (chunk : tensor A) n C T T0 idx r1 r2 :
  shape chunk = [n; C; T] -> 0 < bs -> 0 < C -> 0 < k -> k < T -> 0 < n -> chunk_base_idx bs C k T0 = Ok idx ->
  let row b c := Z.to_nat (r1 (draw_pos co b c) mod Z.of_nat n) in
  let start b c := Z.to_nat (r2 (draw_pos co b c) mod (Z.of_nat T - Z.of_nat k)) in
  let pos b c j := row b c * (C * T) + c * T0 + start b c + j in
  ((forall b c j, b < bs -> c < C -> j < k -> pos b c j < n * (C * T)) ->
     exists y, chunk_batch bs k (if co then [bs] else [bs; C]) idx chunk n C T r1 r2 = Ok y /\ shape y = [bs; C; k] /\
       forall b c j, b < bs -> c < C -> j < k ->
         get y [b; c; j] = get chunk [pos b c j / (C * T); pos b c j / T mod C; pos b c j mod T]) /\
  ((exists b c j, b < bs /\ c < C /\ j < k /\ n * (C * T) <= pos b c j) ->
     chunk_batch bs k (if co then [bs] else [bs; C]) idx chunk n C T r1 r2 = Err IndexError) /\
  (T0 <= T -> forall b c j, b < bs -> c < C -> j < k -> pos b c j < n * (C * T)) /\
  (* this is the sample start + j of channel c of the row exactly for channel 0 or when the lengths agree *)
  (forall b c j, pos b c j = row b c * (C * T) + c * T + (start b c + j) <-> c = 0 \/ T0 = T).
Proof.
  intros Hs Hbs HC Hk HT Hn Ei row start pos.
  destruct (chunk_base_idx_ok bs C k T0 Hbs HC Hk) as [idx' [Ei' [Si Vi]]]. rewrite Ei in Ei'. injection Ei' as <-.
  destruct (chunk_batch_indices bs k co chunk n C T T0 idx r1 r2 Hs Hbs HC Hk HT Hn Si Vi) as [K [EK [SK VK]]].
  assert (VP : forall b c j, b < bs -> c < C -> j < k -> elt K [b; c; j] = Z.of_nat (pos b c j)).
  { intros b c j H1 H2 H3. rewrite VK by assumption. unfold pos, row, start.
    assert (B1 := Z.mod_pos_bound (r1 (draw_pos co b c)) (Z.of_nat n) ltac:(lia)).
    assert (B2 := Z.mod_pos_bound (r2 (draw_pos co b c)) (Z.of_nat T - Z.of_nat k) ltac:(lia)).
    rewrite !Nat2Z.inj_add, (Nat2Z.inj_mul (Z.to_nat _)), !Z2Nat.id by lia. lia. }
  assert (NE : numel chunk = n * (C * T)) by (unfold numel; rewrite Hs; cbn [prod]; lia).
  split; [|split; [|split]].
  - intros HR. rewrite EK. unfold take. rewrite NE, SK.
    replace (forallb _ _) with true.
    + eexists. split; [reflexivity|]. split; [reflexivity|]. intros b c j H1 H2 H3. pose proof (HR b c j H1 H2 H3) as Hp.
      assert (CT : 0 < C * T) by nia.
      assert (Q1 : pos b c j / (C * T) < n) by (apply Nat.div_lt_upper_bound; lia).
      assert (Q2 : pos b c j / T mod C < C) by (apply Nat.mod_upper_bound; lia).
      assert (Q3 : pos b c j mod T < T) by (apply Nat.mod_upper_bound; lia).
      rewrite !get_inb by (rewrite ?Hs; cbn; lia). cbn [elt]. f_equal. rewrite (VP b c j H1 H2 H3).
      replace (Z.of_nat (pos b c j) <? 0)%Z with false by lia. rewrite Nat2Z.id, Hs. f_equal.
      clearbody pos. clear - HT HC. generalize (pos b c j) as p. intros p. cbn [unravel prod].
      rewrite !Nat.mul_1_r, Nat.div_1_r.
      f_equal. f_equal; [|f_equal].
      * rewrite (Nat.mul_comm C T). rewrite Nat.mod_mul_r by lia. rewrite Nat.mul_comm, Nat.div_add, Nat.div_small by (try apply Nat.mod_upper_bound; lia). reflexivity.
      * rewrite (Nat.mul_comm C T). rewrite Nat.mod_mul_r by lia. rewrite Nat.mul_comm, Nat.mod_add by lia. apply Nat.mod_mod. lia.
    + symmetry. apply forallb_all_idx. intros i Hi. destruct i as [|b [|c [|j [|? ?]]]]; cbn [inb] in Hi; try tauto.
      rewrite VP by tauto. pose proof (HR b c j ltac:(tauto) ltac:(tauto) ltac:(tauto)). apply andb_true_intro. split; lia.
  - intros (b & c & j & H1 & H2 & H3 & Hp). rewrite EK. unfold take. rewrite NE, SK.
    replace (forallb _ _) with false; [reflexivity|]. symmetry. apply not_true_is_false. intros F. rewrite forallb_forall in F.
    specialize (F [b; c; j]). rewrite VP in F by assumption. assert (In [b; c; j] (all_idx [bs; C; k])) as HI by (apply all_idx_spec; cbn; tauto).
    specialize (F HI). apply andb_prop in F as [_ F]. lia.
  - intros HTT b c j H1 H2 H3. unfold pos.
    assert (B1 := Z.mod_pos_bound (r1 (draw_pos co b c)) (Z.of_nat n) ltac:(lia)).
    assert (B2 := Z.mod_pos_bound (r2 (draw_pos co b c)) (Z.of_nat T - Z.of_nat k) ltac:(lia)).
    assert (row b c < n) by (unfold row; lia). assert (start b c + j < T) by (unfold start; lia).
    generalize dependent (row b c). generalize dependent (start b c). intros s Hs' r Hr.
    assert (c * T0 + T <= C * T) by nia. assert (r * (C * T) + C * T <= n * (C * T)) by nia. lia.
  - intros b c j. unfold pos. split; [|intros [->| ->]; lia]. intros E. destruct (Nat.eq_dec c 0); [left; assumption|right]. apply (Nat.mul_cancel_l _ _ c); lia.
Qed.
(** non-vacuity: two good chunks and a short one; a shorter second chunk that runs over the end *)
Example chunked_trace_example :
  let ch := mk [1; 2; 4] (fun i => i) in let short := mk [1; 2; 1] (fun i => i) in
  match chunked_trace [ch; ch; short; ch] 2 1 3 true (fun p m n i => Z.of_nat (p + m + n)) with
  | (ys, Some ValueError) => length ys = 6 | _ => False end.
Proof. vm_compute. reflexivity. Qed.
Example chunk_batch_runs_over :
  let ch := mk [1; 2; 6] (fun i => i) in let small := mk [1; 2; 4] (fun i => i) in
  match chunked_trace [ch; small] 2 1 1 true (fun p m n i => 1%Z) with
  | ([_], Some IndexError) => True | _ => False end.
Proof. vm_compute. exact I. Qed.
