(** Property C106: several iterators over one dataset, advanced in any order. *)
From Coq Require Import Permutation.
From Verif Require Import Base Tensor Slicing_model Data_spec Data_model Data_props Chunk_props Chunk2_props Sched_model.

(** ** specification *)
(** the events of iterator j in a log *)
Definition events_of {B} (j : nat) (log : list (nat * event B)) : list (event B) := map snd (filter (fun p => fst p =? j) log).
(** how often a schedule advances iterator j *)
Definition turns (j : nat) (sched : list nat) : nat := count_occ Nat.eq_dec sched j.
(** what n calls of next observe on a generator that yields [ys] and then ends, with an exception or by exhaustion *)
Definition observed {B} (n : nat) (ys : list B) (e : option exn) : list (event B) :=
  firstn n (map Yield ys ++ match e with Some e => [Raise e] | None => [] end ++ repeat Stop n).

(** ** generators as lists of steps *)
(** the n-th event of a generator with the given steps *)
Definition ev_at {B} (l : list (res B)) (n : nat) : event B :=
  match sequence (firstn n l) with
  | Err _ => Stop
  | Ok _ => match nth_error l n with Some (Ok a) => Yield a | Some (Err e) => Raise e | None => Stop end
  end.
Lemma sequence_app {B} (p q : list (res B)) : sequence (p ++ q) = let* a := sequence p in let* b := sequence q in Ok (a ++ b).
Proof.
  induction p as [|[a|e] p IH]; cbn; [destruct (sequence q); reflexivity| |reflexivity].
  rewrite IH. destruct (sequence p); cbn; [|reflexivity]. destruct (sequence q); reflexivity.
Qed.
Lemma map_const_seq {B} (x : B) m n : map (fun _ : nat => x) (seq m n) = repeat x n.
Proof. revert m; induction n as [|n IH]; intros m; cbn; [reflexivity|]. f_equal. apply IH. Qed.
Lemma ev_at_nil {B} n : @ev_at B [] n = Stop.
Proof. unfold ev_at. rewrite firstn_nil. cbn. destruct n; reflexivity. Qed.
Lemma observed_ev {B} (l : list (res B)) n : observed n (fst (yields l)) (snd (yields l)) = map (ev_at l) (seq 0 n).
Proof.
  unfold observed. revert l; induction n as [|n IH]; intros l; [reflexivity|]. cbn [seq map]. rewrite <- seq_shift, map_map.
  destruct l as [|[a|e] l]; cbn [yields fst snd map app].
  - cbn [repeat app firstn]. f_equal. transitivity (map (fun _ : nat => @Stop B) (seq 0 n)).
    + rewrite map_const_seq. apply firstn_all2. rewrite repeat_length. lia.
    + apply map_ext. intros i. rewrite ev_at_nil. reflexivity.
  - specialize (IH l). destruct (yields l) as [ys e]. cbn [fst snd map app firstn] in *.
    replace (map Yield ys ++ match e with Some e => [Raise e] | None => [] end ++ repeat Stop (S n))
      with ((map Yield ys ++ match e with Some e => [Raise e] | None => [] end ++ repeat Stop n) ++ [@Stop B]).
    + f_equal. rewrite firstn_app.
      assert (L : n <= length (map Yield ys ++ match e with Some e => [Raise e] | None => [] end ++ repeat (@Stop B) n)).
      { rewrite !app_length, repeat_length. lia. }
      replace (n - length _) with 0 by lia. cbn [firstn]. rewrite app_nil_r, IH. apply map_ext. intros i.
      unfold ev_at. cbn [firstn sequence bind nth_error]. destruct (sequence (firstn i l)); reflexivity.
    + rewrite <- !app_assoc. do 2 f_equal. change [@Stop B] with (repeat (@Stop B) 1). rewrite <- repeat_app. f_equal. lia.
  - cbn [firstn map app]. f_equal. 
    transitivity (map (fun _ : nat => @Stop B) (seq 0 n)).
    + rewrite map_const_seq. cbn [repeat]. transitivity (firstn n (repeat (@Stop B) n ++ [Stop])).
      * f_equal. change (Stop :: repeat (@Stop B) n) with (repeat (@Stop B) (1 + n)). rewrite Nat.add_comm, repeat_app. reflexivity.
      * rewrite firstn_app, repeat_length, Nat.sub_diag. cbn [firstn]. rewrite app_nil_r. apply firstn_all2. rewrite repeat_length. lia.
    + apply map_ext. intros i. unfold ev_at. cbn [firstn sequence bind]. reflexivity.
Qed.
Lemma ev_at_app {B} (l m : list (res B)) n : n < length l -> ev_at (l ++ m) n = ev_at l n.
Proof. intros H. unfold ev_at. rewrite firstn_app. replace (n - length l) with 0 by lia. cbn [firstn]. rewrite app_nil_r, nth_error_app1 by assumption. reflexivity. Qed.
Lemma ev_at_some {B} (l : list (res B)) n : ev_at l n <> Stop -> exists r, nth_error l n = Some r /\ ev_at l n = match r with Ok a => Yield a | Err e => Raise e end.
Proof. unfold ev_at. destruct (sequence (firstn n l)); [|congruence]. destruct (nth_error l n) as [[b|x]|]; [| |congruence]; eexists; split; reflexivity. Qed.
(** the steps before n went through *)
Definition clear_to {B} (l : list (res B)) (n : nat) : Prop := n <= length l /\ is_ok (sequence (firstn n l)).
Lemma clear_ev {B} (l : list (res B)) n r : clear_to l n -> nth_error l n = Some r -> ev_at l n = match r with Ok a => Yield a | Err e => Raise e end.
Proof. intros [_ [a E]] H. unfold ev_at. rewrite E, H. destruct r; reflexivity. Qed.
Lemma clear_S {B} (l : list (res B)) n a : clear_to l n -> nth_error l n = Some (Ok a) -> clear_to l (S n).
Proof.
  intros [L [xs E]] H. assert (L' : n < length l) by (apply nth_error_Some; rewrite H; discriminate). split; [lia|].
  replace (firstn (S n) l) with (firstn n l ++ [Ok a]).
  - rewrite sequence_app, E. cbn. eexists; reflexivity.
  - clear -H. revert l H; induction n as [|n IH]; intros [|x l]; cbn; try discriminate.
    + intros [= ->]. reflexivity.
    + intros H. cbn [firstn] in IH |- *. f_equal. apply IH. assumption.
Qed.
Lemma err_done {B} (l : list (res B)) n e i : nth_error l n = Some (Err e) -> n < i -> ev_at l i = Stop.
Proof.
  intros H Hi. unfold ev_at. assert (Q : exists x, sequence (firstn i l) = Err x); [|destruct Q as [x ->]; reflexivity].
  revert i l H Hi; induction n as [|n IH]; intros [|i] [|x l] H Hi; try lia; try discriminate; cbn in *.
  - injection H as ->. cbn. eexists; reflexivity.
  - destruct (IH i l H ltac:(lia)) as [y ->]. destruct x; cbn; eexists; reflexivity.
Qed.
Lemma end_done {B} (l : list (res B)) i : length l <= i -> ev_at l i = Stop.
Proof. intros H. unfold ev_at. rewrite (proj2 (nth_error_None l i)) by assumption. destruct (sequence _); reflexivity. Qed.

Lemma turns_cons j i s : turns j (i :: s) = (if i =? j then 1 else 0) + turns j s.
Proof. unfold turns. cbn. destruct (Nat.eq_dec i j) as [->|N]; [rewrite Nat.eqb_refl; reflexivity|]. replace (i =? j) with false by lia. reflexivity. Qed.

(** ** InMemoryDataset *)
Definition imd_steps {A} (d : imd A) (ent : (list nat -> Z) * list nat) : list (res (tensor A * option (tensor A))) :=
  match init_indices d (fst ent) (snd ent) with Err e => [Err e] | Ok idx => map (imd_batch d idx) (range (imd_len d)) end.
Definition iinv {A} (d : imd A) (ent : nat -> (list nat -> Z) * list nat) (n : nat) (g : igen) : Prop :=
  match g with
  | IFresh => n = 0
  | IRun idx i => init_indices d (fst (ent 0)) (snd (ent 0)) = Ok idx /\ i = n /\ clear_to (imd_steps d (ent 0)) n
  | IDone => forall i, n <= i -> ev_at (imd_steps d (ent 0)) i = Stop
  end.
Lemma range_nth L i : i < length (range L) -> nth_error (range L) i = Some i.
Proof. unfold range. rewrite seq_length. intros H. rewrite nth_error_nth' with (d := 0) by (rewrite seq_length; assumption). rewrite seq_nth by assumption. reflexivity. Qed.
Lemma imd_next_inv {A} (d : imd A) ent n g : iinv d ent n g ->
  fst (imd_next d (ent n) g) = ev_at (imd_steps d (ent 0)) n /\ iinv d ent (S n) (snd (imd_next d (ent n) g)).
Proof.
  assert (RES : forall idx, init_indices d (fst (ent 0)) (snd (ent 0)) = Ok idx -> clear_to (imd_steps d (ent 0)) n ->
     fst (imd_resume d idx n) = ev_at (imd_steps d (ent 0)) n /\ iinv d ent (S n) (snd (imd_resume d idx n))).
  { intros idx E Cl. unfold imd_resume. assert (ES : imd_steps d (ent 0) = map (imd_batch d idx) (range (imd_len d))) by (unfold imd_steps; rewrite E; reflexivity).
    destruct (Nat.ltb_spec n (length (range (imd_len d)))) as [L|L].
    - assert (N : nth_error (imd_steps d (ent 0)) n = Some (imd_batch d idx n)) by (rewrite ES, nth_error_map, range_nth by assumption; reflexivity).
      rewrite (clear_ev _ _ _ Cl N). destruct (imd_batch d idx n) as [b|e] eqn:Eb; cbn [fst snd iinv]; split; try reflexivity.
      + split; [assumption|]. split; [reflexivity|]. eapply clear_S; eassumption.
      + intros i Hi. eapply err_done; [eassumption|lia].
    - cbn [fst snd iinv]. split; [symmetry|intros i Hi]; apply end_done; rewrite ES, map_length; lia. }
  destruct g as [|idx i|]; cbn [iinv imd_next].
  - intros ->. destruct (init_indices d (fst (ent 0)) (snd (ent 0))) as [idx|e] eqn:E.
    + apply RES; [reflexivity|]. split; [lia|]. cbn. eexists; reflexivity.
    + assert (ES : imd_steps d (ent 0) = [Err e]) by (unfold imd_steps; rewrite E; reflexivity). cbn [fst snd iinv]. rewrite ES. split; [reflexivity|].
      intros i Hi. apply end_done. cbn. lia.
  - intros [E [-> Cl]]. apply RES; assumption.
  - intros H. cbn [fst snd iinv]. split; [symmetry; apply H; lia|]. intros i Hi. apply H. lia.
Qed.
Lemma imd_run_inv {A} (d : imd A) ent sched : forall w, (forall j, iinv d (ent j) (fst (w j)) (snd (w j))) ->
  forall j, events_of j (imd_run d ent sched w) = map (ev_at (imd_steps d (ent j 0))) (seq (fst (w j)) (turns j sched)).
Proof.
  induction sched as [|i s IH]; intros w Hw j; [reflexivity|]. cbn [imd_run].
  destruct (imd_next_inv d (ent i) _ _ (Hw i)) as [E1 E2]. destruct (imd_next d (ent i (fst (w i))) (snd (w i))) as [ev g]. cbn [fst snd] in E1, E2.
  rewrite turns_cons. unfold events_of. cbn [filter fst].
  assert (Hw' : forall j, iinv d (ent j) (fst (upd w i (S (fst (w i)), g) j)) (snd (upd w i (S (fst (w i)), g) j))).
  { intros j'. unfold upd. destruct (Nat.eqb_spec j' i) as [->|_]; [exact E2|apply Hw]. }
  specialize (IH _ Hw' j). unfold events_of in IH. destruct (Nat.eqb_spec i j) as [->|Ne].
  - cbn [map snd]. rewrite IH. unfold upd at 1. rewrite Nat.eqb_refl. cbn [fst plus seq map]. rewrite E1. reflexivity.
  - rewrite IH. unfold upd. replace (j =? i) with false by lia. reflexivity.
Qed.

(** every iterator sees its own epoch, whatever the others do in between *)
Theorem imd_iterators_independent {A} (d : imd A) ent sched j batches :
  imd_epoch d (fst (ent j 0)) (snd (ent j 0)) = Ok batches ->
  events_of j (imd_run d ent sched (fun _ => (0, IFresh))) = observed (turns j sched) batches None.
Proof.
  intros E. rewrite imd_run_inv by (intros; reflexivity). cbn [fst]. rewrite <- observed_ev.
  unfold imd_epoch in E. unfold imd_steps. destruct (init_indices d (fst (ent j 0)) (snd (ent j 0))) as [idx|]; [|discriminate]. cbn [bind] in E.
  rewrite yields_sequence in E. destruct (yields (map (imd_batch d idx) (range (imd_len d)))) as [ys [e|]]; [discriminate|].
  injection E as ->. reflexivity.
Qed.

(** ** ChunkedTimeSeriesDataset *)
(** entropies numbered by call, as seen by the m-th chunk and its b-th batch *)
Definition rng_of (bpc : nat) (ent : nat -> (list nat -> Z) * (list nat -> Z)) (call m b : nat) : list nat -> Z :=
  match call with 0 => fst (ent (m * bpc + b)) | _ => snd (ent (m * bpc + b)) end.
Section Chunked.
Context {A : Type}.
Variables (k bs bpc : nat) (co : bool).
Hypothesis Hbpc : 0 < bpc.
Definition csteps (ent : nat -> (list nat -> Z) * (list nat -> Z)) (mine : list (tensor A)) : list (res (tensor A)) :=
  match mine with
  | [] => [Err RuntimeError]
  | first :: _ =>
    match shape first with
    | [_; C; T] => match chunk_base_idx bs C k T with
                   | Err e => [Err e]
                   | Ok idx => flat_map (fun mc => chunk_steps bs k bpc (if co then [bs] else [bs; C]) idx (rng_of bpc ent) (fst mc) (snd mc))
                                        (combine (seq 0 (length mine)) mine)
                   end
    | _ => [Err ValueError]
    end
  end.
Lemma csteps_trace ent mine : chunked_trace mine k bs bpc co (rng_of bpc ent) = yields (csteps ent mine).
Proof.
  unfold chunked_trace, csteps. destruct mine as [|f r]; [reflexivity|]. destruct (shape f) as [|? [|C [|T [|? ?]]]]; try reflexivity.
  destruct (chunk_base_idx bs C k T); reflexivity.
Qed.
(** the chunk is three-dimensional and long enough *)
Definition good (ch : tensor A) : Prop := exists n C T, shape ch = [n; C; T] /\ k <= T.
Definition set_up (ss : list nat) (idx : tensor Z) (mine : list (tensor A)) : Prop :=
  match mine with [] => False | first :: _ => exists n C T, shape first = [n; C; T] /\ chunk_base_idx bs C k T = Ok idx /\ ss = if co then [bs] else [bs; C] end.
Definition cinv (ent : nat -> (list nat -> Z) * (list nat -> Z)) (n : nat) (mine : list (tensor A)) (g : cgen A) : Prop :=
  match g with
  | CFresh => n = 0 /\ mine = []
  | CRun ss idx cur b => exists pre, mine = pre ++ [cur] /\ set_up ss idx mine /\ List.Forall good mine /\
                           b <= bpc /\ n = length pre * bpc + b /\ clear_to (csteps ent mine) n
  | CDone => forall i, n <= i -> ev_at (csteps ent mine) i = Stop
  end.
Lemma set_up_csteps ent ss idx mine : set_up ss idx mine ->
  csteps ent mine = flat_map (fun mc => chunk_steps bs k bpc ss idx (rng_of bpc ent) (fst mc) (snd mc)) (combine (seq 0 (length mine)) mine).
Proof. unfold set_up, csteps. destruct mine as [|f r]; [tauto|]. intros [n [C [T [-> [-> ->]]]]]. reflexivity. Qed.
Lemma good_steps ss idx rng m ch : good ch -> length (chunk_steps bs k bpc ss idx rng m ch) = bpc.
Proof. intros [n [C [T [E H]]]]. unfold chunk_steps. rewrite E. replace (T <? k) with false by lia. rewrite map_length, seq_length. reflexivity. Qed.
Lemma flat_length ss idx rng mine : List.Forall good mine -> forall s,
  length (flat_map (fun mc => chunk_steps bs k bpc ss idx rng (fst mc) (snd mc)) (combine (seq s (length mine)) mine)) = length mine * bpc.
Proof.
  induction 1 as [|ch l Hg _ IH]; intros s; [reflexivity|]. cbn [length seq combine flat_map fst snd]. rewrite app_length, good_steps, IH by assumption. lia.
Qed.
Lemma set_up_app ss idx mine more : set_up ss idx mine -> set_up ss idx (mine ++ more).
Proof. destruct mine; [intros []|]. intros H; exact H. Qed.
Lemma csteps_snoc ent ss idx mine ch : set_up ss idx mine ->
  csteps ent (mine ++ [ch]) = csteps ent mine ++ chunk_steps bs k bpc ss idx (rng_of bpc ent) (length mine) ch.
Proof.
  intros H. rewrite (set_up_csteps ent ss idx mine H), (set_up_csteps ent ss idx (mine ++ [ch]) (set_up_app _ _ _ _ H)).
  rewrite combine_seq_app, flat_map_app. cbn. rewrite app_nil_r. reflexivity.
Qed.
(** a batch of the current chunk *)
Lemma resume_inv ent n ss idx pre cur b : set_up ss idx (pre ++ [cur]) -> List.Forall good (pre ++ [cur]) -> b < bpc -> n = length pre * bpc + b ->
  clear_to (csteps ent (pre ++ [cur])) n ->
  fst (chunk_resume k bs (ent n) ss idx cur b) = ev_at (csteps ent (pre ++ [cur])) n /\
  cinv ent (S n) (pre ++ [cur]) (snd (chunk_resume k bs (ent n) ss idx cur b)).
Proof.
  intros Su Fg Hb En Cl. assert (Gc : good cur) by (apply Forall_app in Fg; destruct Fg as [_ Fg]; inversion Fg; assumption).
  assert (Fp : List.Forall good pre) by (apply Forall_app in Fg; tauto).
  destruct Gc as [nn [C [T [Ec Hk]]]].
  assert (N : nth_error (csteps ent (pre ++ [cur])) n = Some (chunk_batch bs k ss idx cur nn C T (fst (ent n)) (snd (ent n)))).
  { rewrite (set_up_csteps ent ss idx _ Su), combine_seq_app, flat_map_app. cbn [length seq combine flat_map fst snd]. rewrite app_nil_r.
    rewrite nth_error_app2; rewrite flat_length by assumption; [|lia]. replace (n - length pre * bpc) with b by lia.
    unfold chunk_steps. rewrite Ec. replace (T <? k) with false by lia. rewrite nth_error_map.
    rewrite nth_error_nth' with (d := 0) by (rewrite seq_length; assumption). rewrite seq_nth by assumption. cbn [option_map plus rng_of].
    rewrite <- En. reflexivity. }
  unfold chunk_resume. rewrite Ec. rewrite (clear_ev _ _ _ Cl N).
  destruct (chunk_batch bs k ss idx cur nn C T (fst (ent n)) (snd (ent n))) as [t|e] eqn:Eb; cbn [fst snd]; split; try reflexivity; cbn [cinv].
  - exists pre. repeat split; try assumption; try lia; eapply clear_S; eassumption.
  - intros i Hi. eapply err_done; [eassumption|lia].
Qed.
(** fetching a chunk: [mine] grows by the chunk taken from the source, if there is one *)
Lemma fetch_inv ent n ss idx mine src ev g src' :
  (mine = [] /\ n = 0 /\ (exists ch r, src = ch :: r /\ set_up ss idx [ch])) \/
  (set_up ss idx mine /\ List.Forall good mine /\ n = length mine * bpc /\ clear_to (csteps ent mine) n) ->
  chunk_fetch k bs bpc (ent n) ss idx src = (ev, g, src') ->
  exists new, src = new ++ src' /\ length new <= 1 /\ ev = ev_at (csteps ent (mine ++ new)) n /\ cinv ent (S n) (mine ++ new) g /\
    (forall i, i < n -> ev_at (csteps ent (mine ++ new)) i = ev_at (csteps ent mine) i).
Proof.
  intros H E. destruct src as [|ch r]; cbn [chunk_fetch] in E.
  - injection E as <- <- <-. exists []. rewrite (app_nil_r mine). cbn. destruct H as [[_ [_ [ch [r [D _]]]]]|[Su [Fg [En Cl]]]]; [discriminate|].
    split; [reflexivity|]. split; [lia|]. split; [|split; [|reflexivity]]; [symmetry|intros i Hi]; apply end_done; rewrite (set_up_csteps ent ss idx _ Su), flat_length by assumption; lia.
  - assert (Su' : set_up ss idx (mine ++ [ch])).
    { destruct H as [[-> [_ [ch' [r' [D Su]]]]]|[Su _]]; [injection D as <- <-; exact Su|apply set_up_app; assumption]. }
    assert (Fg : List.Forall good mine) by (destruct H as [[-> _]|[_ [Fg _]]]; [constructor|assumption]).
    assert (En : n = length mine * bpc) by (destruct H as [[-> [-> _]]|[_ [_ [En _]]]]; [reflexivity|assumption]).
    set (st := chunk_steps bs k bpc ss idx (rng_of bpc ent) (length mine) ch).
    assert (ES : exists l0, length l0 = n /\ csteps ent (mine ++ [ch]) = l0 ++ st /\ clear_to l0 n /\ (0 < n -> csteps ent mine = l0)).
    { destruct H as [[-> [-> _]]|[Su [_ [_ Cl]]]].
      - exists []. cbn [app length]. split; [reflexivity|]. split; [rewrite (set_up_csteps ent ss idx [ch] Su'); cbn; rewrite app_nil_r; reflexivity|].
        split; [|lia]. split; [cbn; lia|]. eexists; reflexivity.
      - exists (csteps ent mine). split; [rewrite (set_up_csteps ent ss idx _ Su), flat_length by assumption; lia|].
        split; [apply csteps_snoc; assumption|]. split; [assumption|reflexivity]. }
    destruct ES as [l0 [L0 [ES [Cl0 E0]]]].
    assert (PRE : forall i, i < n -> ev_at (csteps ent (mine ++ [ch])) i = ev_at (csteps ent mine) i).
    { intros i Hi. rewrite ES, (E0 ltac:(lia)). apply ev_at_app. lia. }
    assert (CL : clear_to (csteps ent (mine ++ [ch])) n).
    { destruct Cl0 as [_ Q]. rewrite ES. split; [rewrite app_length; lia|]. rewrite firstn_app, L0, Nat.sub_diag. cbn [firstn]. rewrite app_nil_r. exact Q. }
    assert (BAD : st = [Err ValueError] -> ValueError = ValueError ->
       Raise ValueError = ev_at (csteps ent (mine ++ [ch])) n /\ cinv ent (S n) (mine ++ [ch]) CDone).
    { intros Es _. assert (N : nth_error (csteps ent (mine ++ [ch])) n = Some (Err ValueError)).
      { rewrite ES, nth_error_app2, L0, Nat.sub_diag, Es by lia. reflexivity. }
      split; [rewrite (clear_ev _ _ _ CL N); reflexivity|]. cbn [cinv]. intros i Hi. eapply err_done; [eassumption|lia]. }
    exists [ch].
    destruct (shape ch) as [|n0 [|C [|T [|? ?]]]] eqn:Ec;
    try (injection E as <- <- <-; destruct BAD as [B1 B2]; [unfold st, chunk_steps; rewrite Ec; reflexivity|reflexivity|]; repeat split; try assumption; cbn; lia).
    destruct (Nat.ltb_spec T k) as [Hk|Hk].
    + injection E as <- <- <-. destruct BAD as [B1 B2]; [unfold st, chunk_steps; rewrite Ec; replace (T <? k) with true by lia; reflexivity|reflexivity|]; repeat split; try assumption; cbn; lia.
    + replace (bpc =? 0) with false in E by lia.
      assert (Fg' : List.Forall good (mine ++ [ch])).
      { apply Forall_app. split; [assumption|]. constructor; [|constructor]. exists n0, C, T. split; assumption. }
      destruct (resume_inv ent n ss idx mine ch 0 Su' Fg' Hbpc ltac:(lia) CL) as [R1 R2].
      destruct (chunk_resume k bs (ent n) ss idx ch 0) as [ev' g']. injection E as <- <- <-. cbn [fst snd] in R1, R2.
      repeat split; try assumption; cbn; lia.
Qed.
Lemma chunked_next_inv ent n mine g src ev g' src' : cinv ent n mine g -> chunked_next k bs bpc co (ent n) src g = (ev, g', src') ->
  exists new, src = new ++ src' /\ length new <= 1 /\ ev = ev_at (csteps ent (mine ++ new)) n /\ cinv ent (S n) (mine ++ new) g' /\
    (forall i, i < n -> ev_at (csteps ent (mine ++ new)) i = ev_at (csteps ent mine) i).
Proof.
  intros H E. destruct g as [|ss idx cur b|]; cbn [chunked_next cinv] in *.
  - destruct H as [-> ->]. destruct src as [|ch r].
    + injection E as <- <- <-. exists []. cbn. repeat split; try lia. intros i Hi. apply end_done. cbn. lia.
    + assert (S1 : forall e, csteps ent [ch] = [Err e] -> Raise e = ev_at (csteps ent ([] ++ [ch])) 0 /\ cinv ent 1 ([] ++ [ch]) CDone).
      { intros e Es. cbn [app cinv]. rewrite Es. split; [reflexivity|]. intros i Hi. apply end_done. cbn. lia. }
      destruct (shape ch) as [|n0 [|C [|T [|? ?]]]] eqn:Ec;
      try (injection E as <- <- <-; exists [ch]; destruct (S1 ValueError) as [B1 B2]; [unfold csteps; rewrite Ec; reflexivity|]; repeat split; try assumption; cbn; lia).
      destruct (chunk_base_idx bs C k T) as [idx|e] eqn:Ei.
      * apply (fetch_inv ent 0 _ idx []) in E; [exact E|]. left. split; [reflexivity|]. split; [reflexivity|]. exists ch, r. split; [reflexivity|].
        exists n0, C, T. repeat split; assumption.
      * injection E as <- <- <-; exists [ch]; destruct (S1 e) as [B1 B2]; [unfold csteps; rewrite Ec, Ei; reflexivity|]; repeat split; try assumption; cbn; lia.
  - destruct H as [pre [-> [Su [Fg [Hb [En Cl]]]]]]. destruct (Nat.ltb_spec b bpc) as [L|L].
    + destruct (resume_inv ent n ss idx pre cur b Su Fg L En Cl) as [R1 R2].
      destruct (chunk_resume k bs (ent n) ss idx cur b) as [ev' g'']. injection E as <- <- <-. cbn [fst snd] in R1, R2.
      exists []. rewrite (app_nil_r (pre ++ [cur])). repeat split; try assumption; cbn; lia.
    + apply (fetch_inv ent n ss idx (pre ++ [cur])) in E; [exact E|]. right. repeat split; try assumption; try apply Cl.
      rewrite app_length. cbn. lia.
  - injection E as <- <- <-. exists []. rewrite (app_nil_r mine). split; [reflexivity|]. split; [cbn; lia|]. split; [symmetry; apply H; lia|]. split; [|reflexivity]. intros i Hi. apply H. lia.
Qed.
End Chunked.

(** what iterator j gets when the chunks are handed out one by one, chunk p to iterator own_p *)
Definition share {T} (own : list nat) (src : list T) (j : nat) : list T := map snd (filter (fun p => fst p =? j) (combine own src)).
Lemma share_app {T} (o1 o2 : list nat) (s1 s2 : list T) j : length o1 = length s1 -> share (o1 ++ o2) (s1 ++ s2) j = share o1 s1 j ++ share o2 s2 j.
Proof.
  intros H. unfold share. revert s1 H; induction o1 as [|o o1 IH]; intros [|x s1] H; try discriminate; [reflexivity|].
  cbn in *. specialize (IH s1 ltac:(lia)). destruct (o =? j); cbn; rewrite IH; reflexivity.
Qed.

Lemma oneshot_inv {A} k bs bpc co ent (Hb : 0 < bpc) sched : forall (src : list (tensor A)) w mine, (forall j, cinv k bs bpc co (ent j) (fst (w j)) (mine j) (snd (w j))) ->
  exists own, length own <= length src /\ snd (oneshot_run k bs bpc co ent sched src w) = skipn (length own) src /\
  forall j, events_of j (fst (oneshot_run k bs bpc co ent sched src w)) =
              map (ev_at (csteps k bs bpc co (ent j) (mine j ++ share own src j))) (seq (fst (w j)) (turns j sched)) /\
            (forall i, i < fst (w j) -> ev_at (csteps k bs bpc co (ent j) (mine j ++ share own src j)) i = ev_at (csteps k bs bpc co (ent j) (mine j)) i).
Proof.
  induction sched as [|i s IH]; intros src w mine Hw; cbn [oneshot_run].
  - exists []. cbn. split; [lia|]. split; [reflexivity|]. intros j. rewrite app_nil_r. split; reflexivity.
  - pose proof (Hw i) as Hi. destruct (w i) as [n g] eqn:Ew. cbn [fst snd] in Hi.
    destruct (chunked_next k bs bpc co (ent i n) src g) as [[ev g'] src'] eqn:E.
    destruct (chunked_next_inv k bs bpc co Hb (ent i) n (mine i) g src ev g' src' Hi E) as [new [-> [Ln [Eev [Inv' Pre]]]]].
    assert (Hw' : forall j, cinv k bs bpc co (ent j) (fst (upd w i (S n, g') j)) (upd mine i (mine i ++ new) j) (snd (upd w i (S n, g') j))).
    { intros j. unfold upd. destruct (Nat.eqb_spec j i) as [->|_]; [exact Inv'|apply Hw]. }
    destruct (IH src' _ _ Hw') as [own [Lo [Er G]]]. destruct (oneshot_run k bs bpc co ent s src' (upd w i (S n, g'))) as [l rest]. cbn [fst snd] in *.
    exists (repeat i (length new) ++ own). rewrite app_length, repeat_length, app_length. split; [lia|]. split.
    { rewrite Er, skipn_app. rewrite (skipn_all2 new) by lia. cbn [app]. f_equal. lia. }
    intros j. destruct (G j) as [G1 G2]. rewrite share_app by (rewrite repeat_length; reflexivity).
    assert (Sh : share (repeat i (length new)) new j = if i =? j then new else []).
    { clear. unfold share. induction new as [|x new IH]; cbn; [destruct (i =? j); reflexivity|]. destruct (i =? j); cbn; rewrite IH; reflexivity. }
    rewrite Sh, turns_cons. unfold events_of in *. cbn [filter fst]. unfold upd in G1, G2. destruct (Nat.eqb_spec i j) as [->|Ne].
    + rewrite Nat.eqb_refl in G1, G2. cbn [fst snd] in G1, G2. rewrite Ew. cbn [fst]. rewrite app_assoc. split.
      * cbn [map snd plus seq]. rewrite G1, Eev. f_equal. symmetry. apply G2. lia.
      * intros i' Hi'. rewrite G2 by lia. apply Pre. assumption.
    + replace (j =? i) with false in G1, G2 by lia. cbn [app]. split; assumption.
Qed.

(** *** chunk_it is an iterator: the chunks are handed out to whoever asks, each to exactly one iterator *)
Theorem chunked_oneshot_shares {A} k bs bpc co ent sched (chunks : list (tensor A)) : 0 < bpc ->
  exists own, length own <= length chunks /\ snd (oneshot_run k bs bpc co ent sched chunks (fun _ => (0, CFresh))) = skipn (length own) chunks /\
  forall j, let t := chunked_trace (share own chunks j) k bs bpc co (rng_of bpc (ent j)) in
    events_of j (fst (oneshot_run k bs bpc co ent sched chunks (fun _ => (0, CFresh)))) = observed (turns j sched) (fst t) (snd t).
Proof.
  intros Hb. destruct (oneshot_inv k bs bpc co ent Hb sched chunks (fun _ => (0, CFresh)) (fun _ => [])) as [own [L [E G]]]; [intros j; split; reflexivity|].
  exists own. split; [exact L|]. split; [exact E|]. intros j. destruct (G j) as [G1 _]. cbn [fst app] in G1. rewrite G1, csteps_trace. symmetry. apply observed_ev.
Qed.

(** *** chunk_it can be iterated again: every iterator sees all the chunks *)
Lemma fetch_stop {A} k bs bpc e ss idx (src : list (tensor A)) (g' : cgen A) src' : chunk_fetch k bs bpc e ss idx src = (Stop, g', src') -> src' = [].
Proof.
  revert g' src'; induction src as [|ch r IH]; intros g' src'; cbn [chunk_fetch].
  - intros [= _ <-]. reflexivity.
  - destruct (shape ch) as [|? [|C [|T [|? ?]]]] eqn:Ec; try discriminate. destruct (T <? k); [discriminate|]. destruct (bpc =? 0); [apply IH|].
    unfold chunk_resume. rewrite Ec. destruct (chunk_batch _ _ _ _ _ _ _ _ _ _); discriminate.
Qed.
Lemma next_stop {A} k bs bpc co e (src : list (tensor A)) g (g' : cgen A) src' : chunked_next k bs bpc co e src g = (Stop, g', src') -> g = CDone \/ src' = [].
Proof.
  destruct g as [|ss idx cur b|]; cbn [chunked_next]; [| |tauto].
  - destruct src as [|ch r]; [discriminate|]. destruct (shape ch) as [|? [|C [|T [|? ?]]]]; try discriminate.
    destruct (chunk_base_idx bs C k T); [|discriminate]. intros H. right. eapply fetch_stop; eassumption.
  - destruct (b <? bpc).
    + unfold chunk_resume. destruct (shape cur) as [|? [|C [|T [|? ?]]]]; try discriminate. destruct (chunk_batch _ _ _ _ _ _ _ _ _ _); discriminate.
    + intros H. right. eapply fetch_stop; eassumption.
Qed.
Section Rerun.
Context {A : Type}.
Variables (k bs bpc : nat) (co : bool).
Hypothesis Hbpc : 0 < bpc.
Variable ent : nat -> (list nat -> Z) * (list nat -> Z).
Lemma csteps_app (mine rest : list (tensor A)) : mine <> [] -> exists more, csteps k bs bpc co ent (mine ++ rest) = csteps k bs bpc co ent mine ++ more.
Proof.
  destruct mine as [|f r]; [congruence|]. intros _. unfold csteps. cbn [app]. destruct (shape f) as [|? [|C [|T [|? ?]]]]; try (exists []; rewrite app_nil_r; reflexivity).
  destruct (chunk_base_idx bs C k T) as [idx|e]; [|exists []; rewrite app_nil_r; reflexivity].
  change (f :: r ++ rest) with ((f :: r) ++ rest). rewrite combine_seq_app, flat_map_app. eexists. reflexivity.
Qed.
Lemma next_fresh e ch (r : list (tensor A)) ev g' src' : chunked_next k bs bpc co e (ch :: r) CFresh = (ev, g', src') -> length src' <= length r.
Proof.
  cbn [chunked_next]. destruct (shape ch) as [|? [|C [|T [|? ?]]]] eqn:Ec; try (intros [= _ _ <-]; lia).
  destruct (chunk_base_idx bs C k T); [|intros [= _ _ <-]; lia]. cbn [chunk_fetch]. rewrite Ec.
  destruct (T <? k); [intros [= _ _ <-]; lia|]. replace (bpc =? 0) with false by lia. intros [= _ <-]. lia.
Qed.
Definition rinv (chunks : list (tensor A)) (n : nat) (g : cgen A) (src : list (tensor A)) : Prop :=
  exists mine, chunks = mine ++ src /\ cinv k bs bpc co ent n mine g /\
    (g = CDone -> forall i, n <= i -> ev_at (csteps k bs bpc co ent chunks) i = Stop).
Lemma rinv_next chunks n g src ev g' src' : rinv chunks n g src -> chunked_next k bs bpc co (ent n) src g = (ev, g', src') ->
  ev = ev_at (csteps k bs bpc co ent chunks) n /\ rinv chunks (S n) g' src'.
Proof using All.
  intros [mine [-> [Inv HD]]] E. destruct (chunked_next_inv k bs bpc co Hbpc ent n mine g src ev g' src' Inv E) as [new [-> [Ln [Eev [Inv' _]]]]].
  rewrite app_assoc. set (m' := mine ++ new) in *.
  assert (Q : ev = ev_at (csteps k bs bpc co ent (m' ++ src')) n /\ (g' = CDone -> forall i, S n <= i -> ev_at (csteps k bs bpc co ent (m' ++ src')) i = Stop)).
  { destruct g as [|ss idx cur b|] eqn:Eg.
    3: { cbn [chunked_next] in E. assert (E1 : ev = Stop) by congruence. assert (E2 : new ++ src' = src') by congruence.
         assert (new = []) by (destruct new; [reflexivity|exfalso; apply (f_equal (@length _)) in E2; rewrite app_length in E2; cbn in E2; lia]). subst new.
         unfold m'. rewrite app_nil_r in *. cbn [app] in HD. split; [rewrite E1; symmetry; apply HD; [reflexivity|lia]|]. intros _ i Hi. apply HD; [reflexivity|lia]. }
    all: assert (SRC : src' = [] \/ src' <> []) by (destruct src'; [left; reflexivity|right; discriminate]); destruct SRC as [Es|Es];
      [subst src'; rewrite app_nil_r; split; [exact Eev|]; intros ->; exact Inv'|].
    all: assert (Ns : ev <> Stop) by (intros ->; destruct (next_stop _ _ _ _ _ _ _ _ _ E) as [D|D]; [discriminate|congruence]).
    all: assert (M : m' <> []).
    1: { unfold m'. intros M. apply app_eq_nil in M. destruct M as [-> ->]. cbn [app] in E. destruct src' as [|ch r]; [congruence|].
         apply next_fresh in E. cbn in E. lia. }
    2: { unfold m'. destruct Inv as [pre [-> _]]. destruct pre; discriminate. }
    all: destruct (csteps_app m' src' M) as [more Em]; rewrite Em.
    all: assert (NN : exists r, nth_error (csteps k bs bpc co ent m') n = Some r /\ ev = match r with Ok a => Yield a | Err e => Raise e end).
    1, 3: rewrite Eev; apply ev_at_some; rewrite <- Eev; exact Ns.
    all: destruct NN as [r [Hr Er]]; assert (Ln' : n < length (csteps k bs bpc co ent m')) by (apply nth_error_Some; rewrite Hr; discriminate).
    all: split; [rewrite ev_at_app by assumption; exact Eev|]; intros -> i Hi.
    all: destruct r as [a|x]; [exfalso|apply (err_done _ n x); [rewrite nth_error_app1 by assumption; exact Hr|lia]].
    all: cbn [cinv] in Inv'; rewrite Er in E; clear -E; cbn [chunked_next] in E.
    - destruct (new ++ src') as [|ch rr]; [discriminate|]. destruct (shape ch) as [|? [|C [|T [|? ?]]]]; try discriminate.
      destruct (chunk_base_idx bs C k T); [|discriminate]. revert E. generalize (ch :: rr). induction l as [|c l IH]; cbn [chunk_fetch]; [discriminate|].
      destruct (shape c) as [|? [|C' [|T' [|? ?]]]] eqn:Ec; try discriminate. destruct (T' <? k); [discriminate|]. destruct (bpc =? 0); [exact IH|].
      unfold chunk_resume. rewrite Ec. destruct (chunk_batch _ _ _ _ _ _ _ _ _ _); discriminate.
    - destruct (b <? bpc).
      + unfold chunk_resume in E. destruct (shape cur) as [|? [|C [|T [|? ?]]]]; try discriminate. destruct (chunk_batch _ _ _ _ _ _ _ _ _ _); discriminate.
      + revert E. generalize (new ++ src'). induction l as [|c l IH]; cbn [chunk_fetch]; [discriminate|].
        destruct (shape c) as [|? [|C' [|T' [|? ?]]]] eqn:Ec; try discriminate. destruct (T' <? k); [discriminate|]. destruct (bpc =? 0); [exact IH|].
        unfold chunk_resume. rewrite Ec. destruct (chunk_batch _ _ _ _ _ _ _ _ _ _); discriminate. }
  destruct Q as [Q1 Q2]. split; [exact Q1|]. exists m'. split; [reflexivity|]. split; [exact Inv'|exact Q2].
Qed.
End Rerun.
Lemma rerun_inv {A} k bs bpc co ent (Hb : 0 < bpc) (chunks : list (tensor A)) sched : forall (w : nat -> nat * cgen A * list (tensor A)),
  (forall j, rinv k bs bpc co (ent j) chunks (fst (fst (w j))) (snd (fst (w j))) (snd (w j))) ->
  forall j, events_of j (chunked_run k bs bpc co ent sched w) = map (ev_at (csteps k bs bpc co (ent j) chunks)) (seq (fst (fst (w j))) (turns j sched)).
Proof.
  induction sched as [|i s IH]; intros w Hw j; [reflexivity|]. cbn [chunked_run]. pose proof (Hw i) as Hi. destruct (w i) as [[n g] src] eqn:Ew. cbn [fst snd] in Hi.
  destruct (chunked_next k bs bpc co (ent i n) src g) as [[ev g'] src'] eqn:E.
  destruct (rinv_next k bs bpc co Hb (ent i) chunks n g src ev g' src' Hi E) as [E1 E2].
  assert (Hw' : forall j, rinv k bs bpc co (ent j) chunks (fst (fst (upd w i (S n, g', src') j))) (snd (fst (upd w i (S n, g', src') j))) (snd (upd w i (S n, g', src') j))).
  { intros j'. unfold upd. destruct (Nat.eqb_spec j' i) as [->|_]; [exact E2|apply Hw]. }
  specialize (IH _ Hw' j). unfold events_of in *. rewrite turns_cons. cbn [filter fst]. destruct (Nat.eqb_spec i j) as [->|Ne].
  - cbn [map snd]. rewrite IH. unfold upd at 1. rewrite Nat.eqb_refl, Ew. cbn [fst plus seq map]. rewrite E1. reflexivity.
  - rewrite IH. unfold upd. replace (j =? i) with false by lia. reflexivity.
Qed.
Theorem chunked_iterators_independent {A} k bs bpc co ent sched (chunks : list (tensor A)) j : 0 < bpc ->
  let t := chunked_trace chunks k bs bpc co (rng_of bpc (ent j)) in
  events_of j (chunked_run k bs bpc co ent sched (fun _ => (0, CFresh, chunks))) = observed (turns j sched) (fst t) (snd t).
Proof.
  intros Hb t. rewrite (rerun_inv k bs bpc co ent Hb chunks).
  - cbn [fst snd]. unfold t. rewrite csteps_trace. symmetry. apply observed_ev.
  - intros i. exists []. split; [reflexivity|]. split; [split; reflexivity|discriminate].
Qed.

(** an iterator that ran to its end without an exception has used up a one-shot source ... *)
Lemma fetch_yield {A} k bs bpc e ss idx (src : list (tensor A)) a src' : chunk_fetch k bs bpc e ss idx src <> (Yield a, CDone, src').
Proof.
  induction src as [|c l IH]; cbn [chunk_fetch]; [discriminate|].
  destruct (shape c) as [|? [|C' [|T' [|? ?]]]] eqn:Ec; try discriminate. destruct (T' <? k); [discriminate|]. destruct (bpc =? 0); [exact IH|].
  unfold chunk_resume. rewrite Ec. destruct (chunk_batch _ _ _ _ _ _ _ _ _ _); discriminate.
Qed.
Lemma next_yield {A} k bs bpc co e (src : list (tensor A)) g a src' : chunked_next k bs bpc co e src g <> (Yield a, CDone, src').
Proof.
  destruct g as [|ss idx cur b|]; cbn [chunked_next]; [| |discriminate].
  - destruct src as [|ch r]; [discriminate|]. destruct (shape ch) as [|? [|C [|T [|? ?]]]]; try discriminate.
    destruct (chunk_base_idx bs C k T); [apply fetch_yield|discriminate].
  - destruct (b <? bpc); [|apply fetch_yield]. unfold chunk_resume. destruct (shape cur) as [|? [|C [|T [|? ?]]]]; try discriminate.
    destruct (chunk_batch _ _ _ _ _ _ _ _ _ _); discriminate.
Qed.
Lemma next_nil {A} k bs bpc co e (g : cgen A) ev g' src' : chunked_next k bs bpc co e [] g = (ev, g', src') -> src' = [].
Proof. destruct g as [|ss idx cur b|]; cbn [chunked_next chunk_fetch]; [congruence| |congruence]. destruct (b <? bpc); [|congruence]. intros [= _ <-]. reflexivity. Qed.
Lemma oneshot_nil {A} k bs bpc co ent sched : forall (w : nat -> nat * cgen A), snd (oneshot_run k bs bpc co ent sched [] w) = [].
Proof.
  induction sched as [|i s IH]; intros w; [reflexivity|]. cbn [oneshot_run]. destruct (w i) as [n g].
  destruct (chunked_next k bs bpc co (ent i n) [] g) as [[ev g'] src'] eqn:E. apply next_nil in E. subst src'.
  specialize (IH (upd w i (S n, g'))). destruct (oneshot_run k bs bpc co ent s [] (upd w i (S n, g'))). exact IH.
Qed.
Lemma oneshot_stop {A} k bs bpc co ent j sched : forall (src : list (tensor A)) w, snd (w j) <> CDone ->
  In Stop (events_of j (fst (oneshot_run k bs bpc co ent sched src w))) ->
  (forall e, ~ In (Raise e) (events_of j (fst (oneshot_run k bs bpc co ent sched src w)))) ->
  snd (oneshot_run k bs bpc co ent sched src w) = [].
Proof.
  induction sched as [|i s IH]; intros src w Hw; cbn [oneshot_run]; [intros []|]. destruct (w i) as [n g] eqn:Ew.
  destruct (chunked_next k bs bpc co (ent i n) src g) as [[ev g'] src'] eqn:E.
  specialize (IH src' (upd w i (S n, g'))). pose proof (oneshot_nil k bs bpc co ent s (upd w i (S n, g'))) as N.
  unfold events_of in *. destruct (Nat.eqb_spec i j) as [->|Ne].
  - rewrite Ew in Hw. cbn [snd] in Hw. unfold upd in IH at 1. rewrite Nat.eqb_refl in IH. cbn [snd] in IH.
    destruct ev as [a| |e].
    + destruct (oneshot_run k bs bpc co ent s src' (upd w j (S n, g'))) as [l rest]. cbn [fst snd filter] in *. rewrite Nat.eqb_refl. cbn [map snd In].
      intros [D|I] R; [discriminate|]. apply IH; [|exact I|].
      * intros ->. exact (next_yield _ _ _ _ _ _ _ _ _ E).
      * intros e He. apply (R e). right. exact He.
    + intros _ _. assert (D : g = CDone \/ src' = []) by (eapply next_stop; exact E). destruct D as [D| ->]; [congruence|].
      destruct (oneshot_run k bs bpc co ent s [] (upd w j (S n, g'))). exact N.
    + destruct (oneshot_run k bs bpc co ent s src' (upd w j (S n, g'))) as [l rest]. cbn [fst snd filter] in *. rewrite Nat.eqb_refl. cbn [map snd In].
      intros _ R. exfalso. apply (R e). left. reflexivity.
  - unfold upd in IH at 1. replace (j =? i) with false in IH by lia. specialize (IH Hw).
    destruct (oneshot_run k bs bpc co ent s src' (upd w i (S n, g'))) as [l rest]. cbn [fst snd filter] in *.
    replace (i =? j) with false by lia. exact IH.
Qed.
(** ... and then every new iterator (in particular the next epoch) raises RuntimeError instead of yielding anything *)
Theorem chunked_oneshot_second_epoch {A} k bs bpc co ent sched (chunks : list (tensor A)) i j n :
  let run s := oneshot_run k bs bpc co ent s chunks (fun _ => (0, CFresh)) in
  In Stop (events_of i (fst (run sched))) -> (forall e, ~ In (Raise e) (events_of i (fst (run sched)))) -> turns j sched = 0 -> 0 < n ->
  events_of j (fst (run (sched ++ repeat j n))) = Raise RuntimeError :: repeat Stop (n - 1).
Proof.
  intros run HS HR HT Hn. assert (E : snd (run sched) = []) by (eapply oneshot_stop; [|exact HS|exact HR]; discriminate).
  clear HS HR. subst run. cbn beta in *. revert E.
  assert (G : forall s src (w : nat -> nat * cgen A), turns j s = 0 -> snd (oneshot_run k bs bpc co ent s src w) = [] ->
     events_of j (fst (oneshot_run k bs bpc co ent (s ++ repeat j n) src w)) =
     events_of j (fst (oneshot_run k bs bpc co ent (repeat j n) [] (fun i => if i =? j then w j else (0, CDone))))); [|intros E; rewrite (G _ _ _ HT E)].
  - induction s as [|i' s IH]; intros src w Ht E.
    + cbn [app]. cbn [oneshot_run snd] in E. subst src. clear.
      assert (Q : forall (w w' : nat -> nat * cgen A), w j = w' j ->
        events_of j (fst (oneshot_run k bs bpc co ent (repeat j n) [] w)) = events_of j (fst (oneshot_run k bs bpc co ent (repeat j n) [] w'))).
      { induction n as [|n' IH]; intros u v Huv; [reflexivity|]. cbn [repeat oneshot_run]. rewrite <- Huv. destruct (u j) as [m g].
        destruct (chunked_next k bs bpc co (ent j m) [] g) as [[ev g'] src'] eqn:E. apply next_nil in E. subst src'.
        specialize (IH (upd u j (S m, g')) (upd v j (S m, g'))). unfold upd at 1 2 in IH. rewrite Nat.eqb_refl in IH. specialize (IH eq_refl).
        destruct (oneshot_run k bs bpc co ent (repeat j n') [] (upd u j (S m, g'))), (oneshot_run k bs bpc co ent (repeat j n') [] (upd v j (S m, g'))).
        unfold events_of in *. cbn [fst filter map snd] in *. rewrite Nat.eqb_refl. cbn [map snd]. rewrite IH. reflexivity. }
      apply Q. rewrite Nat.eqb_refl. reflexivity.
    + rewrite turns_cons in Ht. destruct (Nat.eqb_spec i' j) as [|Ne]; [lia|]. cbn [app oneshot_run] in *. destruct (w i') as [m g] eqn:Ew.
      destruct (chunked_next k bs bpc co (ent i' m) src g) as [[ev g'] src'].
      specialize (IH src' (upd w i' (S m, g')) ltac:(lia)). destruct (oneshot_run k bs bpc co ent s src' (upd w i' (S m, g'))) as [l rest]. cbn [fst snd] in *.
      specialize (IH E). destruct (oneshot_run k bs bpc co ent (s ++ repeat j n) src' (upd w i' (S m, g'))) as [l2 r2].
      unfold events_of in *. cbn [fst filter] in *. replace (i' =? j) with false by lia. rewrite IH.
      unfold upd. replace (j =? i') with false by lia. reflexivity.
  - destruct n as [|n]; [lia|]. cbn [repeat oneshot_run]. rewrite Nat.eqb_refl. cbn [chunked_next].
    replace (S n - 1) with n by lia.
    assert (Q : forall n (w : nat -> nat * cgen A), snd (w j) = CDone -> events_of j (fst (oneshot_run k bs bpc co ent (repeat j n) [] w)) = repeat Stop n).
    { clear. induction n as [|n IH]; intros w Hw; [reflexivity|]. cbn [repeat oneshot_run]. destruct (w j) as [m g]. cbn [snd] in Hw. subst g. cbn [chunked_next].
      specialize (IH (upd w j (S m, CDone))). unfold upd at 1 in IH. rewrite Nat.eqb_refl in IH. specialize (IH eq_refl).
      destruct (oneshot_run k bs bpc co ent (repeat j n) [] (upd w j (S m, CDone))). unfold events_of in *. cbn [fst filter map snd] in *.
      rewrite Nat.eqb_refl. cbn [map snd]. rewrite IH. reflexivity. }
    match goal with |- context [oneshot_run _ _ _ _ _ (repeat j n) [] ?w] => specialize (Q n w); assert (Qw : snd (w j) = CDone) by (unfold upd; rewrite Nat.eqb_refl; reflexivity); specialize (Q Qw);
      destruct (oneshot_run k bs bpc co ent (repeat j n) [] w) end.
    unfold events_of in *. cbn [fst filter map snd] in *. rewrite Nat.eqb_refl. cbn [map snd]. rewrite Q. reflexivity.
Qed.

(** ** worker processes: W copies of an InMemoryDataset, each iterated to its end, in any interleaving: every window comes W times *)
Theorem imd_workers_repeat {A} (X : tensor A) y (C T k bs s W : nat) (shuffle : bool) d ent sched :
  shape X = [C; T] -> 0 < C -> 0 < k -> k <= T -> 0 < bs -> 0 < s -> (forall y', y = Some y' -> ndim y' = 1) ->
  let nk := (T - k) / s + 1 in
  (forall j, Permutation (snd (ent j 0)) (seq 0 nk)) ->
  imd_create X (Z.of_nat k) y (Z.of_nat bs) (Z.of_nat s) None true shuffle = Ok d ->
  (forall j, j < W -> (imd_len d < Z.of_nat (turns j sched))%Z) ->
  exists kss : nat -> list nat,
    (forall j, j < W -> exists batches, epoch_of X y C k s bs (length (kss j)) (fun r _ => nth r (kss j) 0) batches /\ Z.of_nat (length batches) = imd_len d /\
       events_of j (imd_run d ent sched (fun _ => (0, IFresh))) = map Yield batches ++ repeat Stop (turns j sched - length batches)) /\
    forall x, count_occ Nat.eq_dec (flat_map kss (seq 0 W)) x = if x <? nk then W else 0.
Proof.
  intros SX HC Hk HkT Hbs Hs Hy nk Hp Hc Ht.
  assert (P : forall j, exists ks, Permutation ks (seq 0 nk) /\ exists batches, imd_epoch d (fst (ent j 0)) (snd (ent j 0)) = Ok batches /\
     Z.of_nat (length batches) = imd_len d /\ epoch_of X y C k s bs (length ks) (fun r _ => nth r ks 0) batches).
  { intros j. destruct (imd_coincident_epoch X y C T k bs s None shuffle (fst (ent j 0)) (snd (ent j 0)) d SX HC Hk HkT Hbs Hs Hy (Hp j) Hc)
      as [ks [batches [E [L [Ep [_ [_ [_ [_ [Pm _]]]]]]]]]]. exists ks. split; [exact Pm|]. exists batches. auto. }
  assert (Q : exists kss : nat -> list nat, forall j, j < W -> Permutation (kss j) (seq 0 nk) /\ exists batches, imd_epoch d (fst (ent j 0)) (snd (ent j 0)) = Ok batches /\
     Z.of_nat (length batches) = imd_len d /\ epoch_of X y C k s bs (length (kss j)) (fun r _ => nth r (kss j) 0) batches).
  { clear Ht. induction W as [|V [kss IH]]; [exists (fun _ => []); lia|]. destruct (P V) as [ks HV].
    exists (fun j => if j =? V then ks else kss j). intros j Hj. destruct (Nat.eqb_spec j V) as [->|Ne]; [exact HV|apply IH; lia]. }
  destruct Q as [kss Q]. exists kss. split.
  - intros j Hj. destruct (Q j Hj) as [_ [batches [E [L Ep]]]]. exists batches. split; [exact Ep|]. split; [exact L|].
    rewrite (imd_iterators_independent d ent sched j batches E). specialize (Ht j Hj). unfold observed. cbn [app].
    rewrite firstn_app, map_length. rewrite firstn_all2 by (rewrite map_length; lia). f_equal.
    set (m := turns j sched) in *. replace m with ((m - length batches) + length batches) at 2 by lia.
    rewrite repeat_app, firstn_app, repeat_length, Nat.sub_diag. cbn [firstn]. rewrite app_nil_r. apply firstn_all2. rewrite repeat_length. lia.
  - intros x. assert (Cn : forall j, j < W -> count_occ Nat.eq_dec (kss j) x = if x <? nk then 1 else 0).
    { intros j Hj. destruct (Q j Hj) as [Pm _]. rewrite (proj1 (Permutation_count_occ Nat.eq_dec _ _) Pm).
      destruct (Nat.ltb_spec x nk) as [L|L].
      - apply NoDup_count_occ'; [apply seq_NoDup|apply in_seq; lia].
      - apply count_occ_not_In. rewrite in_seq. lia. }
    clear -Cn. induction W as [|V IH]; [cbn; destruct (x <? nk); reflexivity|].
    rewrite seq_S, flat_map_app, count_occ_app, IH by (intros; apply Cn; lia). cbn [flat_map plus]. rewrite app_nil_r, Cn by lia. destruct (x <? nk); lia.
Qed.

(** two workers on one channel of 10 samples, windows of 4 at stride 2, batches of 3 *)
Example workers_ex : exists d sched kss, 
  imd_create (mk [1; 10] (fun i => nth 1 i 0)) 4 None 3 2 None true false = Ok d /\ sched = [0; 1; 1; 0; 1; 0] /\
  (forall j, j < 2 -> events_of j (imd_run d (fun _ _ => (fun _ => 0%Z, seq 0 4)) sched (fun _ => (0, IFresh))) <> []) /\
  forall x, count_occ Nat.eq_dec (flat_map kss (seq 0 2)) x = if x <? 4 then 2 else 0.
Proof.
  set (X := mk [1; 10] (fun i => nth 1 i 0)).
  destruct (imd_workers_repeat X None 1 10 4 3 2 2 false
    {| im_X := X; im_y := None; im_kernel := 4; im_batch := 3; im_stride := 2; im_bpe := None; im_coincident := true; im_shuffle := false |}
    (fun _ _ => (fun _ => 0%Z, seq 0 4)) [0; 1; 1; 0; 1; 0]) as [kss [H1 H2]]; try reflexivity; try lia; try discriminate.
  - intros j Hj. assert (D : j = 0 \/ j = 1) by lia. destruct D as [-> | ->]; vm_compute; reflexivity.
  - eexists _, _, kss. split; [reflexivity|]. split; [reflexivity|]. split; [|exact H2].
    intros j Hj. destruct (H1 j Hj) as [bs [_ [L E]]]. rewrite E. assert (L2 : length bs = 2) by (change (Z.of_nat (length bs) = 2%Z) in L; lia).
    destruct bs; [discriminate|]. cbn. discriminate.
Qed.
(** a one-shot source of two chunks, one batch per chunk: two interleaved iterators get one chunk each, and the next epoch fails *)
Example oneshot_ex :
  let r : list nat -> Z := fun _ => 7%Z in
  let ch := mk [1; 1; 6] (fun i => nth 2 i 0) in
  let log := fst (oneshot_run 4 1 1 true (fun _ _ => (r, r)) [0; 1; 0; 1; 2; 2] [ch; ch] (fun _ => (0, CFresh))) in
  exists a b, log = [(0, Yield a); (1, Yield b); (0, Stop); (1, Stop); (2, Raise RuntimeError); (2, Stop)].
Proof. cbn zeta. do 2 eexists. vm_compute. reflexivity. Qed.
