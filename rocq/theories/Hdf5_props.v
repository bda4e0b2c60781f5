(** C10-C12: properties of Hdf5TimeSeriesDataset. *)
From Verif Require Import Base Hdf5_model Hdf5_proofs.

(** Every channel of every file has the file's size, and it is longer than the kernel. *)
Definition uniform_files {A} (fs : nat -> nat -> list A) (fnames : list nat) (C k : nat) : Prop :=
  forall f, In f fnames -> k < length (fs f 0) /\ forall c, c < C -> length (fs f c) = length (fs f 0).
(** [sel] is a possible outcome of choosing num_files_per_batch indices without replacement *)
Definition possible_selection (nfiles nf : nat) (sel : list nat) : Prop :=
  NoDup sel /\ length sel = nf /\ forall i, In i sel -> i < nfiles.
Definition files_of (fnames sel : list nat) : list nat := map (fun i => nth i fnames 0) sel.
(** [row] is the window of [k] samples of file f, channel c that starts at s *)
Definition is_window {A} (fs : nat -> nat -> list A) (k f c s : nat) (row : list A) : Prop :=
  length row = k /\ s + k <= length (fs f c) /\ forall j, j < k -> nth_error row j = nth_error (fs f c) (s + j).

Lemma window_is_window {A} (fs : nat -> nat -> list A) k f c s : s + k <= length (fs f c) -> is_window fs k f c s (window fs k f c s).
Proof.
  intros H. unfold is_window, window. split; [rewrite firstn_length, skipn_length; lia|]. split; [exact H|].
  intros j Hj. rewrite nth_error_firstn, nth_error_skipn. replace (j <? k) with true by lia. reflexivity.
Qed.

Definition nf_of (fnames : list nat) (nf : option Z) : Z := match nf with None => Z.of_nat (length fnames) | Some n => n end.
Definition mode_of (co : coarg) : comode := match co with ABool true => CoTrue | ABool false => CoFalse | AStrFiles => CoFiles | AOther => CoTrue end.

Lemma h5_create_inv {A} (fs : nat -> nat -> list A) fnames C k bs bpe co nf d :
  h5_create fs fnames C k bs bpe co nf = Ok d ->
  d = {| h_fnames := fnames; h_C := C; h_k := k; h_bs := bs; h_bpe := bpe; h_co := mode_of co; h_nf := nf_of fnames nf;
         h_sizes := sizes_of fs fnames [] |} /\ co <> AOther.
Proof.
  unfold h5_create. intros H. destruct co as [[|]| |]; cbn [bind] in H; try discriminate H;
  (destruct (_ <? _)%Z; [discriminate|]); (destruct (_ && _)%bool; [discriminate|]); (destruct (_ && _)%bool; [discriminate|]);
  injection H as <-; (split; [reflexivity|discriminate]).
Qed.

(** the setting shared by the theorems below *)
Definition setting {A} (fs : nat -> nat -> list A) fnames C k bs bpe co nf d sel : Prop :=
  h5_create fs fnames C k bs bpe co nf = Ok d /\ NoDup fnames /\ fnames <> [] /\ 0 < C
  /\ (0 < nf_of fnames nf)%Z /\ uniform_files fs fnames C k
  /\ possible_selection (length fnames) (Z.to_nat (nf_of fnames nf)) sel.

Lemma h5_create_nf {A} (fs : nat -> nat -> list A) fnames C k bs bpe co nf d :
  h5_create fs fnames C k bs bpe co nf = Ok d -> (nf_of fnames nf <= Z.of_nat (length fnames))%Z.
Proof.
  unfold h5_create. fold (nf_of fnames nf). intros H.
  assert ((Z.of_nat (length fnames) <? nf_of fnames nf)%Z = false) as E.
  { destruct co as [[|]| |]; cbn [bind] in H; try discriminate H; destruct (_ <? _)%Z; congruence. }
  lia.
Qed.

Definition drawn (fnames sel : list nat) (draw : nat -> nat) (p : nat) : nat := nth (draw p mod length sel) (files_of fnames sel) 0.

Lemma sample_fnames_ok {A} (fs : nat -> nat -> list A) fnames C k bs bpe co nf d sel draw n :
  setting fs fnames C k bs bpe co nf d sel ->
  sample_fnames d sel draw n = Ok (map (drawn fnames sel draw) (seq 0 n)) /\ (forall p, In (drawn fnames sel draw p) fnames)
  /\ (forall p, In (drawn fnames sel draw p) (files_of fnames sel)).
Proof.
  intros [Hc [Hn [Hne [HC [Hnf [Hu [Hs1 [Hs2 Hs3]]]]]]]]. assert (Hle := h5_create_nf _ _ _ _ _ _ _ _ _ Hc).
  destruct (h5_create_inv _ _ _ _ _ _ _ _ _ Hc) as [-> _].
  assert (M : forall p, In (drawn fnames sel draw p) (files_of fnames sel)).
  { intros p. unfold drawn. apply nth_In. unfold files_of. rewrite map_length. apply Nat.mod_upper_bound. lia. }
  split; [|split; [|exact M]].
  - unfold sample_fnames. cbn [h_sizes h_fnames h_nf].
    rewrite (proj2 (sizes_length fs fnames) Hn), Nat.eqb_refl. cbn [negb].
    replace (length fnames =? 0) with false by (destruct fnames; [congruence|reflexivity]).
    rewrite (sizes_filter fs fnames), (proj2 (sizes_length fs fnames) Hn) by (intros f Hf; destruct (Hu f Hf); lia).
    replace (_ <? _)%Z with false by lia. replace (_ <=? _)%Z with false by lia. rewrite map_length. reflexivity.
  - intros p. specialize (M p). unfold files_of in M. apply in_map_iff in M. destruct M as [i [<- Hi]]. apply nth_In, Hs3, Hi.
Qed.

Definition ndraws (co : comode) (bs C : nat) := match co with CoFalse => bs * C | _ => bs end.
Lemma cell_pos_lt co bs C b c : b < bs -> c < C -> cell_pos co C b c < ndraws co bs C.
Proof. intros. destruct co; cbn; nia. Qed.

Lemma sample_batch_core {A} (zero : A) (fs : nat -> nat -> list A) fnames C k bs bpe co nf d sel draw ent :
  setting fs fnames C k bs bpe co nf d sel ->
  exists x fidx, sample_batch zero fs d sel draw ent = Ok x /\ 
  forall b c, b < bs -> c < C ->
    let f := drawn fnames sel draw (cell_pos (mode_of co) C b c) in
    exists j s, s = Z.to_nat (ent (fidx b c) j mod (Z.of_nat (length (fs f 0)) - Z.of_nat k))
      /\ x b c = window fs k f c s
      /\ (mode_of co = CoTrue -> forall c', c' < C -> x b c' = window fs k f c' s).
Proof.
  intros HS. assert (HS' := HS). destruct HS as [Hc [Hn [Hne [HC [Hnf [Hu [Hs1 [Hs2 Hs3]]]]]]]].
  destruct (h5_create_inv _ _ _ _ _ _ _ _ _ Hc) as [Ed _].
  destruct (sample_fnames_ok fs fnames C k bs bpe co nf d sel draw (ndraws (mode_of co) bs C) HS') as [Es [In1 _]].
  unfold sample_batch.
  replace (match h_co d with CoFalse => h_bs d * h_C d | _ => h_bs d end) with (ndraws (mode_of co) bs C)
    by (rewrite Ed; reflexivity).
  rewrite Es. cbn [bind].
  set (fn := map (drawn fnames sel draw) _). set (u := np_unique fn). set (inv := map _ fn).
  assert (Hget : forall f, In f fnames -> dict_get f (h_sizes d) = Some (length (fs f 0))).
  { intros f Hf. rewrite Ed. cbn [h_sizes]. apply sizes_get. now left. }
  assert (Hkeys : forall f size, dict_get f (h_sizes d) = Some size -> In f fnames).
  { intros f size Hf. destruct (sizes_keys fs fnames [] (NoDup_nil _)) as [_ I].
    destruct (proj1 (I f)) as [[]|]; [|assumption]. rewrite Ed in Hf. cbn [h_sizes] in Hf.
    revert Hf. generalize (sizes_of fs fnames []). intros l. induction l as [|[g t] l IH]; cbn; [discriminate|].
    destruct (Nat.eqb_spec g f); [auto|]. intros; right; auto. }
  assert (Hu_in : forall f, In f u <-> exists p, p < ndraws (mode_of co) bs C /\ f = drawn fnames sel draw p).
  { intros f. unfold u. rewrite in_np_unique. unfold fn. rewrite in_map_iff. split.
    - intros [p [<- Hp]]. apply in_seq in Hp. exists p. split; [lia|reflexivity].
    - intros [p [Hp ->]]. exists p. split; [reflexivity|apply in_seq; lia]. }
  destruct (file_loop_ok fs d inv ent) with (us := u) (i := 0) (x := fun _ _ : nat => repeat zero (h_k d)) as [x [Ex Vx]].
  - intros f size Hf. assert (Hf' := Hkeys _ _ Hf). rewrite (Hget f Hf') in Hf. injection Hf as <-.
    rewrite Ed. cbn [h_k]. apply Hu, Hf'.
  - intros f size c Hf Hcc. assert (Hf' := Hkeys _ _ Hf). rewrite (Hget f Hf') in Hf. injection Hf as <-.
    apply Hu; [exact Hf'|]. rewrite Ed in Hcc. exact Hcc.
  - rewrite Ed. exact HC.
  - intros f Hf. apply Hu_in in Hf. destruct Hf as [p [_ ->]]. eexists. apply Hget, In1.
  - exists x, (fun b c => index_of (drawn fnames sel draw (cell_pos (mode_of co) C b c)) u). split; [exact Ex|].
    intros b c Hb Hcc. set (f := drawn fnames sel draw (cell_pos (mode_of co) C b c)).
    assert (Hp := cell_pos_lt (mode_of co) bs C b c Hb Hcc).
    assert (Hfu : In f u) by (apply Hu_in; eauto).
    assert (Linv : length inv = ndraws (mode_of co) bs C) by (unfold inv, fn; rewrite !map_length, seq_length; reflexivity).
    assert (Einv : nth (cell_pos (mode_of co) C b c) inv 0 = index_of f u).
    { assert (N : nth_error inv (cell_pos (mode_of co) C b c) = Some (index_of f u)).
      { unfold inv, fn. rewrite map_map, nth_error_map', nth_error_seq by exact Hp. reflexivity. }
      apply nth_error_nth, N. }
    specialize (Vx b c). rewrite Ed in Vx. cbn [h_co h_C h_k] in Vx. cbn zeta in Vx. rewrite Linv, Einv in Vx.
    destruct (Vx Hcc Hp) as [V _]. specialize (V ltac:(pose proof (index_of_lt f u Hfu); lia)).
    rewrite Nat.sub_0_r, nth_index_of in V by exact Hfu.
    exact V.
Qed.

Lemma start_fits (size k : nat) (e : Z) : k < size ->
  Z.to_nat (e mod (Z.of_nat size - Z.of_nat k)) + k < size.
Proof. intros H. assert (B := Z.mod_pos_bound e (Z.of_nat size - Z.of_nat k) ltac:(lia)). lia. Qed.

(** coincident=True: one file and one start for all the channels of a batch element *)
Theorem hdf5_coincident_batch {A} (zero : A) fs fnames C k bs bpe nf d sel draw ent :
  setting fs fnames C k bs bpe (ABool true) nf d sel ->
  exists x, sample_batch zero fs d sel draw ent = Ok x /\
  forall b, b < bs -> exists f s, In f (files_of fnames sel) /\ s + k < length (fs f 0)
    /\ forall c, c < C -> is_window fs k f c s (x b c).
Proof.
  intros HS. destruct (sample_batch_core zero fs fnames C k bs bpe _ nf d sel draw ent HS) as [x [fi [Ex V]]].
  exists x. split; [exact Ex|]. intros b Hb. assert (HS' := HS). destruct HS as [_ [_ [_ [HC [_ [Hu _]]]]]].
  destruct (sample_fnames_ok _ _ _ _ _ _ _ _ _ _ draw 0 HS') as [_ [I1 I2]].
  destruct (V b 0 Hb HC) as [j [s [Es [_ VT]]]]. cbn [mode_of cell_pos] in *.
  set (f := drawn fnames sel draw b) in *.
  destruct (Hu f (I1 b)) as [Hk Hl]. assert (S := start_fits (length (fs f 0)) k (ent (fi b 0) j) Hk). rewrite <- Es in S.
  exists f, s. split; [apply I2|]. split; [exact S|]. intros c Hc. rewrite VT by auto. apply window_is_window.
  rewrite Hl by exact Hc. lia.
Qed.

(** coincident="files": one file per batch element, a start per channel *)
Theorem hdf5_files_batch {A} (zero : A) fs fnames C k bs bpe nf d sel draw ent :
  setting fs fnames C k bs bpe AStrFiles nf d sel ->
  exists x, sample_batch zero fs d sel draw ent = Ok x /\
  forall b, b < bs -> exists f, In f (files_of fnames sel) /\
    forall c, c < C -> exists s, s + k < length (fs f 0) /\ is_window fs k f c s (x b c).
Proof.
  intros HS. destruct (sample_batch_core zero fs fnames C k bs bpe _ nf d sel draw ent HS) as [x [fi [Ex V]]].
  exists x. split; [exact Ex|]. intros b Hb. assert (HS' := HS). destruct HS as [_ [_ [_ [HC [_ [Hu _]]]]]].
  destruct (sample_fnames_ok _ _ _ _ _ _ _ _ _ _ draw 0 HS') as [_ [I1 I2]].
  exists (drawn fnames sel draw b). split; [apply I2|]. intros c Hc.
  destruct (V b c Hb Hc) as [j [s [Es [Vx _]]]]. cbn [mode_of cell_pos] in *.
  set (f := drawn fnames sel draw b) in *.
  destruct (Hu f (I1 b)) as [Hk Hl]. assert (S := start_fits (length (fs f 0)) k (ent (fi b c) j) Hk). rewrite <- Es in S.
  exists s. split; [exact S|]. rewrite Vx. apply window_is_window. rewrite Hl by exact Hc. lia.
Qed.

(** coincident=False: a file and a start per cell *)
Theorem hdf5_independent_batch {A} (zero : A) fs fnames C k bs bpe nf d sel draw ent :
  setting fs fnames C k bs bpe (ABool false) nf d sel ->
  exists x, sample_batch zero fs d sel draw ent = Ok x /\
  forall b c, b < bs -> c < C -> exists f s, In f (files_of fnames sel) /\ s + k < length (fs f 0)
    /\ is_window fs k f c s (x b c).
Proof.
  intros HS. destruct (sample_batch_core zero fs fnames C k bs bpe _ nf d sel draw ent HS) as [x [fi [Ex V]]].
  exists x. split; [exact Ex|]. intros b c Hb Hc. assert (HS' := HS). destruct HS as [_ [_ [_ [HC [_ [Hu _]]]]]].
  destruct (sample_fnames_ok _ _ _ _ _ _ _ _ _ _ draw 0 HS') as [_ [I1 I2]].
  destruct (V b c Hb Hc) as [j [s [Es [Vx _]]]]. cbn [mode_of cell_pos] in *.
  set (f := drawn fnames sel draw (b * C + c)) in *.
  destruct (Hu f (I1 (b * C + c))) as [Hk Hl]. assert (S := start_fits (length (fs f 0)) k (ent (fi b c) j) Hk). rewrite <- Es in S.
  exists f, s. split; [apply I2|]. split; [exact S|]. rewrite Vx. apply window_is_window. rewrite Hl by exact Hc. lia.
Qed.

(** The modes are really independent: in mode False any file of the selection and any start below
    size - k can be drawn for any cell, and then holds for that cell (starts are exactly 0..size-k-1). *)
Theorem hdf5_reachable_starts {A} (zero : A) fs fnames C k bs bpe co nf d sel b c i s :
  setting fs fnames C k bs bpe co nf d sel -> b < bs -> c < C -> i < length sel ->
  let f := nth i (files_of fnames sel) 0 in s + k < length (fs f 0) ->
  exists draw ent x, sample_batch zero fs d sel draw ent = Ok x /\ is_window fs k f c s (x b c).
Proof.
  intros HS Hb Hc Hi f Hs. exists (fun _ => i), (fun _ _ => Z.of_nat s).
  destruct (sample_batch_core zero fs fnames C k bs bpe _ nf d sel (fun _ => i) (fun _ _ => Z.of_nat s) HS) as [x [fi [Ex V]]].
  exists x. split; [exact Ex|]. destruct (V b c Hb Hc) as [j [s' [Es [Vx _]]]].
  assert (Ef : drawn fnames sel (fun _ => i) (cell_pos (mode_of co) C b c) = f) by (unfold drawn; rewrite Nat.mod_small by exact Hi; reflexivity).
  rewrite Ef in *. rewrite Z.mod_small in Es by lia. rewrite Nat2Z.id in Es. subst s'. rewrite Vx.
  assert (HS' := HS). destruct HS as [_ [_ [_ [HC [_ [Hu _]]]]]].
  destruct (sample_fnames_ok _ _ _ _ _ _ _ _ _ _ (fun _ => i) 0 HS') as [_ [I1 _]].
  specialize (I1 (cell_pos (mode_of co) C b c)). rewrite Ef in I1. destruct (Hu f I1) as [Hk Hl].
  apply window_is_window. rewrite Hl by exact Hc. lia.
Qed.

(** Each cell is written exactly once: the cells served by the files partition the batch.
    [inv] is any assignment of draws to the unique files (np.unique's inverse). *)
Theorem hdf5_cells_written_once d inv ent us :
  0 < h_C d -> length inv = ndraws (h_co d) (h_bs d) (h_C d) ->
  (forall p, p < length inv -> nth p inv 0 < length us) ->
  (forall f, In f us -> exists size, dict_get f (h_sizes d) = Some size /\ h_k d < size) ->
  exists wss, sequence (map (fun i => file_cells d inv i (nth i us 0) (ent i)) (seq 0 (length us))) = Ok wss
    /\ NoDup (map fst (concat wss))
    /\ forall b c, In (b, c) (map fst (concat wss)) <-> b < h_bs d /\ c < h_C d.
Proof.
  intros HC Hl Hi Hus.
  assert (G : forall n, n <= length us -> exists wss,
    sequence (map (fun i => file_cells d inv i (nth i us 0) (ent i)) (seq 0 n)) = Ok wss
    /\ NoDup (map fst (concat wss))
    /\ forall b c, In (b, c) (map fst (concat wss)) <-> c < h_C d /\ cell_pos (h_co d) (h_C d) b c < length inv
                                          /\ nth (cell_pos (h_co d) (h_C d) b c) inv 0 < n).
  { induction n as [|n IH]; intros Hn.
    - exists []. split; [reflexivity|]. split; [constructor|]. intros b c. cbn. lia.
    - destruct IH as [wss [E [N M]]]; [lia|].
      destruct (Hus (nth n us 0)) as [size [Hs1 Hs2]]; [apply nth_In; lia|].
      destruct (file_cells_ok d inv n (nth n us 0) (ent n) size Hs1 Hs2 HC) as [ws [Ews [Nws [Mws _]]]].
      exists (wss ++ [ws]). rewrite seq_S, map_app. cbn [map plus].
      assert (SA : forall (X : Type) (l : list (res X)) r a, sequence l = Ok r -> sequence (l ++ [Ok a]) = Ok (r ++ [a])).
      { intros X l. induction l as [|[y|e] l IHl]; intros r a Hr; cbn in *; [injection Hr as <-; reflexivity| |discriminate].
        destruct (sequence l) as [r'|] eqn:El; [|discriminate]. cbn in Hr. injection Hr as <-. rewrite (IHl r' a eq_refl). reflexivity. }
      rewrite Ews. rewrite (SA _ _ _ _ E). split; [reflexivity|].
      rewrite concat_app, map_app. cbn [concat]. rewrite app_nil_r. split.
      + apply NoDup_app'; [exact N|exact Nws|]. intros [b c] H1 H2. apply M in H1. apply Mws in H2. lia.
      + intros b c. rewrite in_app_iff, M, Mws. lia. }
  destruct (G (length us) (le_n _)) as [wss [E [N M]]]. exists wss. split; [exact E|]. split; [exact N|].
  intros b c. rewrite M, Hl. split.
  - intros [H1 [H2 H3]]. split; [|exact H1]. destruct (h_co d); cbn in *; try lia. nia.
  - intros [H1 H2]. split; [exact H2|]. assert (P := cell_pos_lt (h_co d) _ _ b c H1 H2). split; [exact P|]. apply Hi. lia.
Qed.

(** C11: worker split *)
Theorem hdf5_worker_split d nw : (0 < nw)%Z -> (0 <= h_bpe d)%Z ->
  fold_right Z.add 0%Z (map (fun id => h5_num_batches d (Some (Z.of_nat id, nw))) (seq 0 (Z.to_nat nw))) = h_bpe d
  /\ (forall id, 0 <= h5_num_batches d (Some (id, nw)))%Z
  /\ (forall id id', Z.abs (h5_num_batches d (Some (id, nw)) - h5_num_batches d (Some (id', nw))) <= 1)%Z
  /\ h5_num_batches d None = h_bpe d.
Proof.
  intros Hnw Hb. unfold h5_num_batches.
  assert (Hq : (0 <= h_bpe d / nw)%Z) by (apply Z.div_pos; lia).
  assert (Hr := Z.mod_pos_bound (h_bpe d) nw Hnw).
  assert (Hd := Z.div_mod (h_bpe d) nw ltac:(lia)).
  set (q := (h_bpe d / nw)%Z) in *. set (r := (h_bpe d mod nw)%Z) in *. clearbody q r.
  split; [|split; [|split; [|reflexivity]]].
  - assert (G : forall n, (Z.of_nat n <= nw)%Z ->
       fold_right Z.add 0%Z (map (fun id => if (Z.of_nat id <? r)%Z then q + 1 else q)%Z (seq 0 n)) = (q * Z.of_nat n + Z.min r (Z.of_nat n))%Z).
    { induction n; intros Hn; [cbn; lia|]. rewrite seq_S, map_app, fold_right_app. cbn [map fold_right plus].
      assert (FA : forall l a, fold_right Z.add a l = (fold_right Z.add 0%Z l + a)%Z).
      { induction l; intros; cbn; [lia|]. rewrite IHl. lia. }
      rewrite FA, IHn by lia. destruct (Z.ltb_spec (Z.of_nat n) r); lia. }
    rewrite G by lia. rewrite Z2Nat.id by lia. lia.
  - intros id. destruct (_ <? _)%Z; lia.
  - intros id id'. destruct (id <? r)%Z, (id' <? r)%Z; lia.
Qed.

(** An iteration yields that many batches, all of them filled as above *)
Theorem hdf5_iter_yields {A} (zero : A) fs fnames C k bs bpe co nf d worker sel draw ent :
  (forall m, setting fs fnames C k bs bpe co nf d (sel m)) ->
  exists l, h5_iter zero fs d worker sel draw ent = Ok l /\ length l = Z.to_nat (h5_num_batches d worker)
    /\ forall m x, nth_error l m = Some x -> sample_batch zero fs d (sel m) (draw m) (ent m) = Ok x.
Proof.
  intros HS. unfold h5_iter.
  destruct (sequence_map_spec (fun m => sample_batch zero fs d (sel m) (draw m) (ent m)) (seq 0 (Z.to_nat (h5_num_batches d worker)))) as [l [E [L V]]].
  { intros m _. destruct (sample_batch_core zero fs fnames C k bs bpe co nf d (sel m) (draw m) (ent m) (HS m)) as [x [_ [Ex _]]]. eauto. }
  exists l. split; [exact E|]. split; [rewrite L, seq_length; reflexivity|].
  intros m x Hx. destruct (V m x Hx) as [m' [Hm' Ex]].
  assert (m' = m).
  { assert (m < Z.to_nat (h5_num_batches d worker)) by (rewrite <- (seq_length (Z.to_nat (h5_num_batches d worker)) 0); apply nth_error_Some; congruence).
    rewrite nth_error_seq in Hm' by assumption. injection Hm' as <-. reflexivity. }
  subst m'. exact Ex.
Qed.

(** C12: constructor checks *)
Theorem hdf5_create_rejects {A} (fs : nat -> nat -> list A) fnames C k bs bpe co nf :
  co = AOther \/ (Z.of_nat (length fnames) < nf_of fnames nf)%Z ->
  h5_create fs fnames C k bs bpe co nf = Err ValueError.
Proof.
  intros H. unfold h5_create. fold (nf_of fnames nf). destruct co as [[|]| |]; [..|reflexivity];
  (destruct H as [H|H]; [discriminate|]); cbn [bind]; (replace (_ <? _)%Z with true by lia); reflexivity.
Qed.

(** C12: duplicated file names make every batch raise ValueError *)
Theorem hdf5_duplicate_fnames_raise {A} (zero : A) fs fnames C k bs bpe co nf d sel draw ent :
  h5_create fs fnames C k bs bpe co nf = Ok d -> ~ NoDup fnames ->
  sample_batch zero fs d sel draw ent = Err ValueError.
Proof.
  intros Hc Hn. destruct (h5_create_inv _ _ _ _ _ _ _ _ _ Hc) as [-> _].
  unfold sample_batch, sample_fnames. cbn [h_sizes h_fnames].
  destruct (Nat.eqb_spec (length (sizes_of fs fnames [])) (length fnames)) as [E|]; [|reflexivity].
  exfalso. apply Hn, (sizes_length fs), E.
Qed.

(** C12: if every file has at most kernel_size samples (e.g. exactly kernel_size, one admissible window
    each), every batch raises ValueError *)
Theorem hdf5_kernel_sized_files_raise {A} (zero : A) fs fnames C k bs bpe co nf d sel draw ent :
  h5_create fs fnames C k bs bpe co nf = Ok d -> 0 < bs -> 0 < C -> 0 < length sel -> (forall i, In i sel -> i < length fnames) ->
  (forall f, In f fnames -> length (fs f 0) <= k) ->
  sample_batch zero fs d sel draw ent = Err ValueError.
Proof.
  intros Hc Hbs HC Hs Hs' Hf. destruct (h5_create_inv _ _ _ _ _ _ _ _ _ Hc) as [Ed _].
  unfold sample_batch. replace (match h_co d with CoFalse => h_bs d * h_C d | _ => h_bs d end) with (ndraws (mode_of co) bs C) by (rewrite Ed; reflexivity).
  unfold sample_fnames. do 4 (destruct (_ : bool); [reflexivity|]). cbn [bind].
  set (chosen := map _ sel). set (fn := map _ (seq 0 _)). set (u := np_unique fn).
  assert (Hnd : 0 < ndraws (mode_of co) bs C) by (destruct co as [[|]| |]; cbn; nia).
  assert (Hu : forall f, In f u -> In f fn) by (intros f; apply in_np_unique).
  assert (Hn0 : u <> []).
  { intros E. assert (I : In (nth (draw 0 mod length chosen) chosen 0) u).
    { unfold u. rewrite in_np_unique. unfold fn. apply in_map_iff. exists 0. split; [reflexivity|apply in_seq; lia]. }
    rewrite E in I. exact I. }
  set (inv := map _ fn).
  destruct u as [|f us] eqn:Eu; [congruence|]. cbn [file_loop].
  assert (Hin : In f fnames).
  { specialize (Hu f (or_introl eq_refl)). unfold fn in Hu. apply in_map_iff in Hu. destruct Hu as [p [<- _]].
    assert (I : In (nth (draw p mod length chosen) chosen 0) chosen).
    { apply nth_In, Nat.mod_upper_bound. unfold chosen. rewrite map_length. lia. }
    revert I. generalize (nth (draw p mod length chosen) chosen 0). intros g I. apply in_map_iff in I. destruct I as [i [<- Hi]]. rewrite Ed. apply nth_In, Hs', Hi. }
  replace (file_cells d inv 0 f (ent 0)) with (@Err (list (nat * nat * Z)) ValueError); [reflexivity|].
  symmetry. unfold file_cells. rewrite Ed. cbn [h_sizes h_k h_co h_C].
  change (fold_left _ fnames []) with (sizes_of fs fnames []).
  rewrite (sizes_get fs fnames [] f) by (now left).
  assert (Hpos : np_where_eq 0 inv <> []).
  { assert (I : In f fn) by (apply Hu; now left). apply In_nth_error in I. destruct I as [p Hp].
    assert (W : In p (np_where_eq 0 inv)).
    { apply in_where. unfold inv. split; [rewrite map_length; apply nth_error_Some; congruence|].
      apply nth_error_nth. rewrite nth_error_map', Hp. cbn [option_map]. f_equal. fold u. cbn [index_of]. rewrite Nat.eqb_refl. reflexivity. }
    intros E. rewrite E in W. exact W. }
  specialize (Hf f Hin).
  assert (R : forall n e, n <> 0 -> np_randint (Z.of_nat (length (fs f 0)) - Z.of_nat k) n e = Err ValueError).
  { intros n e Hn. unfold np_randint. replace (_ <=? 0)%Z with true by lia. destruct n; [congruence|reflexivity]. }
  destruct (np_where_eq 0 inv) as [|p l]; [congruence|].
  destruct (mode_of co).
  - rewrite R by discriminate. reflexivity.
  - rewrite R by (rewrite np_repeat_length; cbn [length]; nia). reflexivity.
  - rewrite R by (rewrite map_length; discriminate). reflexivity.
Qed.

(** The size is read from the first channel only: a shorter second channel makes some batches raise. *)
Theorem hdf5_short_channel_refuted :
  let fs (f c : nat) := if c =? 0 then [1; 2; 3; 4; 5; 6] else [1; 2] in
  exists d, h5_create fs [7] 2 2 1 1 (ABool true) None = Ok d /\
    sample_batch 0 fs d [0] (fun _ => 0) (fun _ _ => 0%Z) <> Err ValueError /\
    sample_batch 0 fs d [0] (fun _ => 0) (fun _ _ => 3%Z) = Err ValueError.
Proof.
  cbn zeta. eexists. split; [reflexivity|]. split; [|reflexivity]. vm_compute. discriminate.
Qed.

(** Non-vacuity *)
Example hdf5_setting_nonvacuous :
  let fs (f c : nat) := if f =? 3 then map (fun i => 100 * c + i) (seq 0 5) else map (fun i => 1000 + 100 * c + i) (seq 0 4) in
  exists d, setting fs [9; 3; 4] 2 3 4 5 (ABool false) (Some 2%Z) d [1; 2] /\
   exists x, sample_batch 0 fs d [1; 2] (fun p => p) (fun q j => Z.of_nat (q + j)) = Ok x /\ x 0 0 = [0; 1; 2] /\ x 0 1 = [1100; 1101; 1102].
Proof.
  cbn zeta. eexists. split.
  - split; [reflexivity|]. split; [repeat constructor; cbn; intuition discriminate|]. split; [discriminate|]. split; [lia|].
    split; [reflexivity|]. split.
    + intros f [<-|[<-|[<-|[]]]]; cbn; (split; [lia|]); intros; rewrite ?map_length; reflexivity.
    + split; [repeat constructor; cbn; intuition discriminate|]. split; [reflexivity|]. intros i [<-|[<-|[]]]; cbn; lia.
  - eexists. split; [vm_compute; reflexivity|]. split; vm_compute; reflexivity.
Qed.

Lemma dict_get_in f s d : NoDup (map fst d) -> In (f, s) d <-> dict_get f d = Some s.
Proof.
  induction d as [|[g t] d IH]; cbn; [split; [tauto|discriminate]|]. intros N. inversion N as [|? ? N1 N2]; subst.
  destruct (Nat.eqb_spec g f) as [->|Hg].
  - split; [intros [E|H]; [congruence|exfalso; apply N1, in_map_iff; exists (f, s); auto]|intros E; left; congruence].
  - rewrite <- (IH N2). split; [intros [E|H]; [congruence|exact H]|intros H; now right].
Qed.
(** C12: the constructor, case by case: which exception, and otherwise the arguments are kept *)
Theorem hdf5_create_cases {A} (fs : nat -> nat -> list A) fnames C k bs bpe co nf :
  co <> AOther -> (nf_of fnames nf <= Z.of_nat (length fnames))%Z ->
  (* no files: nothing is opened and nothing divided *)
  (fnames = [] -> exists d, h5_create fs fnames C k bs bpe co nf = Ok d) /\
  (* no channels: channels[0] *)
  (fnames <> [] -> C = 0 -> h5_create fs fnames C k bs bpe co nf = Err IndexError) /\
  (* every file is empty: i / 0 *)
  (fnames <> [] -> 0 < C -> (forall f, In f fnames -> fs f 0 = []) -> h5_create fs fnames C k bs bpe co nf = Err ZeroDivisionError) /\
  (0 < C -> (exists f, In f fnames /\ fs f 0 <> []) -> exists d, h5_create fs fnames C k bs bpe co nf = Ok d /\
     h_fnames d = fnames /\ h_C d = C /\ h_k d = k /\ h_bs d = bs /\ h5_len d = bpe /\ h_nf d = nf_of fnames nf /\
     (forall f, In f fnames -> dict_get f (h_sizes d) = Some (length (fs f 0)))).
Proof.
  intros Hco Hnf. assert (exists m, match co with ABool true => Ok CoTrue | ABool false => Ok CoFalse | AStrFiles => Ok CoFiles | AOther => Err ValueError end = Ok m) as [m Em]
    by (destruct co as [[|]| |]; [eexists; reflexivity..|congruence]).
  unfold h5_create. fold (nf_of fnames nf). rewrite Em. cbn [bind]. replace (_ <? _)%Z with false by lia.
  split; [|split; [|split]].
  - intros ->. rewrite andb_false_r. eexists. reflexivity.
  - intros Hn ->. destruct fnames; [congruence|]. reflexivity.
  - intros Hn HC HE. replace (C =? 0) with false by lia. cbn [andb].
    change (fold_left _ fnames []) with (sizes_of fs fnames []).
    destruct (sizes_keys fs fnames [] (NoDup_nil _)) as [N I].
    assert (Z0 : forall l : list (nat * nat), (forall e, In e l -> snd e = 0) -> list_sum (map snd l) = 0).
    { induction l as [|e l IH]; intros H; [reflexivity|]. cbn. rewrite (H e (or_introl eq_refl)). apply IH. intros; apply H; now right. }
    rewrite Z0; [|intros [f n] Hin; assert (In f fnames) by (destruct (proj1 (I f)) as [[]|]; [apply in_map_iff; exists (f, n); auto|assumption]);
      apply dict_get_in in Hin; [|exact N]; rewrite sizes_get in Hin by auto; injection Hin as <-; cbn; rewrite HE by assumption; reflexivity].
    cbn [Nat.eqb andb]. destruct (Nat.eqb_spec (length (sizes_of fs fnames [])) 0) as [E|]; [|reflexivity].
    destruct fnames as [|f l]; [congruence|]. apply length_zero_iff_nil in E. pose proof (sizes_get fs (f :: l) [] f (or_introl (or_introl eq_refl))) as G.
    rewrite E in G. discriminate.
  - intros HC [f [Hf He]]. replace (C =? 0) with false by lia. cbn [andb].
    change (fold_left _ fnames []) with (sizes_of fs fnames []).
    destruct (sizes_keys fs fnames [] (NoDup_nil _)) as [N I].
    assert (Hin : In (f, length (fs f 0)) (sizes_of fs fnames [])) by (apply dict_get_in; [exact N|apply sizes_get; now left]).
    assert (P : forall l : list (nat * nat), In (f, length (fs f 0)) l -> 0 < list_sum (map snd l)).
    { induction l as [|e l IH]; cbn; [tauto|]. intros [->|H]; cbn; [|specialize (IH H); unfold list_sum in IH; lia].
      destruct (fs f 0); [congruence|cbn; lia]. }
    specialize (P _ Hin). replace (list_sum _ =? 0) with false by lia. cbn [andb].
    eexists. split; [reflexivity|]. cbn. do 6 (split; [reflexivity|]). intros g Hg. apply sizes_get. now left.
Qed.
Example hdf5_create_cases_example : let fs := fun (f c : nat) => if f =? 1 then [5; 6] else [] in
  h5_create fs [0] 1 1 1 3 (ABool true) None = Err ZeroDivisionError /\ is_ok (h5_create fs [0; 1] 1 1 1 3 (ABool true) None).
Proof. split; [reflexivity|eexists; reflexivity]. Qed.
