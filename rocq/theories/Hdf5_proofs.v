(** Lemmas about the HDF5 dataset model. *)
From Coq Require FinFun.
From Verif Require Import Base Hdf5_model.

(** ** dict *)
Lemma dict_set_keys f s d : map fst (dict_set f s d) = if existsb (Nat.eqb f) (map fst d) then map fst d else map fst d ++ [f].
Proof.
  induction d as [|[g t] d IH]; [reflexivity|]. cbn. rewrite (Nat.eqb_sym f g). destruct (Nat.eqb_spec g f) as [->|]; [reflexivity|].
  cbn. rewrite IH. destruct (existsb _ _); reflexivity.
Qed.
Lemma dict_get_set f s d g : dict_get g (dict_set f s d) = if f =? g then Some s else dict_get g d.
Proof.
  induction d as [|[h t] d IH]; cbn.
  - reflexivity.
  - destruct (Nat.eqb_spec h f) as [->|]; cbn.
    + destruct (Nat.eqb_spec f g) as [->|]; reflexivity.
    + rewrite IH. destruct (Nat.eqb_spec h g) as [->|]; destruct (Nat.eqb_spec f g); congruence.
Qed.
Lemma existsb_eqb f l : existsb (Nat.eqb f) l = true <-> In f l.
Proof.
  rewrite existsb_exists. split.
  - intros [x [Hx E]]. apply Nat.eqb_eq in E. now subst.
  - intros H. exists f. split; [exact H|apply Nat.eqb_refl].
Qed.

Section Sizes.
Context {A : Type}.
Variable fs : nat -> nat -> list A.
Definition sizes_of (l : list nat) d0 := fold_left (fun d f => dict_set f (length (fs f 0)) d) l d0.

Lemma sizes_keys l : forall d0, NoDup (map fst d0) ->
  NoDup (map fst (sizes_of l d0)) /\ forall f, In f (map fst (sizes_of l d0)) <-> In f (map fst d0) \/ In f l.
Proof.
  induction l as [|f l IH]; intros d0 H; [cbn; tauto|].
  cbn [sizes_of fold_left]. fold (sizes_of l (dict_set f (length (fs f 0)) d0)).
  destruct (IH (dict_set f (length (fs f 0)) d0)) as [N I].
  { rewrite dict_set_keys. destruct (existsb _ _) eqn:E; [exact H|].
    assert (~ In f (map fst d0)) by (rewrite <- existsb_eqb; congruence).
    revert H H0. generalize (map fst d0). intros l0 H1 H2. induction l0; cbn; [constructor; [tauto|constructor]|].
    inversion H1; subst. constructor; [rewrite in_app_iff; cbn in *; intuition congruence|]. apply IHl0; [assumption|cbn in H2; tauto]. }
  split; [exact N|]. intros g. rewrite I, dict_set_keys. cbn. destruct (existsb _ _) eqn:E.
  - apply existsb_eqb in E. split; [tauto|]. intros [?|[->|?]]; auto.
  - rewrite in_app_iff. cbn. tauto.
Qed.

Lemma sizes_get l : forall d0 f, In f l \/ dict_get f d0 = Some (length (fs f 0)) ->
   dict_get f (sizes_of l d0) = Some (length (fs f 0)).
Proof.
  induction l as [|g l IH]; intros d0 f H; cbn.
  - destruct H as [[]|H]; exact H.
  - apply IH. destruct H as [[->|H]|H].
    + right. rewrite dict_get_set, Nat.eqb_refl. reflexivity.
    + left; exact H.
    + right. rewrite dict_get_set. destruct (Nat.eqb_spec g f) as [->|]; [reflexivity|exact H].
Qed.

Lemma sizes_length l : length (sizes_of l []) = length l <-> NoDup l.
Proof.
  destruct (sizes_keys l [] (NoDup_nil _)) as [N I]. rewrite <- (map_length fst). split; intros H.
  - apply NoDup_incl_NoDup with (l := map fst (sizes_of l [])); [exact N|lia|].
    intros f Hf. apply I in Hf. destruct Hf as [[]|]; assumption.
  - apply Nat.le_antisymm; apply NoDup_incl_length; try assumption; intros f Hf; [apply I in Hf; destruct Hf as [[]|]; assumption|apply I; now right].
Qed.
Lemma sizes_filter l : (forall f, In f l -> length (fs f 0) <> 0) ->
  length (filter (fun e => negb (snd e =? 0)) (sizes_of l [])) = length (sizes_of l []).
Proof.
  intros H. assert (forall d0, (forall e, In e d0 -> snd e <> 0) -> forall e, In e (sizes_of l d0) -> snd e <> 0) as G.
  { induction l as [|f l IH]; intros d0 H0; [exact H0|]. cbn. apply IH; [intros; apply H; now right|].
    assert (L : length (fs f 0) <> 0) by (apply H; now left).
    intros e He. clear IH H. induction d0 as [|[g t] d0 IHd]; cbn in He.
    - destruct He as [<-|[]]. exact L.
    - destruct (g =? f); cbn in He; destruct He as [<-|He]; cbn; auto.
      + apply H0. now right.
      + apply (H0 (g, t)); now left.
      + apply IHd; [intros; apply H0; now right|exact He]. }
  specialize (G [] ltac:(intros ? [])).
  induction (sizes_of l []) as [|e d IH]; [reflexivity|]. cbn.
  destruct (Nat.eqb_spec (snd e) 0) as [E|]; [exfalso; apply (G e); [now left|exact E]|]. cbn. rewrite IH; [reflexivity|].
  intros; apply G; now right.
Qed.
End Sizes.

(** ** np.unique *)
Lemma in_uinsert x y l : In y (uinsert x l) <-> y = x \/ In y l.
Proof.
  induction l as [|z l IH]; cbn; [intuition congruence|].
  destruct (Nat.eqb_spec x z) as [->|]; cbn; [intuition congruence|].
  destruct (x <? z); cbn; [intuition congruence|]. rewrite IH. tauto.
Qed.
Lemma in_np_unique x l : In x (np_unique l) <-> In x l.
Proof. induction l; cbn; [tauto|]. rewrite in_uinsert, IHl. intuition congruence. Qed.

Lemma index_of_lt x l : In x l -> index_of x l < length l.
Proof. induction l; cbn; [tauto|]. intros [->|H]; [rewrite Nat.eqb_refl; lia|]. destruct (x =? a); [lia|]. specialize (IHl H). lia. Qed.
Lemma nth_index_of x l : In x l -> nth (index_of x l) l 0 = x.
Proof. induction l; cbn; [tauto|]. intros H. destruct (Nat.eqb_spec x a) as [->|]; [reflexivity|]. apply IHl. destruct H; [congruence|assumption]. Qed.

(** ** lists *)
Lemma combine_app {X Y} (a a' : list X) (b b' : list Y) : length a = length b ->
  combine (a ++ a') (b ++ b') = combine a b ++ combine a' b'.
Proof. revert b; induction a; intros [|y b]; cbn; try discriminate; [reflexivity|]. intros H. rewrite IHa by lia. reflexivity. Qed.
Lemma np_repeat_length {X} n (l : list X) : length (np_repeat n l) = length l * n.
Proof. unfold np_repeat. induction l; cbn; [reflexivity|]. rewrite app_length, repeat_length, IHl. reflexivity. Qed.
Lemma np_tile_length {X} n (l : list X) : length (np_tile n l) = n * length l.
Proof. unfold np_tile. induction n; cbn; [reflexivity|]. rewrite app_length, IHn. reflexivity. Qed.
Lemma combine_repeat_l {X Y} (x : X) n (l : list Y) : length l = n -> combine (repeat x n) l = map (pair x) l.
Proof. revert n; induction l; intros [|n]; cbn; try discriminate; [reflexivity|]. intros H. rewrite IHl by lia. reflexivity. Qed.
Lemma combine_repeat_r {X Y} (x : X) n (l : list Y) : length l = n -> combine l (repeat x n) = map (fun y => (y, x)) l.
Proof. revert n; induction l; intros [|n]; cbn; try discriminate; [reflexivity|]. intros H. rewrite IHl by lia. reflexivity. Qed.

Lemma combine_repeat_tile C (l : list nat) :
  combine (np_repeat C l) (np_tile (length l) (seq 0 C)) = flat_map (fun b => map (pair b) (seq 0 C)) l.
Proof.
  induction l as [|b l IH]; [reflexivity|]. cbn [np_repeat flat_map np_tile length repeat concat].
  rewrite combine_app by (rewrite repeat_length, seq_length; reflexivity).
  rewrite combine_repeat_l by apply seq_length. f_equal. exact IH.
Qed.
Lemma combine_cells_starts C (l : list nat) (m : list Z) : length l = length m ->
  combine (flat_map (fun b => map (pair b) (seq 0 C)) l) (np_repeat C m)
  = flat_map (fun bs => map (fun c => (fst bs, c, snd bs)) (seq 0 C)) (combine l m).
Proof.
  revert m; induction l as [|b l IH]; intros [|s m]; cbn [length]; try discriminate; [reflexivity|]. intros H.
  cbn [flat_map np_repeat combine].
  rewrite combine_app by (rewrite map_length, repeat_length, seq_length; reflexivity).
  rewrite combine_repeat_r by (rewrite map_length, seq_length; reflexivity). rewrite map_map. f_equal. apply IH. lia.
Qed.
Lemma map_fst_combine {X Y} (a : list X) (b : list Y) : length a = length b -> map fst (combine a b) = a.
Proof. revert b; induction a; intros [|y b]; cbn; try discriminate; [reflexivity|]. intros H. rewrite IHa by lia. reflexivity. Qed.
Lemma NoDup_app' {X} (a b : list X) : NoDup a -> NoDup b -> (forall x, In x a -> In x b -> False) -> NoDup (a ++ b).
Proof.
  induction a as [|x a IH]; intros Ha Hb H; [exact Hb|]. inversion Ha; subst. cbn. constructor.
  - rewrite in_app_iff. intros [?|?]; [tauto|]. apply (H x); [now left|assumption].
  - apply IH; try assumption. intros y Hy1 Hy2. apply (H y); [now right|assumption].
Qed.
Lemma NoDup_cells C (l : list nat) : NoDup l -> NoDup (flat_map (fun b => map (pair b) (seq 0 C)) l).
Proof.
  induction 1 as [|b l Hb Hl IH]; [constructor|]. cbn. apply NoDup_app'; [|exact IH|].
  - apply FinFun.Injective_map_NoDup; [intros x y E; congruence|apply seq_NoDup].
  - intros [b' c] H1 H2. apply in_map_iff in H1. destruct H1 as [? [E _]]. apply in_flat_map in H2.
    destruct H2 as [b'' [H2 H3]]. apply in_map_iff in H3. destruct H3 as [? [E' _]]. congruence.
Qed.
Lemma in_where i inv p : In p (np_where_eq i inv) <-> p < length inv /\ nth p inv 0 = i.
Proof. unfold np_where_eq. rewrite filter_In, in_seq, Nat.eqb_eq. intuition lia. Qed.
Lemma NoDup_where i inv : NoDup (np_where_eq i inv).
Proof. apply NoDup_filter, seq_NoDup. Qed.
Lemma in_combine_l' {X Y} (a : list X) (b : list Y) x : length a = length b -> In x a -> exists y, In (x, y) (combine a b).
Proof.
  revert b; induction a; intros [|y b]; cbn; try discriminate; [tauto|]. intros H [->|Hx]; [eauto|].
  destruct (IHa b ltac:(lia) Hx) as [y' ?]. eauto.
Qed.

(** ** cells of one file *)
(** position, in the list of drawn file names, of the draw that serves cell (b, c) *)
Definition cell_pos (co : comode) (C b c : nat) : nat := match co with CoFalse => b * C + c | _ => b end.

Lemma file_cells_ok d inv i f ent size :
  dict_get f (h_sizes d) = Some size -> h_k d < size -> 0 < h_C d ->
  exists ws, file_cells d inv i f ent = Ok ws
    /\ NoDup (map fst ws)
    /\ (forall b c, In (b, c) (map fst ws) <-> c < h_C d /\ cell_pos (h_co d) (h_C d) b c < length inv
                                          /\ nth (cell_pos (h_co d) (h_C d) b c) inv 0 = i)
    /\ (forall w s, In (w, s) ws -> exists j, s = (ent j mod (Z.of_nat size - Z.of_nat (h_k d)))%Z)
    /\ (h_co d = CoTrue -> forall b c c' s, In (b, c, s) ws -> c' < h_C d -> In (b, c', s) ws).
Proof.
  intros Hd Hk HC. unfold file_cells. rewrite Hd.
  set (ind := np_where_eq i inv). set (mx := (Z.of_nat size - Z.of_nat (h_k d))%Z).
  assert (Hr : forall n, np_randint mx n ent = Ok (map (fun j => (ent j mod mx)%Z) (seq 0 n))).
  { intros n. unfold np_randint. replace (mx <=? 0)%Z with false by (subst mx; lia). reflexivity. }
  set (C := h_C d) in *.
  assert (HR : forall n s, In s (map (fun j => (ent j mod mx)%Z) (seq 0 n)) -> exists j, s = (ent j mod mx)%Z).
  { intros n s Hs. apply in_map_iff in Hs. destruct Hs as [j [E _]]. eauto. }
  assert (Cells : forall b c, In (b, c) (flat_map (fun b => map (pair b) (seq 0 C)) ind) <-> c < C /\ b < length inv /\ nth b inv 0 = i).
  { intros b c. rewrite in_flat_map. split.
    - intros [b' [H1 H2]]. apply in_map_iff in H2. destruct H2 as [c' [E H2]]. injection E as -> ->.
      apply in_where in H1. apply in_seq in H2. intuition lia.
    - intros [H1 H2]. exists b. split; [apply in_where, H2|]. apply in_map, in_seq. lia. }
  destruct (h_co d) eqn:Eco; cbn [bind cell_pos].
  - (* True *)
    rewrite Hr. cbn [bind]. unfold zip3. rewrite !np_repeat_length, np_tile_length, map_length, !seq_length, !Nat.eqb_refl. cbn [andb].
    rewrite combine_repeat_tile, combine_cells_starts by (rewrite map_length, seq_length; reflexivity).
    set (m := map _ _). assert (Lm : length ind = length m) by (unfold m; rewrite map_length, seq_length; reflexivity).
    eexists; split; [reflexivity|].
    assert (MF : map fst (flat_map (fun bs => map (fun c => (fst bs, c, snd bs)) (seq 0 C)) (combine ind m)) = flat_map (fun b => map (pair b) (seq 0 C)) ind).
    { rewrite <- combine_cells_starts by exact Lm. apply map_fst_combine. rewrite np_repeat_length, <- Lm.
      clear. induction ind; [reflexivity|]. cbn. rewrite app_length, map_length, seq_length, IHind. reflexivity. }
    rewrite MF. split; [apply NoDup_cells, NoDup_where|]. split; [exact Cells|]. split.
    + intros [b c] s Hs. apply in_flat_map in Hs. destruct Hs as [[b' s'] [H1 H2]]. apply in_map_iff in H2.
      destruct H2 as [c' [E _]]. cbn in E. injection E as -> -> ->. apply in_combine_r in H1. eapply HR, H1.
    + intros _ b c c' s Hs Hc'. apply in_flat_map in Hs. destruct Hs as [[b' s'] [H1 H2]]. apply in_map_iff in H2.
      destruct H2 as [c'' [E _]]. cbn in E. injection E as -> -> ->. apply in_flat_map. exists (b, s). split; [exact H1|].
      apply in_map_iff. exists c'. split; [reflexivity|apply in_seq; lia].
  - (* files *)
    rewrite Hr. cbn [bind]. unfold zip3. rewrite !np_repeat_length, np_tile_length, map_length, !seq_length, !Nat.eqb_refl. cbn [andb].
    rewrite combine_repeat_tile. eexists; split; [reflexivity|]. rewrite map_fst_combine.
    2:{ rewrite map_length, seq_length. clear. induction ind; [reflexivity|]. cbn. rewrite app_length, map_length, seq_length, IHind. reflexivity. }
    split; [apply NoDup_cells, NoDup_where|]. split; [exact Cells|]. split; [|discriminate].
    intros w s Hs. apply in_combine_r in Hs. eapply HR, Hs.
  - (* False *)
    rewrite map_length, Hr. cbn [bind]. unfold zip3. rewrite !map_length, seq_length, !Nat.eqb_refl. cbn [andb].
    assert (EC : combine (map (fun p => p / C) ind) (map (fun p => p mod C) ind) = map (fun p => (p / C, p mod C)) ind).
    { clear. induction ind; cbn; [reflexivity|]. rewrite IHind. reflexivity. }
    rewrite EC. eexists; split; [reflexivity|]. rewrite map_fst_combine by (rewrite !map_length, seq_length; reflexivity).
    split; [|split; [|split; [|discriminate]]].
    + assert (N : NoDup ind) by apply NoDup_where. clear -N HC. induction N as [|p l Hp N IH]; [constructor|]. cbn. constructor; [|exact IH].
      intros H. apply in_map_iff in H. destruct H as [q [E Hq]]. injection E as E1 E2. apply Hp.
      rewrite (Nat.div_mod p C), <- E1, <- E2, <- Nat.div_mod by lia. exact Hq.
    + intros b c. rewrite in_map_iff. split.
      * intros [p [E Hp]]. injection E as <- <-. apply in_where in Hp. split; [apply Nat.mod_upper_bound; lia|].
        rewrite (Nat.mul_comm (p / C)), <- Nat.div_mod by lia. exact Hp.
      * intros [Hc Hp]. exists (b * C + c). split; [|apply in_where, Hp].
        f_equal; [rewrite Nat.div_add_l, Nat.div_small by lia; lia|]. rewrite Nat.add_comm, Nat.mod_add by lia. apply Nat.mod_small, Hc.
    + intros w s Hs. apply in_combine_r in Hs. eapply HR, Hs.
Qed.

(** ** writing *)
Section Write.
Context {A : Type}.
Variable fs : nat -> nat -> list A.

Definition window (k f c : nat) (s : nat) : list A := firstn k (skipn s (fs f c)).

Lemma row_ok k f c s size : length (fs f c) = size -> (0 <= s)%Z -> (s + Z.of_nat k <= Z.of_nat size)%Z ->
  pyslice (Some s) (Some (s + Z.of_nat k)%Z) (fs f c) = window k f c (Z.to_nat s) /\ length (window k f c (Z.to_nat s)) = k.
Proof.
  intros Hl H0 Hs.
  assert (E : pyslice (Some s) (Some (s + Z.of_nat k)%Z) (fs f c) = window k f c (Z.to_nat s)).
  { unfold pyslice, window, slice_lo, slice_hi, py_clamp. rewrite Hl.
    destruct (Z.ltb_spec s 0); [lia|]. destruct (Z.ltb_spec (s + Z.of_nat k) 0); [lia|].
    f_equal; [lia|]. f_equal; lia. }
  split; [exact E|]. unfold window. rewrite firstn_length, skipn_length. lia.
Qed.

Lemma write_cells_ok k f (ws : list (nat * nat * Z)) : forall x,
  (forall b c s, In (b, c, s) ws -> (0 <= s)%Z /\ (s + Z.of_nat k <= Z.of_nat (length (fs f c)))%Z) ->
  NoDup (map fst ws) ->
  exists x', write_cells fs k f ws x = Ok x'
    /\ (forall b c s, In (b, c, s) ws -> x' b c = window k f c (Z.to_nat s))
    /\ (forall b c, ~ In (b, c) (map fst ws) -> x' b c = x b c).
Proof.
  induction ws as [|[[b c] s] ws IH]; intros x Hw Hn.
  - exists x. split; [reflexivity|]. split; [intros ? ? ? []|reflexivity].
  - cbn [map fst] in Hn. inversion Hn as [|? ? Hni Hn']; subst.
    destruct (Hw b c s (or_introl eq_refl)) as [H0 H1].
    destruct (row_ok k f c s _ eq_refl H0 H1) as [Er Lr].
    destruct (IH (upd x b c (window k f c (Z.to_nat s)))) as [x' [E [V U]]]; [intros ? ? ? ?; eapply Hw; right; eassumption|exact Hn'|].
    exists x'. cbn [write_cells]. unfold write_cell. rewrite Er, Lr, Nat.eqb_refl. cbn [bind]. split; [exact E|]. split.
    + intros b' c' s' [Eq|Hin]; [|apply V, Hin]. injection Eq as <- <- <-. rewrite U by exact Hni.
      unfold upd. rewrite !Nat.eqb_refl. reflexivity.
    + intros b' c' Hn2. cbn in Hn2. rewrite U by tauto. unfold upd.
      destruct (Nat.eqb_spec b' b), (Nat.eqb_spec c' c); cbn; try reflexivity. subst. tauto.
Qed.

(** the loop over the files *)
Lemma file_loop_ok d inv ent (Hk : forall f size, dict_get f (h_sizes d) = Some size -> h_k d < size)
   (Hlen : forall f size c, dict_get f (h_sizes d) = Some size -> c < h_C d -> length (fs f c) = size) (HC : 0 < h_C d) :
  forall us i x,
  (forall f, In f us -> exists size, dict_get f (h_sizes d) = Some size) ->
  exists x', file_loop fs d inv ent i us x = Ok x'
   /\ (forall b c, c < h_C d -> cell_pos (h_co d) (h_C d) b c < length inv ->
        let q := nth (cell_pos (h_co d) (h_C d) b c) inv 0 in
        (i <= q < i + length us ->
          let f := nth (q - i) us 0 in
          exists j s, s = Z.to_nat (ent q j mod (Z.of_nat (length (fs f 0)) - Z.of_nat (h_k d)))
            /\ x' b c = window (h_k d) f c s
            /\ (h_co d = CoTrue -> forall c', c' < h_C d -> x' b c' = window (h_k d) f c' s))
        /\ (~ i <= q < i + length us -> x' b c = x b c)).
Proof.
  induction us as [|f us IH]; intros i x Hus.
  - exists x. split; [reflexivity|]. intros b c _ _. cbn. split; [lia|reflexivity].
  - destruct (Hus f (or_introl eq_refl)) as [size Hf].
    destruct (file_cells_ok d inv i f (ent i) size Hf (Hk _ _ Hf) HC) as [ws [Ews [Nws [Mws [Sws Tws]]]]].
    assert (HkS := Hk _ _ Hf).
    assert (Hws : forall b c s, In (b, c, s) ws -> c < h_C d).
    { intros b c s Hin. apply (Mws b c). apply in_map_iff. exists (b, c, s). auto. }
    destruct (write_cells_ok (h_k d) f ws x) as [x1 [E1 [V1 U1]]]; [|exact Nws|].
    { intros b c s Hin. destruct (Sws _ _ Hin) as [j ->].
      rewrite (Hlen f size c Hf (Hws _ _ _ Hin)).
      assert (B := Z.mod_pos_bound (ent i j) (Z.of_nat size - Z.of_nat (h_k d)) ltac:(lia)). lia. }
    destruct (IH (S i) x1) as [x' [E' V']]; [intros; apply Hus; now right|].
    exists x'. cbn [file_loop]. rewrite Ews. cbn [bind]. rewrite E1. cbn [bind]. split; [exact E'|].
    intros b c Hc Hp. cbn zeta. destruct (V' b c Hc Hp) as [Va Vb]. cbn [length].
    set (q := nth (cell_pos (h_co d) (h_C d) b c) inv 0) in *.
    destruct (Nat.eq_dec q i) as [Eq|Nq].
    + split; [|lia]. intros _. rewrite Eq, Nat.sub_diag. cbn [nth].
      assert (Hin : In (b, c) (map fst ws)) by (apply Mws; auto).
      apply in_map_iff in Hin. destruct Hin as [[[b0 c0] s] [E0 Hin]]. cbn in E0. injection E0 as -> ->.
      destruct (Sws _ _ Hin) as [j Ej]. exists j, (Z.to_nat s).
      rewrite (Hlen f size 0 Hf HC). split; [congruence|].
      assert (K : forall c', c' < h_C d -> In (b, c', s) ws -> x' b c' = window (h_k d) f c' (Z.to_nat s)).
      { intros c' Hc' Hin'. rewrite <- (V1 b c' s Hin').
        assert (Hm : In (b, c') (map fst ws)) by (apply in_map_iff; exists (b, c', s); auto).
        apply Mws in Hm. destruct Hm as [_ [Hm1 Hm2]].
        apply (proj2 (V' b c' Hc' Hm1)). rewrite Hm2. lia. }
      split; [apply K; assumption|]. intros HT c' Hc'. apply K; [exact Hc'|]. apply (Tws HT b c c' s Hin Hc').
    + split.
      * intros Hq. replace (q - i) with (S (q - S i)) by lia. cbn [nth]. apply Va. lia.
      * intros Hq. rewrite Vb by lia. apply U1. rewrite Mws. fold q. tauto.
Qed.
End Write.
