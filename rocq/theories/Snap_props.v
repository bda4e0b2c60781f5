(** C13-C14: the Snapshotter over any history of updates. *)
From Verif Require Import Base Tensor Slicing_model Slicing_proofs Slicing_props Streaming_model.
Local Open Scope nat_scope.

(** ** Specification *)
(** the samples of channel c of a (channel, time) tensor *)
Definition chan {A} (c : nat) (u : tensor A) : list A := map (fun t => elt u [c; t]) (seq 0 (last (shape u) 0)).
(** the stream of channel c: zeros(state_size) followed by all the updates *)
Definition stream {A} (zero : A) (state_size : nat) (c : nat) (us : list (tensor A)) : list A :=
  repeat zero state_size ++ flat_map (chan c) us.
(** first channel and number of channels of each returned group *)
Fixpoint bounds_from (o : nat) (sizes : list nat) : list (nat * nat) :=
  match sizes with [] => [] | n :: l => (o, n) :: bounds_from (o + n) l end.
Definition groups (C : nat) (cps : option (list nat)) : list (nat * nat) :=
  match cps with Some l => bounds_from 0 l | None => [(0, C)] end.

(** [outs] (one tensor per channel group) holds n snapshots: snapshot w of group (o, m), channel c,
    is the [size] samples of stream [strm (o + c)] starting at (first + w) * stride *)
Definition snapshots_of {A} (strm : nat -> list A) (C size stride : nat) cps (first n : nat) (outs : list (tensor A)) : Prop :=
  length outs = length (groups C cps) /\
  forall g o m, nth_error (groups C cps) g = Some (o, m) ->
    exists y, nth_error outs g = Some y /\ shape y = [n; m; size] /\
    forall w c j, w < n -> c < m -> j < size ->
      exists v, get y [w; c; j] = Some v /\ nth_error (strm (o + c)) ((first + w) * stride + j) = Some v.
(** [st] holds the last [state_size] samples of the streams *)
Definition state_of {A} (strm : nat -> list A) (C S : nat) (st : tensor A) : Prop :=
  shape st = [C; S] /\
  forall c, c < C -> chan c st = skipn (length (strm c) - S) (strm c).

(** ** Lemmas *)
Lemma chan_nth {A} c (u : tensor A) C L t : shape u = [C; L] -> t < L -> nth_error (chan c u) t = Some (elt u [c; t]).
Proof. intros Hs Ht. unfold chan. rewrite Hs. cbn [last]. rewrite nth_error_map', nth_error_seq by exact Ht. reflexivity. Qed.
Lemma chan_length {A} c (u : tensor A) C L : shape u = [C; L] -> length (chan c u) = L.
Proof. intros Hs. unfold chan. rewrite map_length, seq_length, Hs. reflexivity. Qed.

Lemma split1_from_nth {A} (x : tensor A) b c0 t : shape x = [b; c0; t] -> forall sizes off,
  length (split1_from off sizes x) = length (bounds_from off sizes) /\
  forall g o m, nth_error (bounds_from off sizes) g = Some (o, m) ->
    exists y, nth_error (split1_from off sizes x) g = Some y /\ shape y = [b; m; t] /\
      (forall w c j, elt y [w; c; j] = elt x [w; o + c; j]) /\ off <= o /\ o + m <= off + list_sum sizes.
Proof.
  intros Hs sizes. induction sizes as [|n l IH]; intros off; cbn [split1_from bounds_from length].
  - split; [reflexivity|]. intros [|g]; discriminate.
  - destruct (IH (off + n)) as [L V]. split; [congruence|]. intros [|g] o m Hg.
    + cbn in Hg. injection Hg as <- <-. eexists. split; [reflexivity|]. rewrite Hs. cbn [shape elt list_sum fold_right].
      split; [reflexivity|]. split; [reflexivity|]. lia.
    + cbn in Hg. destruct (V g o m Hg) as [y [H1 [H2 [H3 H4]]]]. exists y. cbn. split; [exact H1|]. split; [exact H2|]. split; [exact H3|].
      fold (list_sum l) in *. lia.
Qed.

Section Snap.
Context {A : Type} (zero : A).
Variables (C size stride batch : nat) (cps : option (list nat)) (s : snap).
Hypothesis Hc : snap_create C size stride batch cps = Ok s.
Hypothesis HC : 0 < C.
Hypothesis Hst : 0 < stride.

Lemma snap_create_inv : stride < size /\ s = {| sn_channels := C; sn_size := size; sn_stride := stride; sn_state := size - stride; sn_batch := batch; sn_cps := cps |}
  /\ match cps with Some l => list_sum l = C | None => True end.
Proof using Hc.
  unfold snap_create in Hc. destruct (Nat.leb_spec size stride); [discriminate|].
  destruct cps as [l|].
  - destruct (Nat.eqb_spec (list_sum l) C); [|discriminate]. injection Hc as <-. auto.
  - injection Hc as <-. auto.
Qed.

(** the update has n whole strides; batch_size 1 takes exactly one stride *)
Definition good_update (n : nat) (u : tensor A) : Prop :=
  shape u = [C; n * stride] /\ 0 < n /\ (batch <= 1 -> n = 1).

Lemma snap_forward_ok n u st : shape st = [C; size - stride] -> good_update n u ->
  exists outs st', snap_forward zero s u (Some st) = Ok (outs, st')
    /\ snapshots_of (fun c => chan c st ++ chan c u) C size stride cps 0 n outs
    /\ state_of (fun c => chan c st ++ chan c u) C (size - stride) st'.
Proof using Hc HC Hst.
  intros Hs [Hu [Hn Hb]]. destruct snap_create_inv as [Hlt [Es Hsum]].
  unfold snap_forward, cat_last2. rewrite Hs, Hu, Nat.eqb_refl. cbn [bind].
  set (x := mk [C; _] _).
  assert (Hx : forall c t, c < C -> t < size - stride + n * stride ->
     nth_error (chan c st ++ chan c u) t = Some (elt x [c; t])).
  { intros c t Hcc Ht. unfold x. cbn [elt]. destruct (Nat.ltb_spec t (size - stride)) as [H|H].
    - rewrite nth_error_app1 by (rewrite (chan_length c st _ _ Hs); lia). apply (chan_nth c st _ _ t Hs H).
    - rewrite nth_error_app2 by (rewrite (chan_length c st _ _ Hs); lia). rewrite (chan_length c st _ _ Hs).
      apply (chan_nth c u _ _ _ Hu). lia. }
  assert (Hlen : forall c, length (chan c st ++ chan c u) = size - stride + n * stride).
  { intros c. rewrite app_length, (chan_length c st _ _ Hs), (chan_length c u _ _ Hu). reflexivity. }
  rewrite Es. cbn [sn_batch sn_size sn_stride sn_cps sn_state sn_channels].
  assert (Y : exists y, (if 1 <? batch then let* (y, _) := unfold_windows zero x (Z.of_nat size) (Z.of_nat stride) true in Ok y else Ok (unsqueeze0 x)) = Ok y
     /\ shape y = [n; C; size] /\ forall w c j, w < n -> c < C -> j < size -> elt y [w; c; j] = elt x [c; w * stride + j]).
  { destruct (Nat.ltb_spec 1 batch) as [H1|H1].
    - destruct (unfold_windows_correct zero x [C] (size - stride + n * stride) size stride true) as [y [tl [E [Sy [V _]]]]];
        [reflexivity|cbn; lia|repeat constructor; exact HC|lia|exact Hst|nia|].
      rewrite E. cbn [bind]. exists y. split; [reflexivity|].
      assert (Enw : (size - stride + n * stride - size) / stride + 1 = n).
      { replace (size - stride + n * stride - size) with ((n - 1) * stride) by nia. rewrite Nat.div_mul by lia. lia. }
      rewrite Enw in *. split; [exact Sy|]. intros w c j Hw Hcc Hj.
      specialize (V w [c] j Hw ltac:(cbn; lia) Hj). cbn [app] in V.
      rewrite get_inb in V by (rewrite Sy; cbn; lia).
      rewrite get_inb in V by (cbn; nia). congruence.
    - specialize (Hb H1). subst n. exists (unsqueeze0 x). split; [reflexivity|]. unfold unsqueeze0. cbn [shape elt tl x].
      split; [do 2 f_equal; f_equal; lia|]. intros w c j Hw Hcc Hj. replace w with 0 by lia. reflexivity. }
  destruct Y as [y [-> [Sy Vy]]]. cbn [bind].
  assert (G : exists outs, match cps with
      | Some sizes => match nth_error (shape y) 1 with
         | Some c => if negb (c =? C) then Err ValueError else split1 sizes y
         | None => Err IndexError end
      | None => Ok [y] end = Ok outs /\ length outs = length (groups C cps) /\
      forall g o m, nth_error (groups C cps) g = Some (o, m) -> exists z, nth_error outs g = Some z /\ shape z = [n; m; size] /\
       o + m <= C /\ forall w c j, elt z [w; c; j] = elt y [w; o + c; j]).
  { destruct cps as [l|].
    - rewrite Sy. cbn [nth_error]. rewrite Nat.eqb_refl. cbn [negb]. unfold split1. rewrite Sy, Hsum, Nat.eqb_refl.
      eexists; split; [reflexivity|]. destruct (split1_from_nth y n C size Sy l 0) as [L V]. split; [exact L|].
      intros g o m Hg. destruct (V g o m Hg) as [z [H1 [H2 [H3 H4]]]]. exists z. rewrite Hsum in H4. repeat split; try assumption. lia.
    - eexists; split; [reflexivity|]. split; [reflexivity|]. intros [|[|g]] o m Hg; cbn in Hg; try discriminate.
      injection Hg as <- <-. exists y. repeat split; auto. }
  destruct G as [outs [-> [L V]]]. cbn [bind]. eexists; eexists. split; [reflexivity|]. split.
  - split; [exact L|]. intros g o m Hg. destruct (V g o m Hg) as [z [H1 [H2 [H3 H4]]]]. exists z. split; [exact H1|]. split; [exact H2|].
    intros w c j Hw Hcc Hj. exists (elt z [w; c; j]). split; [apply get_inb; rewrite H2; cbn; lia|].
    rewrite H4, Vy by lia. rewrite Hx by nia. cbn [plus]. reflexivity.
  - assert (Lo : slice_lo (Z.of_nat (size - stride + n * stride)) (Some (- Z.of_nat (size - stride)))%Z = Z.of_nat (n * stride)).
    { unfold slice_lo, py_clamp. destruct (Z.ltb_spec (- Z.of_nat (size - stride)) 0); lia. }
    assert (SH : shape (slice_last (Some (- Z.of_nat (size - stride))%Z) None x) = [C; size - stride]).
    { unfold slice_last. cbn [shape x last removelast app]. rewrite Lo. unfold slice_hi. do 2 f_equal. lia. }
    split; [exact SH|]. intros c Hcc. apply list_eq_nth_error. intros t. rewrite nth_error_skipn, Hlen.
    destruct (Nat.lt_ge_cases t (size - stride)) as [Ht|Ht].
    + rewrite (chan_nth c _ _ _ t SH Ht). rewrite Hx by lia. unfold slice_last. cbn [elt last removelast app shape]. 
      change (last (shape x) 0) with (size - stride + n * stride). rewrite Lo. do 4 f_equal. lia.
    + rewrite (proj2 (nth_error_None _ _)) by (rewrite (chan_length c _ _ _ SH); lia). symmetry. apply nth_error_None. rewrite Hlen. lia.
Qed.

Lemma flat_chan_skip (l : list A) (r : list A) k t : k <= length l -> nth_error (skipn k l ++ r) t = nth_error (l ++ r) (k + t).
Proof. intros H. rewrite <- nth_error_skipn, skipn_app. replace (k - length l) with 0 by lia. reflexivity. Qed.

Lemma snap_run_from us : forall ns st, shape st = [C; size - stride] -> Forall2 good_update ns us ->
  exists outs st', snap_run zero s us (Some st) = Ok (outs, Some st') /\ length outs = length us
    /\ (forall i n o, nth_error ns i = Some n -> nth_error outs i = Some o ->
         snapshots_of (fun c => chan c st ++ flat_map (chan c) us) C size stride cps (list_sum (firstn i ns)) n o)
    /\ state_of (fun c => chan c st ++ flat_map (chan c) us) C (size - stride) st'.
Proof using Hc HC Hst.
  induction us as [|u us IH]; intros ns st Hs HF.
  - inversion HF; subst. exists [], st. split; [reflexivity|]. split; [reflexivity|]. split; [intros [|i]; discriminate|].
    split; [exact Hs|]. intros c Hcc. cbn [flat_map]. rewrite app_nil_r, (chan_length c st _ _ Hs), Nat.sub_diag. reflexivity.
  - inversion HF as [|n ? ns' ? Hu HF']; subst.
    destruct (snap_forward_ok n u st Hs Hu) as [o1 [st1 [E1 [W1 S1]]]].
    destruct (IH ns' st1 (proj1 S1) HF') as [os [st' [E' [L' [W' S']]]]].
    destruct snap_create_inv as [Hlt _]. destruct Hu as [Hu [Hn _]].
    assert (Hlen : forall c, length (chan c st ++ chan c u) = size - stride + n * stride).
    { intros c. rewrite app_length, (chan_length c st _ _ Hs), (chan_length c u _ _ Hu). reflexivity. }
    assert (K : forall c t, c < C -> nth_error (chan c st1 ++ flat_map (chan c) us) t = nth_error (chan c st ++ flat_map (chan c) (u :: us)) (n * stride + t)).
    { intros c t Hcc. rewrite (proj2 S1 c Hcc), Hlen, flat_chan_skip by (rewrite Hlen; lia). cbn [flat_map].
      rewrite <- app_assoc. f_equal. lia. }
    exists (o1 :: os), st'. cbn [snap_run]. rewrite E1. cbn [bind]. rewrite E'. cbn [bind]. split; [reflexivity|].
    split; [cbn; congruence|]. split.
    + intros [|i] n0 o0 Hn0 Ho0; cbn in Hn0, Ho0.
      * injection Hn0 as <-. injection Ho0 as <-. cbn [firstn]. destruct W1 as [WL W1]. split; [exact WL|].
        intros g o m Hg. destruct (W1 g o m Hg) as [y [Y1 [Y2 Y3]]]. exists y. split; [exact Y1|]. split; [exact Y2|].
        intros w c j Hw Hcc Hj. destruct (Y3 w c j Hw Hcc Hj) as [v [V1 V2]]. exists v. split; [exact V1|].
        cbn [flat_map list_sum fold_right]. rewrite app_assoc. rewrite nth_error_app1; [exact V2|]. apply nth_error_Some. congruence.
      * destruct (W' i n0 o0 Hn0 Ho0) as [WL W1']. split; [exact WL|]. intros g o m Hg.
        destruct (W1' g o m Hg) as [y [Y1 [Y2 Y3]]]. exists y. split; [exact Y1|]. split; [exact Y2|].
        intros w c j Hw Hcc Hj. destruct (Y3 w c j Hw Hcc Hj) as [v [V1 V2]]. exists v. split; [exact V1|].
        assert (Hoc : o + c < C).
        { destruct snap_create_inv as [_ [_ Hsum]]. unfold groups in Hg. clear -Hg Hcc Hsum. destruct cps as [l|].
          - assert (GB : forall l off, nth_error (bounds_from off l) g = Some (o, m) -> o + m <= off + list_sum l).
            { clear. revert o m. induction g as [|g IH]; intros o m [|n l] off H; try discriminate; cbn in H.
              - injection H as <- <-. cbn. fold (list_sum l). lia.
              - apply IH in H. cbn. fold (list_sum l). lia. }
            apply GB in Hg. lia.
          - destruct g as [|[|g]]; cbn in Hg; try discriminate. injection Hg as <- <-. lia. }
        rewrite K in V2 by exact Hoc. cbn [firstn list_sum fold_right]. fold (list_sum (firstn i ns')). rewrite <- V2. f_equal. lia.
    + split; [exact (proj1 S')|]. intros c Hcc. rewrite (proj2 S' c Hcc). apply list_eq_nth_error. intros t.
      rewrite !nth_error_skipn, K by exact Hcc. f_equal.
      assert (L1 : length (chan c st1) = size - stride) by (apply (chan_length c st1 _ _ (proj1 S1))).
      rewrite !app_length, L1. cbn [flat_map]. rewrite app_length, (chan_length c st _ _ Hs), (chan_length c u _ _ Hu). lia.
Qed.
End Snap.

(** C13: over any history of updates (each a whole number n_i of strides; exactly one for batch_size 1), from
    the initial state: call i returns the n_i snapshots of the stream that follow the previous ones, and the
    state is the end of the stream. *)
Theorem snapshotter_stream {A} (zero : A) C size stride batch cps s ns us :
  snap_create C size stride batch cps = Ok s -> 0 < C -> 0 < stride -> us <> [] ->
  Forall2 (good_update C stride batch) ns us ->
  exists outs st, snap_run zero s us None = Ok (outs, Some st) /\ length outs = length us
    /\ (forall i n o, nth_error ns i = Some n -> nth_error outs i = Some o ->
          snapshots_of (fun c => stream zero (size - stride) c us) C size stride cps (list_sum (firstn i ns)) n o)
    /\ state_of (fun c => stream zero (size - stride) c us) C (size - stride) st.
Proof.
  intros Hc HC Hst Hne HF.
  destruct (snap_create_inv C size stride batch cps s Hc) as [Hlt [Es Hsum]].
  set (st0 := snap_init zero s).
  assert (S0 : shape st0 = [C; size - stride]) by (unfold st0; rewrite Es; reflexivity).
  destruct (snap_run_from zero C size stride batch cps s Hc HC Hst us ns st0 S0 HF) as [outs [st [E [L [W S]]]]].
  assert (Ec : forall c, chan c st0 = repeat zero (size - stride)).
  { intros c. unfold chan. rewrite S0. cbn [last]. unfold st0, snap_init. cbn [elt].
    generalize (size - stride) as k, 0. induction k; intros a; cbn; [reflexivity|]. rewrite IHk. reflexivity. }
  exists outs, st. split; [|split; [exact L|]].
  - destruct us as [|u us]; [congruence|]. cbn [snap_run] in *.
    replace (snap_forward zero s u None) with (snap_forward zero s u (Some st0)) by reflexivity. exact E.
  - split.
    + intros i n o H1 H2. specialize (W i n o H1 H2). unfold snapshots_of, stream in *. destruct W as [W1 W2]. split; [exact W1|].
      intros g o' m Hg. destruct (W2 g o' m Hg) as [y [Y1 [Y2 Y3]]]. exists y. split; [exact Y1|]. split; [exact Y2|].
      intros w c j Hw Hcc Hj. rewrite <- (Ec (o' + c)). exact (Y3 w c j Hw Hcc Hj).
    + destruct S as [S1 S2]. split; [exact S1|]. intros c Hcc. unfold stream. rewrite <- (Ec c). apply S2, Hcc.
Qed.

(** Number of samples checks at construction *)
Theorem snapshotter_create_rejects C size stride batch cps :
  (is_ok (snap_create C size stride batch cps) <-> stride < size /\ match cps with Some l => list_sum l = C | None => True end)
  /\ (forall e, snap_create C size stride batch cps = Err e -> e = ValueError).
Proof.
  unfold snap_create. destruct (Nat.leb_spec size stride).
  - split; [|intros e E; congruence]. split; [intros [? E]; discriminate|lia].
  - destruct cps as [l|].
    + destruct (Nat.eqb_spec (list_sum l) C); cbn [negb].
      * split; [|intros; discriminate]. split; [auto|]. intros _. eexists; reflexivity.
      * split; [|intros e E; congruence]. split; [intros [? E]; discriminate|tauto].
    + split; [|intros; discriminate]. split; [auto|]. intros _. eexists; reflexivity.
Qed.

(** C14: re-batching.  Two snapshotters that differ only in batch_size, fed the same stream in differently
    grouped updates, return the same snapshots (number k overall, wherever it falls) and end in the same state. *)
Theorem snapshotter_rebatch {A} (zero : A) C size stride b1 b2 cps s1 s2 ns1 us1 ns2 us2 :
  snap_create C size stride b1 cps = Ok s1 -> snap_create C size stride b2 cps = Ok s2 ->
  0 < C -> 0 < stride -> us1 <> [] -> us2 <> [] ->
  Forall2 (good_update C stride b1) ns1 us1 -> Forall2 (good_update C stride b2) ns2 us2 ->
  (forall c, c < C -> flat_map (chan c) us1 = flat_map (chan c) us2) ->
  exists outs1 st1 outs2 st2,
    snap_run zero s1 us1 None = Ok (outs1, Some st1) /\ snap_run zero s2 us2 None = Ok (outs2, Some st2)
    /\ list_sum ns1 = list_sum ns2
    /\ (forall i1 w1 n1 o1 i2 w2 n2 o2,
          nth_error ns1 i1 = Some n1 -> nth_error outs1 i1 = Some o1 -> w1 < n1 ->
          nth_error ns2 i2 = Some n2 -> nth_error outs2 i2 = Some o2 -> w2 < n2 ->
          list_sum (firstn i1 ns1) + w1 = list_sum (firstn i2 ns2) + w2 ->
          forall g o m, nth_error (groups C cps) g = Some (o, m) -> o + m <= C ->
          exists y1 y2, nth_error o1 g = Some y1 /\ nth_error o2 g = Some y2 /\
            forall c j, c < m -> j < size -> get y1 [w1; c; j] = get y2 [w2; c; j])
    /\ (shape st1 = shape st2 /\ forall c, c < C -> chan c st1 = chan c st2).
Proof.
  intros H1 H2 HC Hst N1 N2 F1 F2 Heq.
  destruct (snapshotter_stream zero C size stride b1 cps s1 ns1 us1 H1 HC Hst N1 F1) as [o1 [st1 [E1 [L1 [W1 S1]]]]].
  destruct (snapshotter_stream zero C size stride b2 cps s2 ns2 us2 H2 HC Hst N2 F2) as [o2 [st2 [E2 [L2 [W2 S2]]]]].
  exists o1, st1, o2, st2. split; [exact E1|]. split; [exact E2|].
  assert (LS : forall b ns us, Forall2 (good_update (A:=A) C stride b) ns us -> length (flat_map (chan 0) us) = list_sum ns * stride).
  { intros b ns us HF. induction HF as [|n u ns us [Hu _] HF IH]; [reflexivity|]. cbn [flat_map]. rewrite app_length, IH, (chan_length 0 u _ _ Hu).
    cbn. fold (list_sum ns). lia. }
  split.
  { assert (Hl := LS _ _ _ F1). rewrite (Heq 0 HC), (LS _ _ _ F2) in Hl. nia. }
  split.
  - intros i1 w1 n1 p1 i2 w2 n2 p2 A1 A2 A3 B1 B2 B3 Hk g o m Hg Hom.
    destruct (W1 i1 n1 p1 A1 A2) as [_ V1]. destruct (W2 i2 n2 p2 B1 B2) as [_ V2].
    destruct (V1 g o m Hg) as [y1 [Y1 [_ Z1]]]. destruct (V2 g o m Hg) as [y2 [Y2 [_ Z2]]].
    exists y1, y2. split; [exact Y1|]. split; [exact Y2|]. intros c j Hcc Hj.
    destruct (Z1 w1 c j A3 Hcc Hj) as [v1 [G1 G1']]. destruct (Z2 w2 c j B3 Hcc Hj) as [v2 [G2 G2']].
    rewrite G1, G2. unfold stream in *. rewrite (Heq (o + c)) in G1' by lia. rewrite Hk in G1'. congruence.
  - split; [rewrite (proj1 S1), (proj1 S2); reflexivity|]. intros c Hcc. rewrite (proj2 S1 c Hcc), (proj2 S2 c Hcc).
    unfold stream. rewrite (Heq c Hcc). reflexivity.
Qed.

(** Why the hypothesis on batch_size 1: with batch_size 1 a longer update is returned as one oversized snapshot. *)
Theorem snapshotter_batch1_oversize {A} (zero : A) C size stride s u n :
  snap_create C size stride 1 None = Ok s -> shape u = [C; n * stride] ->
  exists y st, snap_forward zero s u None = Ok ([y], st) /\ shape y = [1; C; size - stride + n * stride].
Proof.
  intros Hc Hu. destruct (snap_create_inv C size stride 1 None s Hc) as [Hlt [Es _]]. unfold snap_forward, snap_init, cat_last2.
  rewrite Es. cbn [shape sn_channels sn_state]. rewrite Hu, Nat.eqb_refl. cbn [bind sn_batch sn_cps].
  do 2 eexists. split; reflexivity.
Qed.

Example snapshotter_nonvacuous :
  let u k n := mk [2; n] (fun i => 100 * k + 10 * nth 0 i 0 + nth 1 i 0) in
  exists s, snap_create 2 5 2 3 (Some [1; 1]) = Ok s /\ Forall2 (good_update 2 2 3) [3; 2] [u 1 6; u 2 4] /\
  match snap_run 0 s [u 1 6; u 2 4] None with
  | Ok (outs, Some st) => option_map (fun o => map (fun y => get y [1; 0; 0]) o) (nth_error outs 1) = Some [Some 105; Some 115]
  | _ => False end.
Proof.
  cbn zeta. eexists. split; [reflexivity|]. split; [repeat constructor; cbn; try lia; reflexivity|]. vm_compute. reflexivity.
Qed.
