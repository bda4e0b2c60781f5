(** C116: what the streaming modules do with updates that are not of the documented shape.
    Snapshotter: any number of samples per update (C13 covers whole numbers of strides), wrong channel counts,
    and any starting state.  OnlineAverager: any 3D update (C15 covers [batch; channel; long enough]). *)
From Verif Require Import Base Tensor Slicing_model Slicing_proofs Slicing_proofs2 Slicing_props Rutil Streaming_model Snap_props Oavg_props.
Local Open Scope nat_scope.

(** * Snapshotter *)
(** ** Specification *)
(** [outs] (one tensor per channel group) holds n snapshots of len samples: snapshot w of group (o, m), channel
    c, is the samples start + w * stride, ..., start + w * stride + len - 1 of stream [strm (o + c)] *)
Definition pieces {A} (strm : nat -> list A) (C len stride : nat) cps (start n : nat) (outs : list (tensor A)) : Prop :=
  length outs = length (groups C cps) /\
  forall g o m, nth_error (groups C cps) g = Some (o, m) ->
    exists y, nth_error outs g = Some y /\ shape y = [n; m; len] /\
    forall w c j, w < n -> c < m -> j < len ->
      exists v, get y [w; c; j] = Some v /\ nth_error (strm (o + c)) (start + w * stride + j) = Some v.
(** how many snapshots a call returns for an update of L samples, and how long they are *)
Definition count_of (stride batch L : nat) : nat := if 1 <? batch then L / stride else 1.
Definition length_of (size stride batch L : nat) : nat := if 1 <? batch then size else size - stride + L.
(** the updates [us] have C channels and the numbers of samples [Ls] *)
Definition lengths {A} (C : nat) (Ls : list nat) (us : list (tensor A)) : Prop :=
  Forall2 (fun L u => shape u = [C; L]) Ls us.

Lemma skip_app {A} (l r : list A) k t : k <= length l -> nth_error (skipn k l ++ r) t = nth_error (l ++ r) (k + t).
Proof. intros H. rewrite <- nth_error_skipn, skipn_app. replace (k - length l) with 0 by lia. reflexivity. Qed.

Section Any.
Context {A : Type} (zero : A).
Variables (C size stride batch : nat) (cps : option (list nat)) (s : snap).
Hypothesis Hc : snap_create C size stride batch cps = Ok s.
Hypothesis HC : 0 < C.
Hypothesis Hst : 0 < stride.

Lemma any_forward L u st : shape st = [C; size - stride] -> shape u = [C; L] ->
  (1 < batch -> stride <= L) ->
  exists outs st', snap_forward zero s u (Some st) = Ok (outs, st')
    /\ pieces (fun c => chan c st ++ chan c u) C (length_of size stride batch L) stride cps 0 (count_of stride batch L) outs
    /\ state_of (fun c => chan c st ++ chan c u) C (size - stride) st'.
Proof using Hc HC Hst.
  intros Hs Hu HL. destruct (snap_create_inv _ _ _ _ _ _ Hc) as [Hlt [Es Hsum]].
  unfold snap_forward, cat_last2. rewrite Hs, Hu, Nat.eqb_refl. cbn [bind].
  set (x := mk [C; _] _).
  assert (Hx : forall c t, c < C -> t < size - stride + L ->
     nth_error (chan c st ++ chan c u) t = Some (elt x [c; t])).
  { intros c t Hcc Ht. unfold x. cbn [elt]. destruct (Nat.ltb_spec t (size - stride)) as [H|H].
    - rewrite nth_error_app1 by (rewrite (chan_length c st _ _ Hs); lia). apply (chan_nth c st _ _ t Hs H).
    - rewrite nth_error_app2 by (rewrite (chan_length c st _ _ Hs); lia). rewrite (chan_length c st _ _ Hs).
      apply (chan_nth c u _ _ _ Hu). lia. }
  assert (Hlen : forall c, length (chan c st ++ chan c u) = size - stride + L).
  { intros c. rewrite app_length, (chan_length c st _ _ Hs), (chan_length c u _ _ Hu). reflexivity. }
  rewrite Es. cbn [sn_batch sn_size sn_stride sn_cps sn_state sn_channels].
  set (n := count_of stride batch L). set (len := length_of size stride batch L).
  assert (Hfit : forall w j, w < n -> j < len -> w * stride + j < size - stride + L).
  { intros w j Hw Hj. unfold n, count_of in Hw. unfold len, length_of in Hj. destruct (Nat.ltb_spec 1 batch) as [H1|H1]; [|nia].
    pose proof (Nat.div_mod L stride ltac:(lia)) as D. set (q := L / stride) in *. clearbody q.
    assert (w * stride <= (q - 1) * stride) by nia. nia. }
  assert (Y : exists y, (if 1 <? batch then let* (y, _) := unfold_windows zero x (Z.of_nat size) (Z.of_nat stride) true in Ok y else Ok (unsqueeze0 x)) = Ok y
     /\ shape y = [n; C; len] /\ forall w c j, w < n -> c < C -> j < len -> elt y [w; c; j] = elt x [c; w * stride + j]).
  { unfold n, len, count_of, length_of in *. destruct (Nat.ltb_spec 1 batch) as [H1|H1].
    - specialize (HL H1).
      destruct (unfold_windows_correct zero x [C] (size - stride + L) size stride true) as [y [tl [E [Sy [V _]]]]];
        [reflexivity|cbn; lia|repeat constructor; exact HC|lia|exact Hst|lia|].
      rewrite E. cbn [bind]. exists y. split; [reflexivity|].
      assert (Enw : (size - stride + L - size) / stride + 1 = L / stride).
      { replace L with (L - stride + 1 * stride) at 2 by lia. rewrite Nat.div_add by lia. do 2 f_equal. lia. }
      rewrite Enw in *. split; [exact Sy|]. intros w c j Hw Hcc Hj.
      specialize (V w [c] j Hw ltac:(cbn; lia) Hj). cbn [app] in V.
      rewrite get_inb in V by (rewrite Sy; cbn; lia).
      specialize (Hfit w j Hw Hj).
      rewrite get_inb in V by (cbn; lia). congruence.
    - exists (unsqueeze0 x). split; [reflexivity|]. unfold unsqueeze0. cbn [shape elt tl x].
      split; [reflexivity|]. intros w c j Hw Hcc Hj. replace w with 0 by lia. reflexivity. }
  destruct Y as [y [-> [Sy Vy]]]. cbn [bind].
  assert (G : exists outs, match cps with
      | Some sizes => match nth_error (shape y) 1 with
         | Some c => if negb (c =? C) then Err ValueError else split1 sizes y
         | None => Err IndexError end
      | None => Ok [y] end = Ok outs /\ length outs = length (groups C cps) /\
      forall g o m, nth_error (groups C cps) g = Some (o, m) -> exists z, nth_error outs g = Some z /\ shape z = [n; m; len] /\
       o + m <= C /\ forall w c j, elt z [w; c; j] = elt y [w; o + c; j]).
  { destruct cps as [l|].
    - rewrite Sy. cbn [nth_error]. rewrite Nat.eqb_refl. cbn [negb]. unfold split1. rewrite Sy, Hsum, Nat.eqb_refl.
      eexists; split; [reflexivity|]. destruct (split1_from_nth y n C len Sy l 0) as [Lg V]. split; [exact Lg|].
      intros g o m Hg. destruct (V g o m Hg) as [z [H1 [H2 [H3 H4]]]]. exists z. rewrite Hsum in H4. repeat split; try assumption. lia.
    - eexists; split; [reflexivity|]. split; [reflexivity|]. intros [|[|g]] o m Hg; cbn in Hg; try discriminate.
      injection Hg as <- <-. exists y. repeat split; auto. }
  destruct G as [outs [-> [Lg V]]]. cbn [bind]. eexists; eexists. split; [reflexivity|]. split.
  - split; [exact Lg|]. intros g o m Hg. destruct (V g o m Hg) as [z [H1 [H2 [H3 H4]]]]. exists z. split; [exact H1|]. split; [exact H2|].
    intros w c j Hw Hcc Hj. exists (elt z [w; c; j]). split; [apply get_inb; rewrite H2; cbn; lia|].
    specialize (Hfit w j Hw Hj). rewrite H4, Vy by lia. rewrite Hx by lia. reflexivity.
  - assert (Lo : slice_lo (Z.of_nat (size - stride + L)) (Some (- Z.of_nat (size - stride)))%Z = Z.of_nat L).
    { unfold slice_lo, py_clamp. destruct (Z.ltb_spec (- Z.of_nat (size - stride)) 0); lia. }
    assert (SH : shape (slice_last (Some (- Z.of_nat (size - stride))%Z) None x) = [C; size - stride]).
    { unfold slice_last. cbn [shape x last removelast app]. rewrite Lo. unfold slice_hi. do 2 f_equal. lia. }
    split; [exact SH|]. intros c Hcc. apply list_eq_nth_error. intros t. rewrite nth_error_skipn, Hlen.
    destruct (Nat.lt_ge_cases t (size - stride)) as [Ht|Ht].
    + rewrite (chan_nth c _ _ _ t SH Ht). rewrite Hx by lia. unfold slice_last. cbn [elt last removelast app shape].
      change (last (shape x) 0) with (size - stride + L). rewrite Lo. do 4 f_equal. lia.
    + rewrite (proj2 (nth_error_None _ _)) by (rewrite (chan_length c _ _ _ SH); lia). symmetry. apply nth_error_None. rewrite Hlen. lia.
Qed.

(** batch_size > 1 and an update shorter than one stride *)
Lemma any_short L u st : shape st = [C; size - stride] -> shape u = [C; L] -> 1 < batch -> L < stride ->
  snap_forward zero s u (Some st) = Err RuntimeError.
Proof using Hc HC Hst.
  intros Hs Hu Hb HL. destruct (snap_create_inv _ _ _ _ _ _ Hc) as [Hlt [Es Hsum]].
  unfold snap_forward, cat_last2. rewrite Hs, Hu, Nat.eqb_refl. cbn [bind].
  set (x := mk [C; _] _). rewrite Es. cbn [sn_batch sn_size sn_stride].
  replace (1 <? batch) with true by lia.
  destruct (unfold_windows_succeeds_iff zero x [C] (size - stride + L) size stride true) as [_ E];
    [reflexivity|cbn; lia|lia|exact Hst|].
  rewrite E by lia. reflexivity.
Qed.

(** another number of channels than the state *)
Lemma any_channels (C' L : nat) (u st : tensor A) : shape st = [C; size - stride] -> shape u = [C'; L] -> C' <> C ->
  snap_forward zero s u (Some st) = Err RuntimeError.
Proof using Hc.
  intros Hs Hu HL. unfold snap_forward, cat_last2. rewrite Hs, Hu.
  replace (C =? C') with false by (clear -HL; lia). reflexivity.
Qed.

Lemma any_run us : forall Ls st, shape st = [C; size - stride] -> lengths C Ls us ->
  (1 < batch -> List.Forall (fun L => stride <= L) Ls) ->
  exists outs st', snap_run zero s us (Some st) = Ok (outs, Some st') /\ length outs = length us
    /\ (forall i L o, nth_error Ls i = Some L -> nth_error outs i = Some o ->
         pieces (fun c => chan c st ++ flat_map (chan c) us) C (length_of size stride batch L) stride cps
           (list_sum (firstn i Ls)) (count_of stride batch L) o)
    /\ state_of (fun c => chan c st ++ flat_map (chan c) us) C (size - stride) st'.
Proof using Hc HC Hst.
  induction us as [|u us IH]; intros Ls st Hs HF HB.
  - inversion HF; subst. exists [], st. split; [reflexivity|]. split; [reflexivity|]. split; [intros [|i]; discriminate|].
    split; [exact Hs|]. intros c Hcc. cbn [flat_map]. rewrite app_nil_r, (chan_length c st _ _ Hs), Nat.sub_diag. reflexivity.
  - inversion HF as [|L ? Ls' ? Hu HF']; subst.
    assert (HL : 1 < batch -> stride <= L) by (intros H1; specialize (HB H1); inversion HB; assumption).
    destruct (any_forward L u st Hs Hu HL) as [o1 [st1 [E1 [W1 S1]]]].
    destruct (IH Ls' st1 (proj1 S1) HF') as [os [st' [E' [L' [W' S']]]]].
    { intros H1; specialize (HB H1); inversion HB; assumption. }
    destruct (snap_create_inv _ _ _ _ _ _ Hc) as [Hlt [_ Hsum]].
    assert (Hlen : forall c, length (chan c st ++ chan c u) = size - stride + L).
    { intros c. rewrite app_length, (chan_length c st _ _ Hs), (chan_length c u _ _ Hu). reflexivity. }
    assert (K : forall c t, c < C -> nth_error (chan c st1 ++ flat_map (chan c) us) t = nth_error (chan c st ++ flat_map (chan c) (u :: us)) (L + t)).
    { intros c t Hcc. rewrite (proj2 S1 c Hcc), Hlen, skip_app by (rewrite Hlen; lia). cbn [flat_map].
      rewrite <- app_assoc. f_equal. lia. }
    exists (o1 :: os), st'. cbn [snap_run]. rewrite E1. cbn [bind]. rewrite E'. cbn [bind]. split; [reflexivity|].
    split; [cbn; congruence|]. split.
    + intros [|i] n0 o0 Hn0 Ho0; cbn in Hn0, Ho0.
      * injection Hn0 as <-. injection Ho0 as <-. cbn [firstn]. destruct W1 as [WL W1]. split; [exact WL|].
        intros g o m Hg. destruct (W1 g o m Hg) as [y [Y1 [Y2 Y3]]]. exists y. split; [exact Y1|]. split; [exact Y2|].
        intros w c j Hw Hcc Hj. destruct (Y3 w c j Hw Hcc Hj) as [v [V1 V2]]. exists v. split; [exact V1|].
        cbn [flat_map list_sum fold_right]. rewrite app_assoc. rewrite nth_error_app1; [exact V2|]. apply nth_error_Some. congruence.
      * destruct (W' i n0 o0 Hn0 Ho0) as [WL W1']. split; [exact WL|]. intros g o m Hg.
        destruct (W1' g o m Hg) as [y [Y1 [Y2 Y3]]]. exists y. split; [exact Y1|]. split; [exact Y2|].
        intros w c j Hw Hcc Hj. destruct (Y3 w c j Hw Hcc Hj) as [v [V1 V2]]. exists v. split; [exact V1|].
        assert (Hoc : o + c < C).
        { unfold groups in Hg. clear -Hg Hcc Hsum. destruct cps as [l|].
          - assert (GB : forall l off, nth_error (bounds_from off l) g = Some (o, m) -> o + m <= off + list_sum l).
            { clear. revert o m. induction g as [|g IH]; intros o m [|n l] off H; try discriminate; cbn in H.
              - injection H as <- <-. cbn. fold (list_sum l). lia.
              - apply IH in H. cbn. fold (list_sum l). lia. }
            apply GB in Hg. lia.
          - destruct g as [|[|g]]; cbn in Hg; try discriminate. injection Hg as <- <-. lia. }
        rewrite K in V2 by exact Hoc. cbn [firstn list_sum fold_right]. fold (list_sum (firstn i Ls')). rewrite <- V2. f_equal. lia.
    + split; [exact (proj1 S')|]. intros c Hcc. rewrite (proj2 S' c Hcc). apply list_eq_nth_error. intros t.
      rewrite !nth_error_skipn, K by exact Hcc. f_equal.
      assert (L1 : length (chan c st1) = size - stride) by (apply (chan_length c st1 _ _ (proj1 S1))).
      rewrite !app_length, L1. cbn [flat_map]. rewrite app_length, (chan_length c st _ _ Hs), (chan_length c u _ _ Hu). lia.
Qed.

Lemma any_run_err us : forall Ls st, shape st = [C; size - stride] -> lengths C Ls us ->
  1 < batch -> ~ List.Forall (fun L => stride <= L) Ls ->
  snap_run zero s us (Some st) = Err RuntimeError.
Proof using Hc HC Hst.
  induction us as [|u us IH]; intros Ls st Hs HF Hb HN.
  - inversion HF; subst. exfalso. apply HN. constructor.
  - inversion HF as [|L ? Ls' ? Hu HF']; subst. cbn [snap_run].
    destruct (Nat.lt_ge_cases L stride) as [HL|HL].
    + rewrite (any_short L u st Hs Hu Hb HL). reflexivity.
    + destruct (any_forward L u st Hs Hu (fun _ => HL)) as [o1 [st1 [E1 [W1 S1]]]]. rewrite E1. cbn [bind].
      rewrite (IH Ls' st1 (proj1 S1) HF' Hb); [reflexivity|]. intros HA. apply HN. constructor; assumption.
Qed.
End Any.

Lemma snap_run_init {A} (zero : A) s us : us <> [] -> snap_run zero s us None = snap_run zero s us (Some (snap_init zero s)).
Proof. destruct us as [|u us]; [congruence|]. reflexivity. Qed.
Lemma chan_init {A} (zero : A) C size stride batch cps s c : snap_create C size stride batch cps = Ok s ->
  shape (snap_init zero s) = [C; size - stride] /\ chan c (snap_init zero s) = repeat zero (size - stride).
Proof.
  intros Hc. destruct (snap_create_inv _ _ _ _ _ _ Hc) as [_ [Es _]].
  assert (S0 : shape (snap_init zero s) = [C; size - stride]) by (rewrite Es; reflexivity). split; [exact S0|].
  unfold chan. rewrite S0. cbn [last]. unfold snap_init. cbn [elt].
  generalize (size - stride) as k, 0. induction k; intros a; cbn; [reflexivity|]. rewrite IHk. reflexivity.
Qed.

(** Any history of updates with the right number of channels and any numbers of samples Ls, from the initial
    state.  With batch_size > 1 it raises (RuntimeError) exactly when some update is shorter than one stride.
    Otherwise call i returns count_of L_i snapshots, the first of which starts where the previous updates end:
    at sample L_0 + ... + L_(i-1) of the stream; and the state is the end of the stream. *)
Theorem snapshotter_any_length {A} (zero : A) C size stride batch cps s Ls (us : list (tensor A)) :
  snap_create C size stride batch cps = Ok s -> 0 < C -> 0 < stride -> us <> [] -> lengths C Ls us ->
  (is_ok (snap_run zero s us None) <-> (1 < batch -> List.Forall (fun L => stride <= L) Ls)) /\
  (~ is_ok (snap_run zero s us None) -> snap_run zero s us None = Err RuntimeError) /\
  forall outs st', snap_run zero s us None = Ok (outs, st') -> length outs = length us /\
    (forall i L o, nth_error Ls i = Some L -> nth_error outs i = Some o ->
       pieces (fun c => stream zero (size - stride) c us) C (length_of size stride batch L) stride cps
         (list_sum (firstn i Ls)) (count_of stride batch L) o) /\
    exists st, st' = Some st /\ state_of (fun c => stream zero (size - stride) c us) C (size - stride) st.
Proof.
  intros Hc HC Hst Hne HF. rewrite snap_run_init by exact Hne.
  destruct (chan_init zero _ _ _ _ _ _ 0 Hc) as [S0 _].
  assert (Ec := fun c => proj2 (chan_init zero _ _ _ _ _ _ c Hc)).
  destruct (Nat.lt_ge_cases 1 batch) as [Hb|Hb].
  2:{ destruct (any_run zero _ _ _ _ _ _ Hc HC Hst us Ls _ S0 HF ltac:(lia)) as [outs [st [E [L [W S]]]]].
      rewrite E. split; [split; [lia|intros _; eexists; reflexivity]|]. split; [intros HN; exfalso; apply HN; eexists; reflexivity|].
      intros o st' Heq. injection Heq as <- <-. split; [exact L|]. unfold stream, pieces in *.
      split; [|exists st; split; [reflexivity|]; split; [apply S|intros c Hcc; rewrite <- (Ec c); apply S, Hcc]].
      intros i Li o H1 H2. specialize (W i Li o H1 H2). destruct W as [W1 W2]. split; [exact W1|].
      intros g a m Hg. destruct (W2 g a m Hg) as [y [Y1 [Y2 Y3]]]. exists y. split; [exact Y1|]. split; [exact Y2|].
      intros w c j Hw Hcc Hj. rewrite <- (Ec (a + c)). exact (Y3 w c j Hw Hcc Hj). }
  assert (D : List.Forall (fun L => stride <= L) Ls \/ ~ List.Forall (fun L => stride <= L) Ls).
  { destruct (Forall_dec (fun L => stride <= L) (fun L => le_dec stride L) Ls); auto. }
  destruct D as [HA|HN].
  - destruct (any_run zero _ _ _ _ _ _ Hc HC Hst us Ls _ S0 HF (fun _ => HA)) as [outs [st [E [L [W S]]]]].
    rewrite E. split; [split; [intros _ _; exact HA|intros _; eexists; reflexivity]|]. split; [intros HN; exfalso; apply HN; eexists; reflexivity|].
    intros o st' Heq. injection Heq as <- <-. split; [exact L|]. unfold stream, pieces in *.
    split; [|exists st; split; [reflexivity|]; split; [apply S|intros c Hcc; rewrite <- (Ec c); apply S, Hcc]].
    intros i Li o H1 H2. specialize (W i Li o H1 H2). destruct W as [W1 W2]. split; [exact W1|].
    intros g a m Hg. destruct (W2 g a m Hg) as [y [Y1 [Y2 Y3]]]. exists y. split; [exact Y1|]. split; [exact Y2|].
    intros w c j Hw Hcc Hj. rewrite <- (Ec (a + c)). exact (Y3 w c j Hw Hcc Hj).
  - rewrite (any_run_err zero _ _ _ _ _ _ Hc HC Hst us Ls _ S0 HF Hb HN).
    split; [split; [intros [? E]; discriminate|intros H; specialize (H Hb); contradiction]|].
    split; [reflexivity|]. intros outs st' E. discriminate.
Qed.

(** An update with another number of channels makes the history fail (RuntimeError) when it is reached. *)
Theorem snapshotter_wrong_channels {A} (zero : A) C size stride batch cps s Ls (us us' : list (tensor A)) u C' L :
  snap_create C size stride batch cps = Ok s -> 0 < C -> 0 < stride -> lengths C Ls us ->
  shape u = [C'; L] -> C' <> C -> snap_run zero s (us ++ u :: us') None = Err RuntimeError.
Proof.
  intros Hc HC Hst HF Hu Hne. rewrite snap_run_init by (destruct us; discriminate).
  destruct (chan_init zero _ _ _ _ _ _ 0 Hc) as [S0 _]. revert S0. generalize (snap_init zero s) as st.
  revert Ls HF. induction us as [|v us IH]; intros Ls HF st S0; cbn [app snap_run].
  - rewrite (any_channels zero C size stride batch cps s Hc C' L u st S0 Hu Hne). reflexivity.
  - inversion HF as [|Lv ? Ls' ? Hv HF']; subst.
    destruct (Nat.lt_ge_cases 1 batch) as [Hb|Hb]; [destruct (Nat.lt_ge_cases Lv stride) as [HL|HL]|].
    + rewrite (any_short zero C size stride batch cps s Hc HC Hst Lv v st S0 Hv Hb HL). reflexivity.
    + destruct (any_forward zero C size stride batch cps s Hc HC Hst Lv v st S0 Hv (fun _ => HL)) as [o [st1 [E [_ W]]]]. rewrite E. cbn [bind].
      rewrite (IH Ls' HF' st1 (proj1 W)). reflexivity.
    + destruct (any_forward zero C size stride batch cps s Hc HC Hst Lv v st S0 Hv ltac:(lia)) as [o [st1 [E [_ W]]]]. rewrite E. cbn [bind].
      rewrite (IH Ls' HF' st1 (proj1 W)). reflexivity.
Qed.

(** ** Where that differs from a sliding window over the stream *)
(** the starting samples (as given by snapshotter_any_length) of all the snapshots of a history, in the order
    they are returned *)
Definition starts (stride batch : nat) (Ls : list nat) : list nat :=
  flat_map (fun i => map (fun w => list_sum (firstn i Ls) + w * stride) (seq 0 (count_of stride batch (nth i Ls 0))))
    (seq 0 (length Ls)).

Fixpoint starts_from (stride batch at_ : nat) (Ls : list nat) : list nat :=
  match Ls with
  | [] => []
  | L :: Ls' => map (fun w => at_ + w * stride) (seq 0 (count_of stride batch L)) ++ starts_from stride batch (at_ + L) Ls'
  end.

Lemma starts_eq stride batch Ls : starts stride batch Ls = starts_from stride batch 0 Ls.
Proof.
  unfold starts.
  assert (G : forall l a, flat_map (fun i => map (fun w => a + list_sum (firstn i l) + w * stride) (seq 0 (count_of stride batch (nth i l 0)))) (seq 0 (length l))
     = starts_from stride batch a l).
  { induction l as [|L l IH]; intros a; [reflexivity|]. cbn [length seq flat_map starts_from]. f_equal.
    - cbn [firstn nth list_sum fold_right]. apply map_ext. intros w. lia.
    - rewrite <- IH. rewrite <- seq_shift, flat_map_concat_map, map_map, <- flat_map_concat_map.
      apply flat_map_ext. intros i. cbn [nth firstn list_sum fold_right]. fold (list_sum (firstn i l)).
      apply map_ext. intros w. lia. }
  rewrite <- G. apply flat_map_ext. intros i. apply map_ext. intros w. lia.
Qed.

Lemma starts_from_head stride L Ls a : 0 < stride -> stride <= L -> exists l, starts_from stride 2 a (L :: Ls) = a :: l.
Proof.
  intros H1 H2. cbn [starts_from]. unfold count_of. change (1 <? 2) with true; cbn iota.
  assert (0 < L / stride) by (apply Nat.div_str_pos; lia). destruct (L / stride) as [|k]; [lia|].
  cbn [seq map app]. rewrite Nat.mul_0_l, Nat.add_0_r. eexists; reflexivity.
Qed.

(** With batch_size > 1, the snapshots are those of one sliding window (snapshot k starts at k * stride) exactly
    when every update but the last is a whole number of strides. *)
Theorem snapshotter_aligned_iff stride batch Ls : 0 < stride -> 1 < batch -> List.Forall (fun L => stride <= L) Ls ->
  (starts stride batch Ls = map (fun k => k * stride) (seq 0 (length (starts stride batch Ls)))
   <-> List.Forall (fun L => L mod stride = 0) (removelast Ls)).
Proof.
  intros Hst Hb HA. rewrite starts_eq.
  assert (EB : forall a l, starts_from stride batch a l = starts_from stride 2 a l).
  { intros a l. revert a. induction l as [|L l IH]; intros a; [reflexivity|]. cbn [starts_from]. rewrite IH. unfold count_of.
    replace (1 <? batch) with true by lia. reflexivity. }
  rewrite EB. clear EB Hb.
  assert (G : forall Ls q, List.Forall (fun L => stride <= L) Ls ->
    (starts_from stride 2 (q * stride) Ls = map (fun k => k * stride) (seq q (length (starts_from stride 2 (q * stride) Ls)))
     <-> List.Forall (fun L => L mod stride = 0) (removelast Ls))).
  { clear Ls HA. induction Ls as [|L Ls IH]; intros q HA; [cbn; split; constructor|].
    inversion HA as [|? ? HL HA']; subst.
    assert (P : 0 < L / stride) by (apply Nat.div_str_pos; lia).
    cbn [starts_from]. unfold count_of. change (1 <? 2) with true; cbn iota. rewrite app_length, map_length, seq_length, seq_app, map_app.
    assert (E1 : map (fun w => q * stride + w * stride) (seq 0 (L / stride)) = map (fun k => k * stride) (seq q (L / stride))).
    { assert (K : forall k z, map (fun w => q * stride + w * stride) (seq z k) = map (fun k => k * stride) (seq (q + z) k)).
      { induction k as [|k IHk]; intros z; [reflexivity|]. cbn [seq map]. f_equal; [nia|]. rewrite IHk. do 2 f_equal. lia. }
      rewrite K, Nat.add_0_r. reflexivity. }
    rewrite E1.
    destruct Ls as [|L2 Ls].
    { cbn [starts_from length seq map removelast]. split; [constructor|reflexivity]. }
    change (removelast (L :: L2 :: Ls)) with (L :: removelast (L2 :: Ls)).
    pose proof (Nat.div_mod L stride ltac:(lia)) as D. pose proof (Nat.mod_upper_bound L stride ltac:(lia)) as D2.
    assert (EI : L mod stride = 0 -> q * stride + L = (q + L / stride) * stride) by (intros; nia).
    split.
    - intros E. apply app_inv_head in E.
      assert (M : L mod stride = 0).
      { destruct (starts_from_head stride L2 Ls (q * stride + L) Hst ltac:(inversion HA'; assumption)) as [l El].
        rewrite El in E. cbn [length seq map] in E. assert (X : q * stride + L = (q + L / stride) * stride) by congruence. nia. }
      constructor; [exact M|]. apply (IH (q + L / stride) HA'). rewrite <- (EI M). exact E.
    - intros HF. inversion HF as [|? ? M HF']; subst. f_equal. rewrite (EI M). apply (IH (q + L / stride) HA'), HF'. }
  specialize (G Ls 0 HA). rewrite Nat.mul_0_l in G. exact G.
Qed.

(** If update i ends on an incomplete stride so long that stride + (L_i mod stride) > size, the sample of the
    stream that follows its last snapshot is in no snapshot at all, although later snapshots are returned. *)
Theorem snapshotter_lost_samples size stride batch Ls i L :
  0 < stride -> stride < size -> 1 < batch -> nth_error Ls i = Some L -> List.Forall (fun L => stride <= L) Ls ->
  size < stride + L mod stride ->
  forall t, t = list_sum (firstn i Ls) + (L / stride - 1) * stride + size ->
  (exists a, In a (starts stride batch Ls) /\ a + size = t) /\
  forall a, In a (starts stride batch Ls) -> ~ (a <= t < a + size).
Proof.
  rewrite starts_eq. intros Hst Hlt Hb Hi HA Hm t Ht.
  assert (G : forall Ls i a0, nth_error Ls i = Some L -> List.Forall (fun L => stride <= L) Ls ->
     forall t, t = a0 + list_sum (firstn i Ls) + (L / stride - 1) * stride + size ->
     (exists a, In a (starts_from stride batch a0 Ls) /\ a + size = t) /\
     forall a, In a (starts_from stride batch a0 Ls) -> ~ (a <= t < a + size)).
  { clear Ls i Hi HA t Ht.
    pose proof (Nat.div_mod L stride ltac:(lia)) as D. pose proof (Nat.mod_upper_bound L stride ltac:(lia)) as D2.
    assert (Lower : forall Ls a0 a, In a (starts_from stride batch a0 Ls) -> a0 <= a).
    { clear. induction Ls as [|L Ls IH]; intros a0 a Ha; [destruct Ha|]. cbn [starts_from] in Ha. apply in_app_or in Ha as [Ha|Ha].
      - apply in_map_iff in Ha as [w [<- _]]. lia.
      - apply IH in Ha. lia. }
    induction Ls as [|L0 Ls IH]; intros [|i] a0 Hi HA t Ht; try discriminate.
    - cbn in Hi. injection Hi as ->. cbn [firstn list_sum fold_right] in Ht. inversion HA as [|? ? HL HA']; subst.
      assert (P : 0 < L / stride) by (apply Nat.div_str_pos; lia). cbn [starts_from]. unfold count_of. replace (1 <? batch) with true by lia.
      set (q := L / stride) in *. set (r := L mod stride) in *. clearbody q r. split.
      + exists (a0 + (q - 1) * stride). split; [|lia]. apply in_or_app. left. apply in_map_iff. exists (q - 1). split; [reflexivity|]. apply in_seq. lia.
      + intros a Ha. apply in_app_or in Ha as [Ha|Ha].
        * apply in_map_iff in Ha as [w [<- Hw]]. apply in_seq in Hw. assert (w * stride <= (q - 1) * stride) by nia. lia.
        * apply Lower in Ha. nia.
    - cbn in Hi. inversion HA as [|? ? HL HA']; subst. cbn [firstn list_sum fold_right] in *. fold (list_sum (firstn i Ls)) in *.
      destruct (IH i (a0 + L0) Hi HA' (a0 + L0 + list_sum (firstn i Ls) + (L / stride - 1) * stride + size) eq_refl) as [[a [Ia Ea]] N].
      replace (a0 + (L0 + list_sum (firstn i Ls)) + (L / stride - 1) * stride + size) with (a0 + L0 + list_sum (firstn i Ls) + (L / stride - 1) * stride + size) by lia.
      cbn [starts_from]. split; [exists a; split; [apply in_or_app; right; exact Ia|exact Ea]|].
      intros b Hin. apply in_app_or in Hin as [Hin|Hin]; [|apply N, Hin].
      apply in_map_iff in Hin as [w [<- Hw]]. apply in_seq in Hw. unfold count_of in Hw. replace (1 <? batch) with true in Hw by lia.
      pose proof (Nat.div_mod L0 stride ltac:(lia)) as D0. set (q0 := L0 / stride) in *. clearbody q0.
      assert (w * stride + stride <= q0 * stride) by nia. nia. }
  apply (G Ls i 0 Hi HA t). lia.
Qed.


(** So the snapshots of one and the same stream depend on how it was cut into updates (C14 needs whole strides):
    6 samples given as 3 + 3 yield two snapshots, starting at samples 0 and 3; given as 2 + 4, three, at 0, 2, 4. *)
Theorem snapshotter_rebatch_refuted :
  let u k n := mk [1; n] (fun i => k + nth 1 i 0) in
  exists s, snap_create 1 3 2 4 None = Ok s /\
    flat_map (chan 0) [u 1 3; u 4 3] = flat_map (chan 0) [u 1 2; u 3 4] /\
    (exists y1 y2 st, snap_run 0 s [u 1 3; u 4 3] None = Ok ([[y1]; [y2]], st) /\ shape y1 = [1; 1; 3] /\ shape y2 = [1; 1; 3] /\
       get y1 [0; 0; 0] = Some 0 /\ get y2 [0; 0; 0] = Some 3) /\
    (exists z1 z2 st, snap_run 0 s [u 1 2; u 3 4] None = Ok ([[z1]; [z2]], st) /\ shape z1 = [1; 1; 3] /\ shape z2 = [2; 1; 3] /\
       get z1 [0; 0; 0] = Some 0 /\ get z2 [0; 0; 0] = Some 2 /\ get z2 [1; 0; 0] = Some 4).
Proof.
  cbn zeta. eexists. split; [reflexivity|]. split; [reflexivity|]. split.
  - assert (H : match snap_run 0 {| sn_channels := 1; sn_size := 3; sn_stride := 2; sn_state := 1; sn_batch := 4; sn_cps := None |}
        [mk [1; 3] (fun i => 1 + nth 1 i 0); mk [1; 3] (fun i => 4 + nth 1 i 0)] None with
      | Ok ([[y1]; [y2]], _) => shape y1 = [1; 1; 3] /\ shape y2 = [1; 1; 3] /\ get y1 [0; 0; 0] = Some 0 /\ get y2 [0; 0; 0] = Some 3
      | _ => False end) by (vm_compute; auto).
    destruct (snap_run _ _ _ _) as [[[|[|y1 [|]] [|[|y2 [|]] [|]]] st]|]; try destruct H; do 3 eexists; split; [reflexivity|]; auto.
  - assert (H : match snap_run 0 {| sn_channels := 1; sn_size := 3; sn_stride := 2; sn_state := 1; sn_batch := 4; sn_cps := None |}
        [mk [1; 2] (fun i => 1 + nth 1 i 0); mk [1; 4] (fun i => 3 + nth 1 i 0)] None with
      | Ok ([[y1]; [y2]], _) => shape y1 = [1; 1; 3] /\ shape y2 = [2; 1; 3] /\ get y1 [0; 0; 0] = Some 0 /\ get y2 [0; 0; 0] = Some 2 /\ get y2 [1; 0; 0] = Some 4
      | _ => False end) by (vm_compute; auto 10).
    destruct (snap_run _ _ _ _) as [[[|[|y1 [|]] [|[|y2 [|]] [|]]] st]|]; try destruct H; do 3 eexists; split; [reflexivity|]; auto.
Qed.

(** * OnlineAverager *)
(** ** Specification *)
(** the update repeated along the axes of size 1 to a batch of b and c channels *)
Definition expanded (b c : nat) (x : tensor R) : tensor R :=
  match shape x with
  | [b'; c'; L] => mk [b; c; L] (fun i => match i with
      | [k; l; t] => elt x [if b' =? 1 then 0 else k; if c' =? 1 then 0 else l; t] | _ => 0%R end)
  | _ => x
  end.
(** 3D updates [b'; c'; L] that are accepted *)
Definition accepted (u b n c : nat) (off : option nat) (x : tensor R) : Prop :=
  exists b' c' L, shape x = [b'; c'; L] /\ (b' = b \/ b' = 1) /\ (c' = c \/ c' = 1) /\
    n * u + (match off with Some k => k | None => 0 end) <= L /\ off <> Some 0.

(** two tensors with the same shape and the same entries *)
Definition same (x y : tensor R) : Prop := shape x = shape y /\ forall i, inb i (shape x) -> elt x i = elt y i.

Lemma bidx3 (d0 d1 d2 i j k : nat) : bidx [d0; d1; d2] [i; j; k] = [if d0 =? 1 then 0 else i; if d1 =? 1 then 0 else j; if d2 =? 1 then 0 else k].
Proof. reflexivity. Qed.

Section Avg.
Variables (u b n c : nat) (off : option nat) (m : oavg).
Hypothesis Hu : 0 < u. Hypothesis Hb : 0 < b. Hypothesis Hn : 0 < n. Hypothesis Hc : 0 < c.
Hypothesis Hm : oa_create u b n c off = Ok m.
Definition o_ := match off with Some k => k | None => 0 end.
Definition T_ := b * u + oa_state_size u n.
Lemma T__eq : T_ = (b - 1) * u + n * u.
Proof using Hb Hn. unfold T_, oa_state_size. clear -Hb Hn. nia. Qed.

Lemma bzip3b (f : R -> R -> R) (x y : tensor R) d0 d1 d2 e0 e1 : shape x = [d0; d1; d2] -> shape y = [e0; e1; d2] ->
  e0 = d0 \/ e0 = 1 -> e1 = d1 \/ e1 = 1 ->
  exists r, bzip_inplace f x y = Ok r /\ shape r = [d0; d1; d2] /\
    forall i j k, i < d0 -> j < d1 -> k < d2 -> elt r [i; j; k] = f (elt x [i; j; k]) (elt y [if e0 =? 1 then 0 else i; if e1 =? 1 then 0 else j; k]).
Proof.
  clear. intros Hx Hy H0 H1. unfold bzip_inplace, bzip, bshape. rewrite Hx, Hy. cbn [rev app bshape_rev]. rewrite !bdim_refl. cbn [bind].
  assert (B : forall d e, e = d \/ e = 1 -> bdim d e = Ok d) by (intros d e [->| ->]; [apply bdim_refl|apply bdim_1_r]).
  rewrite (B d1 e1 H1), (B d0 e0 H0). cbn [bind rev app shape].
  destruct (list_eq_dec Nat.eq_dec [d0; d1; d2] [d0; d1; d2]); [|congruence].
  eexists; split; [reflexivity|]. split; [reflexivity|]. intros i j k Hi Hj Hk. cbn [elt]. rewrite !bidx3.
  assert (E : forall d v, v < d -> (if d =? 1 then 0 else v) = v) by (intros d v Hv; destruct (Nat.eqb_spec d 1); lia).
  rewrite !E by assumption. reflexivity.
Qed.

Lemma bzip3s (f : R -> R -> R) (x y : tensor R) d0 d1 d2 : shape x = [d0; d1; d2] -> shape y = [d0; d1; d2] ->
  exists r, bzip_inplace f x y = Ok r /\ shape r = [d0; d1; d2] /\
    forall i j k, i < d0 -> j < d1 -> k < d2 -> elt r [i; j; k] = f (elt x [i; j; k]) (elt y [i; j; k]).
Proof.
  clear. intros Hx Hy. destruct (bzip3b f x y d0 d1 d2 d0 d1 Hx Hy (or_introl eq_refl) (or_introl eq_refl)) as [r [E [S V]]].
  exists r. split; [exact E|]. split; [exact S|]. intros i j k Hi Hj Hk. rewrite V by assumption.
  destruct (Nat.eqb_spec d0 1), (Nat.eqb_spec d1 1); do 3 f_equal; try (replace i with 0 by lia); try (replace j with 0 by lia); reflexivity.
Qed.

Lemma bzip3_err (f : R -> R -> R) (x y : tensor R) d0 d1 d2 e0 e1 e2 : shape x = [d0; d1; d2] -> shape y = [e0; e1; e2] ->
  ~ ((e0 = d0 \/ e0 = 1) /\ (e1 = d1 \/ e1 = 1) /\ (e2 = d2 \/ e2 = 1)) -> bzip_inplace f x y = Err RuntimeError.
Proof.
  clear. intros Hx Hy H. unfold bzip_inplace, bzip, bshape. rewrite Hx, Hy. cbn [rev app bshape_rev].
  assert (B : forall d e, bdim d e = Err RuntimeError \/ exists r, bdim d e = Ok r /\ (r = d -> e = d \/ e = 1)).
  { intros d e. unfold bdim. destruct (Nat.eqb_spec d e); [right; eexists; split; [reflexivity|auto]|].
    destruct (Nat.eqb_spec d 1); [right; eexists; split; [reflexivity|lia]|].
    destruct (Nat.eqb_spec e 1); [right; eexists; split; [reflexivity|lia]|]. left; reflexivity. }
  destruct (B d2 e2) as [->|[r2 [-> K2]]]; [reflexivity|]. cbn [bind].
  destruct (B d1 e1) as [->|[r1 [-> K1]]]; [reflexivity|]. cbn [bind].
  destruct (B d0 e0) as [->|[r0 [-> K0]]]; [reflexivity|]. cbn [bind rev app shape].
  destruct (list_eq_dec Nat.eq_dec [r0; r1; r2] [d0; d1; d2]) as [E|]; [|reflexivity].
  injection E as -> -> ->. exfalso. apply H. auto.
Qed.

(** one call, any accepted update: as the expanded one *)
Lemma avg_forward_ok x st b' c' L : shape x = [b'; c'; L] -> b' = b \/ b' = 1 -> c' = c \/ c' = 1 ->
  n * u + o_ <= L -> off <> Some 0 -> shape st = [c; oa_state_size u n] ->
  exists out st', oa_forward m x (Some st) = Ok (out, st') /\ shape out = [c; b * u] /\ shape st' = [c; oa_state_size u n] /\
  let ex := expanded b c x in
  let new l t := ((if t <? oa_state_size u n then elt st [l; t] else 0)
     + Rsum b (fun k => if covers u n k t then elt ex [k; l; (L - o_ - n * u + (t - k * u))%nat] / INR n else 0))%R in
  (forall l t, l < c -> t < b * u -> elt out [l; t] = new l t) /\
  (forall l t, l < c -> t < oa_state_size u n -> elt st' [l; t] = new l (b * u + t)).
Proof using All.
  intros Hx Hb' Hc' HL Hoff Hst.
  destruct (oa_create_inv u b n c off m Hu Hb Hn Hc Hm) as [w [Em [Sw Vw]]].
  unfold oa_forward. rewrite Em. cbn [oa_n oa_u oa_off oa_b oa_blank oa_idx oa_weights].
  destruct (slice_x u b n c off m Hu Hb Hn Hc Hm L HL Hoff) as [lo [hi [E0 [Elo Ehi]]]]. rewrite E0.
  rewrite Hx. cbn [length]. rewrite Nat.eqb_refl. cbn [negb].
  unfold slice_last. rewrite Hx. cbn [shape last removelast app]. rewrite Elo, Ehi. fold o_.
  set (xx := mk _ (fun i => (_ / _)%R)).
  assert (Sxx : shape xx = [b'; c'; n * u]) by (unfold xx; cbn [shape]; do 3 f_equal; lia).
  assert (Vxx : forall k l j, elt xx [k; l; j] = (elt x [k; l; (L - o_ - n * u + j)%nat] / INR n)%R).
  { intros. unfold xx. cbn [elt removelast last app]. rewrite Nat2Z.id, (Nat.add_comm j). reflexivity. }
  replace (Z.to_nat (Z.of_nat (L - o_) - Z.of_nat (L - o_ - n * u))) with (n * u) by (clear -HL; lia).
  set (sp := pad_right _ st).
  assert (Ssp : shape sp = [c; T_]) by (unfold sp, pad_right; rewrite Hst; cbn [shape]; unfold T_; do 2 f_equal; lia).
  assert (Vsp : forall l t, elt sp [l; t] = if t <? oa_state_size u n then elt st [l; t] else 0%R).
  { intros. unfold sp, pad_right. rewrite Hst. reflexivity. }
  destruct (unfold_windows_correct 0%R sp [c] T_ (n * u) u true Ssp) as [y [tl [Ey [Sy [Vy _]]]]];
    [cbn; lia|constructor; [exact Hc|constructor]|clear -Hn Hu; nia|exact Hu|rewrite T__eq; apply Nat.le_add_l|].
  rewrite Ey. cbn [bind].
  assert (Enw : (T_ - n * u) / u + 1 = b).
  { rewrite T__eq, Nat.add_sub, Nat.div_mul by (clear -Hu; lia). clear -Hb; lia. }
  rewrite Enw in *. clear Enw.
  assert (Vy' : forall k l j, k < b -> l < c -> j < n * u -> elt y [k; l; j] = elt sp [l; k * u + j]).
  { intros k l j Hk Hl Hj. specialize (Vy k [l] j Hk ltac:(cbn; lia) Hj). cbn [app] in Vy.
    assert (Ht : k * u + j < T_) by (rewrite T__eq; clear -Hk Hj; nia).
    rewrite get_inb in Vy by (rewrite Sy; cbn; lia). rewrite get_inb in Vy by (rewrite Ssp; cbn; lia). congruence. }
  destruct (bzip3s Rdiv y w b c (n * u) Sy Sw) as [y1 [E1 [S1 V1]]]. rewrite E1. cbn [bind].
  destruct (bzip3b Rplus y1 xx b c (n * u) b' c' S1 Sxx Hb' Hc') as [y2 [E2 [S2 V2]]]. rewrite E2. cbn [bind].
  destruct (scatter_idx u b n c off m Hu Hb Hn Hc Hm y2 S2) as [r [Er [Sr Vr]]]. rewrite Er. cbn [bind].
  set (new := sum0 r).
  assert (Snew : shape new = [c; T_]) by (unfold new, sum0; rewrite Sr; reflexivity).
  assert (Vnew : forall l t, l < c -> t < T_ -> elt new [l; t] =
     ((if t <? oa_state_size u n then elt st [l; t] else 0)
     + Rsum b (fun k => if covers u n k t then elt (expanded b c x) [k; l; (L - o_ - n * u + (t - k * u))%nat] / INR n else 0))%R).
  { intros l t Hl Ht. unfold new, sum0. rewrite Sr. cbn [elt].
    rewrite (Rsum_ext _ _ (fun k => (if covers u n k t then 1 else 0) * (elt sp [l; t] / wsum u b n t)
       + (if covers u n k t then elt (expanded b c x) [k; l; (L - o_ - n * u + (t - k * u))%nat] / INR n else 0))%R).
    - rewrite Rsum_plus, Rsum_scal_r. fold (wsum u b n t). rewrite <- Vsp. f_equal. field.
      apply (wsum_pos u b n c off m Hu Hb Hn Hc Hm), Ht.
    - intros k Hk. rewrite Vr by assumption. destruct (covers u n k t) eqn:Ec; [|lra].
      unfold covers in Ec. assert (Hj : t - k * u < n * u) by lia.
      rewrite V2, V1, Vxx, Vy', Vw by assumption. replace (k * u + (t - k * u)) with t by lia.
      unfold expanded. rewrite Hx. cbn [elt]. lra. }
  destruct (Nat.eqb_spec n 1) as [En|En].
  - assert (EZ : oa_state_size u n = 0) by (unfold oa_state_size; rewrite En; lia).
    exists new. eexists. split; [reflexivity|]. split; [rewrite Snew; unfold T_; rewrite EZ; do 2 f_equal; lia|].
    split; [reflexivity|]. split; [intros; apply Vnew; [assumption|unfold T_; lia]|]. intros l t _ Ht. lia.
  - unfold split2_last. rewrite Snew. cbn [last removelast app].
    match goal with |- context [if ?B then Err RuntimeError else _] => replace B with false end.
    2:{ symmetry. unfold T_, oa_state_size. clear. rewrite !Bool.orb_false_iff. rewrite Bool.negb_false_iff. rewrite !Z.ltb_ge, Z.eqb_eq, Nat2Z.inj_add, !Nat2Z.inj_mul. repeat split; try reflexivity; apply Z.mul_nonneg_nonneg; lia. }
    rewrite <- !Nat2Z.inj_mul, !Nat2Z.id. do 2 eexists. split; [reflexivity|]. cbn [shape]. split; [reflexivity|]. split; [reflexivity|].
    split; intros l t Hl Ht; cbn [elt removelast last app].
    + apply Vnew; [exact Hl|unfold T_; lia].
    + rewrite (Nat.add_comm t). apply Vnew; [exact Hl|unfold T_; lia].
Qed.

(** one call, any other 3D update *)
Lemma avg_forward_err x st b' c' L : shape x = [b'; c'; L] -> ~ accepted u b n c off x ->
  shape st = [c; oa_state_size u n] -> oa_forward m x (Some st) = Err RuntimeError.
Proof using All.
  intros Hx HN Hst.
  destruct (oa_create_inv u b n c off m Hu Hb Hn Hc Hm) as [w [Em [Sw Vw]]].
  unfold oa_forward. rewrite Em. cbn [oa_n oa_u oa_off oa_b oa_blank oa_idx oa_weights].
  rewrite Hx. cbn [length]. rewrite Nat.eqb_refl. cbn [negb].
  set (lo := match off with Some k => (- Z.of_nat n * Z.of_nat u + - Z.of_nat k)%Z | None => (- Z.of_nat n * Z.of_nat u)%Z end).
  set (hi := match off with Some k => Some (- Z.of_nat k)%Z | None => None end).
  replace (match off with Some k => ((- Z.of_nat n * Z.of_nat u + - Z.of_nat k)%Z, Some (- Z.of_nat k)%Z)
         | None => ((- Z.of_nat n * Z.of_nat u)%Z, None) end) with (lo, hi) by (unfold lo, hi; destruct off; reflexivity).
  unfold slice_last. rewrite Hx. cbn [shape last removelast app].
  set (wl := Z.to_nat (slice_hi (Z.of_nat L) hi - slice_lo (Z.of_nat L) (Some lo))).
  assert (Hnu : 0 < n * u) by (clear -Hn Hu; nia).
  assert (Hwl : (n * u + o_ <= L /\ off <> Some 0 /\ wl = n * u) \/ wl < n * u).
  { unfold wl, lo, hi, o_. clear -Hnu. assert (E : (- Z.of_nat n * Z.of_nat u = - Z.of_nat (n * u))%Z) by lia. rewrite E.
    generalize dependent (n * u). intros k Hk _. unfold slice_lo, slice_hi, py_clamp. destruct off as [[|f]|].
    - right. change (- Z.of_nat 0)%Z with 0%Z. change (0 <? 0)%Z with false. cbn iota. destruct (Z.ltb_spec (- Z.of_nat k + 0) 0); lia.
    - destruct (Z.ltb_spec (- Z.of_nat k + - Z.of_nat (S f)) 0); [|lia]. destruct (Z.ltb_spec (- Z.of_nat (S f)) 0); [|lia].
      destruct (Nat.le_gt_cases (k + S f) L); [left|right; lia]. split; [assumption|]. split; [discriminate|lia].
    - destruct (Z.ltb_spec (- Z.of_nat k) 0); [|lia].
      destruct (Nat.le_gt_cases k L); [left|right; lia]. split; [lia|]. split; [discriminate|lia]. }
  clearbody wl.
  set (sp := pad_right _ st).
  assert (Ssp : shape sp = [c; T_]) by (unfold sp, pad_right; rewrite Hst; cbn [shape]; unfold T_; do 2 f_equal; lia).
  clearbody sp.
  assert (HT : n * u <= T_) by (rewrite T__eq; apply Nat.le_add_l).
  destruct (Nat.eq_dec wl 0) as [->|Hw0].
  { assert (EU : unfold_windows 0%R sp (Z.of_nat 0) (Z.of_nat u) true = Err RuntimeError); [|rewrite EU; reflexivity].
    assert (ET : T_ = (b + n - 1) * u) by (unfold T_, oa_state_size; clear -Hb Hn; nia).
    unfold unfold_windows, last_dim. rewrite Ssp, ET. cbn [bind last].
    replace (Z.of_nat u =? 0)%Z with false by lia.
    assert (Ed : ((Z.of_nat ((b + n - 1) * u) - Z.of_nat 0) / Z.of_nat u = Z.of_nat (b + n - 1))%Z).
    { rewrite Z.sub_0_r, Nat2Z.inj_mul, Z.div_mul by lia. reflexivity. }
    rewrite Ed. replace (_ =? 0)%Z with true by nia. cbn [bind].
    unfold to4d, unfold_1k. rewrite Ssp, ET. cbn [shape].
    replace (_ || _)%bool with true; [reflexivity|].
    symmetry. rewrite !Bool.orb_true_iff. do 3 left. right. apply Z.leb_le. nia. }
  destruct (unfold_windows_correct 0%R sp [c] T_ wl u true Ssp) as [y [tl [Ey [Sy _]]]];
    [cbn; lia|constructor; [exact Hc|constructor]|lia|exact Hu|lia|].
  rewrite Ey. cbn [bind]. destruct Hwl as [[HL [Hoff Hwl]]|Hwl].
  - assert (Enw : (T_ - wl) / u + 1 = b).
    { rewrite Hwl, T__eq, Nat.add_sub, Nat.div_mul by (clear -Hu; lia). clear -Hb; lia. }
    rewrite Enw, Hwl in Sy. cbn [app] in Sy.
    destruct (bzip3s Rdiv y w b c (n * u) Sy Sw) as [y1 [E1 [S1 _]]]. rewrite E1. cbn [bind].
    rewrite (bzip3_err Rplus y1 _ _ _ _ b' c' wl S1); [reflexivity|reflexivity|].
    intros [H0 [H1 _]]. apply HN. exists b', c', L. auto.
  - cbn [app] in Sy. rewrite (bzip3_err Rdiv y w _ _ _ _ _ _ Sy Sw); [reflexivity|]. intros [_ [_ H]]. clear -H Hwl Hw0. lia.
Qed.
End Avg.

Section Histories.
Variables (u b n c : nat) (off : option nat) (m : oavg).
Hypothesis Hu : 0 < u. Hypothesis Hb : 0 < b. Hypothesis Hn : 0 < n. Hypothesis Hc : 0 < c.
Hypothesis Hm : oa_create u b n c off = Ok m.

(** two tensors [d0; d1] with the same shape and the same entries *)
Definition agree2 (x y : tensor R) : Prop :=
  shape x = shape y /\ forall l t, get x [l; t] = get y [l; t].

Lemma agree2_intro x y d0 d1 : shape x = [d0; d1] -> shape y = [d0; d1] ->
  (forall l t, l < d0 -> t < d1 -> elt x [l; t] = elt y [l; t]) -> agree2 x y.
Proof.
  clear. intros Hx Hy H. split; [congruence|]. intros l t. unfold get. rewrite Hx, Hy.
  destruct (inbb [l; t] [d0; d1]) eqn:E; [|reflexivity]. apply inbb_inb in E. cbn in E. rewrite H by lia. reflexivity.
Qed.

Lemma accepted_dec x b' c' L : shape x = [b'; c'; L] -> accepted u b n c off x \/ ~ accepted u b n c off x.
Proof.
  clear. intros Hx. unfold accepted.
  set (o := match off with Some k => k | None => 0 end).
  assert (D1 : (b' = b \/ b' = 1) \/ ~ (b' = b \/ b' = 1)) by lia.
  assert (D2 : (c' = c \/ c' = 1) \/ ~ (c' = c \/ c' = 1)) by lia.
  assert (D3 : n * u + o <= L \/ ~ n * u + o <= L) by lia.
  assert (D4 : off <> Some 0 \/ ~ off <> Some 0) by (destruct off as [[|k]|]; [right; congruence|left; congruence|left; congruence]).
  assert (D : ((b' = b \/ b' = 1) /\ (c' = c \/ c' = 1) /\ n * u + o <= L /\ off <> Some 0)
     \/ ~ ((b' = b \/ b' = 1) /\ (c' = c \/ c' = 1) /\ n * u + o <= L /\ off <> Some 0)) by tauto.
  destruct D as [D|D]; [left; exists b', c', L; auto|right].
  intros (b2 & c2 & L2 & E & P). rewrite Hx in E. injection E as <- <- <-. contradiction.
Qed.

Lemma expanded_good x : accepted u b n c off x -> good_batch u b n c off (expanded b c x).
Proof. clear. intros (b' & c' & L & Hx & _ & _ & HL & _). exists L. unfold expanded. rewrite Hx. split; [reflexivity|exact HL]. Qed.

Lemma avg_run us : forall st st2, shape st = [c; oa_state_size u n] -> shape st2 = [c; oa_state_size u n] ->
  (forall l t, l < c -> t < oa_state_size u n -> elt st [l; t] = elt st2 [l; t]) ->
  Forall (accepted u b n c off) us ->
  exists outs st' outs2 st2', oa_run m us (Some st) = Ok (outs, Some st') /\
    oa_run m (map (expanded b c) us) (Some st2) = Ok (outs2, Some st2') /\
    Forall2 agree2 outs outs2 /\ agree2 st' st2'.
Proof using Hu Hb Hn Hc Hm.
  induction us as [|x us IH]; intros st st2 Hst Hst2 He HF.
  - exists [], st, [], st2. split; [reflexivity|]. split; [reflexivity|]. split; [constructor|]. eapply agree2_intro; eassumption.
  - inversion HF as [|? ? (b' & c' & L & Hx & Hb' & Hc' & HL & Hoff) HF']; subst.
    destruct (avg_forward_ok u b n c off m Hu Hb Hn Hc Hm x st b' c' L Hx Hb' Hc' HL Hoff Hst) as (o1 & s1 & E1 & So1 & Ss1 & Vo1 & Vs1).
    assert (Hex : shape (expanded b c x) = [b; c; L]) by (unfold expanded; rewrite Hx; reflexivity).
    destruct (oa_forward_ok u b n c off m Hu Hb Hn Hc Hm (expanded b c x) L st2 Hex HL Hoff Hst2) as (o2 & s2 & E2 & So2 & Ss2 & Vo2 & Vs2).
    assert (EN : forall l t, l < c -> 
       ((if t <? oa_state_size u n then elt st [l; t] else 0) = (if t <? oa_state_size u n then elt st2 [l; t] else 0))%R).
    { intros l t Hl. destruct (Nat.ltb_spec t (oa_state_size u n)); [apply He; assumption|reflexivity]. }
    destruct (IH s1 s2 Ss1 Ss2) as (os1 & t1 & os2 & t2 & R1 & R2 & A1 & A2).
    + intros l t Hl Ht. rewrite Vs1, Vs2 by assumption. cbn zeta. rewrite EN by exact Hl. reflexivity.
    + exact HF'.
    + exists (o1 :: os1), t1, (o2 :: os2), t2. cbn [map oa_run]. rewrite E1, E2. cbn [bind]. rewrite R1, R2. cbn [bind].
      split; [reflexivity|]. split; [reflexivity|]. split; [|exact A2]. constructor; [|exact A1].
      apply (agree2_intro o1 o2 _ _ So1 So2). intros l t Hl Ht. rewrite Vo1, Vo2 by assumption. cbn zeta. rewrite EN by exact Hl. reflexivity.
Qed.

Lemma avg_run_err us : forall st, shape st = [c; oa_state_size u n] ->
  Forall (fun x => length (shape x) = 3) us -> ~ Forall (accepted u b n c off) us ->
  oa_run m us (Some st) = Err RuntimeError.
Proof using Hu Hb Hn Hc Hm.
  induction us as [|x us IH]; intros st Hst H3 HN; [exfalso; apply HN; constructor|].
  inversion H3 as [|? ? Hx H3']; subst. destruct (shape x) as [|b' [|c' [|L [|? ?]]]] eqn:Sx; try discriminate.
  destruct (accepted_dec x b' c' L Sx) as [HA|HB]; cbn [oa_run].
  - destruct HA as (b2 & c2 & L2 & Sx2 & Hb' & Hc' & HL & Hoff).
    destruct (avg_forward_ok u b n c off m Hu Hb Hn Hc Hm x st b2 c2 L2 Sx2 Hb' Hc' HL Hoff Hst) as (o1 & s1 & E1 & So1 & Ss1 & _).
    rewrite E1. cbn [bind]. rewrite (IH s1 Ss1 H3'); [reflexivity|]. intros HF. apply HN. constructor; [|exact HF].
    exists b2, c2, L2. auto.
  - rewrite (avg_forward_err u b n c off m Hu Hb Hn Hc Hm x st b' c' L Sx HB Hst). reflexivity.
Qed.
End Histories.

(** Any history of 3D updates, from the initial state.  It raises (RuntimeError) exactly when some update is not
    [b' in {batch_size, 1}; c' in {num_channels, 1}; at least num_updates * update_size + offset] (or offset is 0).
    Otherwise every output is (1/num_updates) times the sum of the predictions covering it, as in C15, where
    an update with one batch element or one channel stands, silently, for the same values in all of them. *)
Theorem online_averager_any_update u b n c off m us :
  oa_create u b n c off = Ok m -> 0 < u -> 0 < b -> 0 < n -> 0 < c -> us <> [] ->
  Forall (fun x => length (shape x) = 3) us ->
  let o := match off with Some k => k | None => 0 end in
  let pred := prediction (map (expanded b c) us) b u n o in
  (is_ok (oa_run m us None) <-> Forall (accepted u b n c off) us) /\
  (~ is_ok (oa_run m us None) -> oa_run m us None = Err RuntimeError) /\
  forall outs st', oa_run m us None = Ok (outs, st') -> length outs = length us /\
    (forall i out, nth_error outs i = Some out -> shape out = [c; b * u] /\
       forall l t, l < c -> t < b * u ->
         get out [l; t] = Some (average u n (length us * b) pred l (i * (b * u) + t))) /\
    exists st, st' = Some st /\ shape st = [c; (n - 1) * u] /\
      (forall l t, l < c -> t < (n - 1) * u ->
         get st [l; t] = Some (average u n (length us * b) pred l (length us * (b * u) + t))).
Proof.
  intros Hm Hu Hb Hn Hc Hne H3 o pred.
  destruct (oa_create_inv u b n c off m Hu Hb Hn Hc Hm) as [w [Em _]].
  assert (SI : shape (oa_init m) = [c; oa_state_size u n]) by (rewrite Em; reflexivity).
  assert (ER : forall us, us <> [] -> oa_run m us None = oa_run m us (Some (oa_init m))) by (intros [|? ?] H; [congruence|reflexivity]).
  assert (D : Forall (accepted u b n c off) us \/ ~ Forall (accepted u b n c off) us).
  { clear -H3. induction us as [|x us IH]; [left; constructor|]. inversion H3 as [|? ? Hx H3']; subst.
    destruct (shape x) as [|b' [|c' [|L [|? ?]]]] eqn:Sx; try discriminate.
    destruct (accepted_dec u b n c off x b' c' L Sx) as [A|A]; [|right; intros H; inversion H; contradiction].
    destruct (IH H3') as [B|B]; [left; constructor; assumption|right; intros H; inversion H; contradiction]. }
  destruct D as [HF|HN].
  2:{ rewrite (ER us Hne), (avg_run_err u b n c off m Hu Hb Hn Hc Hm us _ SI H3 HN). split; [split; [intros [? E]; discriminate|intros H; contradiction]|].
      split; [reflexivity|]. intros outs st' E. discriminate. }
  destruct (avg_run u b n c off m Hu Hb Hn Hc Hm us _ _ SI SI (fun _ _ _ _ => eq_refl) HF) as (outs & st & outs2 & st2 & E1 & E2 & A1 & A2).
  assert (Hoff : off <> Some 0).
  { destruct us as [|x us]; [congruence|]. inversion HF as [|? ? (? & ? & ? & _ & _ & _ & _ & H) _]. exact H. }
  assert (Hne2 : map (expanded b c) us <> []) by (destruct us; [congruence|discriminate]).
  destruct (online_averager_stream u b n c off m (map (expanded b c) us) Hm Hu Hb Hn Hc Hoff Hne2) as (o2 & s2 & E & L & V & S & W).
  { apply Forall_map. eapply Forall_impl; [|exact HF]. intros x Hx. apply (expanded_good u b n c off x Hx). }
  rewrite (ER _ Hne2), E2 in E. injection E as <- <-. rewrite map_length in *.
  rewrite (ER us Hne), E1. split; [split; [intros _; exact HF|intros _; eexists; reflexivity]|].
  split; [intros H; exfalso; apply H; eexists; reflexivity|].
  intros outs' st' E. injection E as <- <-.
  assert (LL : length outs = length outs2) by (clear -A1; induction A1; cbn; congruence).
  split; [congruence|]. split.
  - intros i out Hi.
    assert (X : exists out2, nth_error outs2 i = Some out2 /\ agree2 out out2).
    { clear -A1 Hi. revert i Hi. induction A1 as [|p q ps qs Hpq _ IH]; intros [|i] Hi; try discriminate; cbn in Hi |- *.
      - injection Hi as <-. eauto.
      - apply IH, Hi. }
    destruct X as (out2 & Hi2 & [Sh Eq]). destruct (V i out2 Hi2) as [So Vo]. split; [congruence|].
    intros l t Hl Ht. rewrite Eq. apply Vo; assumption.
  - exists st. split; [reflexivity|]. destruct A2 as [Sh Eq]. split; [congruence|]. intros l t Hl Ht. rewrite Eq. apply W; assumption.
Qed.

(** An update with fewer than three axes raises IndexError. *)
Theorem online_averager_rank u b n c off m x st : oa_create u b n c off = Ok m -> 0 < u -> 0 < b -> 0 < n -> 0 < c ->
  length (shape x) < 3 -> oa_forward m x st = Err IndexError.
Proof.
  intros Hm Hu Hb Hn Hc Hx. unfold oa_forward. replace (length (shape x) =? 3) with false by lia. destruct (oa_off m); reflexivity.
Qed.

Example misshapen_nonvacuous :
  (exists s, snap_create 2 3 2 4 None = Ok s /\ lengths 2 [5; 2; 3] [mk [2; 5] (fun _ => 0); mk [2; 2] (fun _ => 0); mk [2; 3] (fun _ => 0)]) /\
  starts 2 4 [5; 2; 3] = [0; 2; 5; 7] /\
  (* size 3, stride 2 over a 3-sample update, then more : nothing lost (3 >= 2 + 1); stride 3 and 5 samples : sample 4 is lost *)
  (4 < 3 + 5 mod 3 /\ starts 3 2 [5; 6] = [0; 5; 8]) /\
  (exists m, oa_create 2 3 2 2 (Some 1) = Ok m /\
     Forall (accepted 2 3 2 2 (Some 1)) [mk [1; 2; 5] (fun _ => 0%R); mk [3; 1; 6] (fun _ => 1%R)] /\
     ~ accepted 2 3 2 2 (Some 1) (mk [2; 2; 5] (fun _ => 0%R))).
Proof.
  split; [eexists; split; [reflexivity|repeat constructor]|]. split; [reflexivity|]. split; [split; [cbn; lia|reflexivity]|].
  assert (H : exists m, oa_create 2 3 2 2 (Some 1) = Ok m) by (vm_compute; eexists; reflexivity).
  destruct H as [m H]. exists m. split; [exact H|]. split.
  - apply List.Forall_cons; [|apply List.Forall_cons; [|apply List.Forall_nil]].
    + exists 1, 2, 5. cbn. repeat split; auto; congruence.
    + exists 3, 1, 6. cbn. repeat split; auto; congruence.
  - intros (b' & c' & L & E & [B|B] & _); cbn in E; injection E as <- <- <-; discriminate.
Qed.
