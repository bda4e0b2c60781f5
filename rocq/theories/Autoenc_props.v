(** C17-C20, C61: autoencoders and skip connections.
    C17: without a skip connection forward / decode raises TypeError for every input; with one, decode validates the
         number of states.
    C18: which encoder state reaches which decoder.
    C19: match_size.
    C20: ConcatSkipConnect.
    C61: ConvolutionalAutoencoder: activation classes are called on tensors, so it never returns unless there is exactly
         one block with an output activation acting on tensors; then the output has the input's length. *)
From Verif Require Import Base Tensor Streaming_model Autoenc_model.
Local Open Scope nat_scope.

(** ** C17 *)
Lemma ae_loop_none_err {V} (skip : option (V -> V -> res V)) rbs i x :
  rbs <> [] -> is_err (ae_loop skip None rbs i x).
Proof.
  destruct rbs as [|b rest]; [congruence|]. intros _. cbn.
  destruct (dec b x) as [y|e]; cbn; eexists; reflexivity.
Qed.

(** Every call fails, and as soon as the deepest decoder itself succeeds the failure is the TypeError. *)
Theorem autoencoder_no_skip_decode {V} (bs : list (block V)) (b : block V) (x : V) :
  is_err (ae_decode None (bs ++ [b]) x None) /\
  (forall y, dec b x = Ok y -> ae_decode None (bs ++ [b]) x None = Err TypeError).
Proof.
  unfold ae_decode. rewrite rev_app_distr. cbn [rev app]. split.
  - apply ae_loop_none_err. congruence.
  - intros y E. cbn. rewrite E. reflexivity.
Qed.

Theorem autoencoder_no_skip_forward {V} (bs : list (block V)) (b : block V) (x : V) :
  is_err (ae_forward None (bs ++ [b]) x) /\
  (forall z sts y, ae_encode (bs ++ [b]) x = Ok (z, sts) -> dec b z = Ok y -> ae_forward None (bs ++ [b]) x = Err TypeError).
Proof.
  unfold ae_forward. split.
  - destruct (ae_encode (bs ++ [b]) x) as [[z sts]|e]; cbn; [|eexists; reflexivity].
    apply autoencoder_no_skip_decode.
  - intros z sts y E D. rewrite E. cbn. eapply (proj2 (autoencoder_no_skip_decode bs b z)), D.
Qed.

(** decode's argument checks, for every number of blocks and states *)
Theorem autoencoder_decode_checks {V} (skip : V -> V -> res V) (bs : list (block V)) (x : V) (states : list V) :
  ae_decode (Some skip) bs x None = Err ValueError /\
  (length states <> length bs - 1 \/ bs = [] -> forall sk, ae_decode sk bs x (Some states) = Err ValueError).
Proof.
  split; [reflexivity|]. intros H sk. unfold ae_decode.
  assert (E : (length states + 1 =? length bs) = false).
  { apply Nat.eqb_neq. destruct H as [H| ->]; cbn; [|lia]. destruct bs; cbn in *; lia. }
  rewrite E. destruct sk; reflexivity.
Qed.

(** ** C18 *)
(** the decoder pass for a given pairing of decoders with (optional) states, deepest decoder first *)
Fixpoint run_pairs {V} (skip : V -> V -> res V) (l : list (block V * option V)) (x : V) : res V :=
  match l with
  | [] => Ok x
  | (b, None) :: l' => let* y := dec b x in run_pairs skip l' y
  | (b, Some s) :: l' => let* y := dec b x in let* z := skip y s in run_pairs skip l' z
  end.

Lemma pyindex_neg {A} (l : list A) i a : nth_error (rev l) i = Some a -> pyindex l (- Z.of_nat i - 1) = Ok a.
Proof.
  intros H. assert (Hi : i < length l) by (rewrite <- rev_length; apply nth_error_Some; congruence).
  unfold pyindex. destruct (Z.ltb_spec (- Z.of_nat i - 1) 0); [|lia].
  destruct (Z.ltb_spec (- Z.of_nat i - 1 + Z.of_nat (length l)) 0); [lia|].
  replace (Z.to_nat (- Z.of_nat i - 1 + Z.of_nat (length l))) with (length l - 1 - i) by lia.
  apply (nth_error_nth _ _ a) in H. rewrite rev_nth in H by lia.
  rewrite (nth_error_nth' l a) by lia. replace (length l - 1 - i) with (length l - S i) by lia. congruence.
Qed.

Lemma ae_loop_pairs {V} (skip : V -> V -> res V) (l : list (option V)) rbs i x :
  length rbs + i = length l ->
  ae_loop (Some skip) (Some l) rbs i x = run_pairs skip (combine rbs (skipn i (rev l))) x.
Proof.
  revert i x; induction rbs as [|b rest IH]; intros i x L; [reflexivity|].
  assert (Hi : i < length (rev l)) by (rewrite rev_length; cbn in L; lia).
  destruct (nth_error (rev l) i) as [st|] eqn:E; [|apply nth_error_None in E; lia].
  cbn [ae_loop]. rewrite (pyindex_neg l i st E).
  assert (S1 : skipn i (rev l) = st :: skipn (S i) (rev l)).
  { clear -E. revert i E. generalize (rev l) as m. induction m as [|a m IHm]; intros [|i] E; cbn in *; try discriminate.
    - congruence.
    - rewrite (IHm i E). destruct m; reflexivity. }
  rewrite S1. cbn [combine run_pairs].
  destruct st as [s|]; cbn [bind]; destruct (dec b x) as [y|e]; cbn; try reflexivity.
  - destruct (skip y s) as [z|e]; cbn; [|reflexivity]. apply IH. cbn in L; lia.
  - apply IH. cbn in L; lia.
Qed.

(** The exact pairing: the deepest decoder gets no state and the decoder [i] levels above it gets the state of encoder
    [i-1], i.e. in decoder order: None, s_0, s_1, ... *)
Theorem autoencoder_decode_pairing {V} (skip : V -> V -> res V) (bs : list (block V)) (x : V) (states : list V) :
  length states + 1 = length bs ->
  ae_decode (Some skip) bs x (Some states) = run_pairs skip (combine (rev bs) (None :: map Some states)) x.
Proof.
  intros L. unfold ae_decode. apply Nat.eqb_eq in L. rewrite L. cbn [negb]. apply Nat.eqb_eq in L.
  rewrite ae_loop_pairs by (rewrite app_length, map_length, !rev_length; cbn; lia).
  cbn [skipn]. rewrite rev_app_distr. cbn [rev app]. rewrite <- map_rev, rev_involutive. reflexivity.
Qed.

(** outputs of the first n encoders *)
Fixpoint enc_chain {V} (bs : list (block V)) (x : V) : res V :=
  match bs with [] => Ok x | b :: bs' => let* y := enc b x in enc_chain bs' y end.

Lemma ae_encode_states_spec {V} (bs : list (block V)) x z sts :
  ae_encode_states bs x = Ok (z, sts) ->
  length sts = length bs /\ enc_chain bs x = Ok z /\
  forall i s, nth_error sts i = Some s -> enc_chain (firstn (S i) bs) x = Ok s.
Proof.
  revert x z sts; induction bs as [|b bs IH]; intros x z sts H; cbn in H.
  - injection H as <- <-. repeat split. intros [|i] s E; discriminate.
  - destruct (enc b x) as [y|e] eqn:Ey; cbn in H; [|discriminate].
    destruct (ae_encode_states bs y) as [[z' sts']|e] eqn:Es; cbn in H; [|discriminate].
    injection H as -> <-. destruct (IH y z sts' Es) as [L [C P]]. cbn [length enc_chain]. rewrite Ey. cbn [bind].
    repeat split; [congruence|exact C|]. intros [|i] s E.
    + cbn in E. injection E as <-. cbn. rewrite Ey. reflexivity.
    + cbn [nth_error] in E. change (firstn (S (S i)) (b :: bs)) with (b :: firstn (S i) bs). cbn [enc_chain]. rewrite Ey. cbn [bind].
      apply P, E.
Qed.

(** The whole forward pass: the state that decoder [i] levels above the deepest (i >= 1) is combined with is the output
    of the first i encoders (the encoder's state number i-1), and the deepest decoder gets none. *)
Theorem autoencoder_forward_pairing {V} (skip : V -> V -> res V) (bs : list (block V)) (x z : V) :
  bs <> [] -> enc_chain bs x = Ok z ->
  exists states, length states + 1 = length bs /\
    (forall i s, nth_error states i = Some s -> enc_chain (firstn (S i) bs) x = Ok s) /\
    ae_forward (Some skip) bs x = run_pairs skip (combine (rev bs) (None :: map Some states)) z.
Proof.
  intros Hb Hz.
  assert (T : forall bs' (x' z' : V), enc_chain bs' x' = Ok z' -> exists sts, ae_encode_states bs' x' = Ok (z', sts)).
  { clear. induction bs' as [|b bs' IH]; intros x z H; cbn in *.
    - injection H as ->. eexists; reflexivity.
    - destruct (enc b x) as [y|e]; cbn in *; [|discriminate]. destruct (IH y z H) as [sts ->]. cbn. eexists; reflexivity. }
  destruct (T bs x z Hz) as [sts E].
  destruct (ae_encode_states_spec bs x z sts E) as [L [_ P]].
  exists (removelast sts).
  assert (L2 : length (removelast sts) + 1 = length bs).
  { rewrite <- L. destruct sts as [|s0 sts0]; [destruct bs; [congruence|discriminate]|].
    rewrite (app_removelast_last s0 (l := s0 :: sts0)) at 2 by congruence. rewrite app_length. cbn; lia. }
  split; [exact L2|]. split.
  - intros i s Hs. apply P.
    destruct sts as [|s0 sts0]; [destruct i; discriminate|].
    rewrite (app_removelast_last s0 (l := s0 :: sts0)) by congruence.
    rewrite nth_error_app1; [exact Hs|]. apply nth_error_Some. congruence.
  - unfold ae_forward, ae_encode. rewrite E. cbn [bind]. apply autoencoder_decode_pairing, L2.
Qed.

(** The mirrored (U-Net) pairing, which the comment "Don't skip connect the output layer" describes, gives the decoder
    whose output stands for the input of block j the state with that same shape: deepest first s_{n-2}, ..., s_0, None. *)
Definition mirrored {V} (bs : list (block V)) (states : list V) : list (block V * option V) :=
  combine (rev bs) (map Some (rev states) ++ [None]).

(** For every depth of at least two there are blocks, states and an input for which decode differs from the mirrored
    pairing. *)
Theorem autoencoder_mirrored_refuted n : 2 <= n ->
  exists (V : Type) (skip : V -> V -> res V) (bs : list (block V)) (x : V) (states : list V),
    length bs = n /\ length states + 1 = n /\
    ae_decode (Some skip) bs x (Some states) <> run_pairs skip (mirrored bs states) x.
Proof.
  intros Hn. exists (list nat), (fun x s => Ok (x ++ s)), (repeat {| enc := fun x => Ok x; dec := fun x => Ok (x ++ [0]) |} n), [], (repeat [1] (n - 1)).
  rewrite !repeat_length. repeat split; [lia|].
  rewrite autoencoder_decode_pairing by (rewrite !repeat_length; lia).
  unfold mirrored.
  destruct n as [|[|m]]; try lia. cbn [Nat.sub].
  set (b := {| enc := _; dec := _ |}).
  assert (R : rev (repeat b (S (S m))) = repeat b (S (S m))).
  { clear. generalize (S (S m)) as k. induction k; [reflexivity|]. cbn [repeat rev]. rewrite IHk. clear IHk. induction k; [reflexivity|]. cbn. now rewrite IHk at 1. }
  assert (R1 : rev (repeat [1] (S m)) = repeat [1] (S m)).
  { clear. generalize (S m) as k. induction k; [reflexivity|]. cbn [repeat rev]. rewrite IHk. clear IHk. induction k; [reflexivity|]. cbn. now rewrite IHk at 1. }
  rewrite R, R1. cbn [repeat map combine app run_pairs dec b bind].
  (* the two runs have already produced [0;0...] and [0;1...] *)
  assert (P : forall l y r, run_pairs (fun x s : list nat => Ok (x ++ s)) l y = Ok r ->
              (forall p, In p l -> fst p = b) -> exists r', r = y ++ r').
  { clear. induction l as [|[b' o] l IH]; intros y r H F; cbn in H.
    - injection H as <-. exists []. now rewrite app_nil_r.
    - assert (b' = b) by (apply (F (b', o)); now left). subst b'. cbn in H.
      assert (F' : forall p, In p l -> fst p = b) by (intros p Hp; apply F; now right).
      destruct o as [s|]; cbn in H; destruct (IH _ _ H F') as [r' ->]; rewrite <- !app_assoc; eexists; reflexivity. }
  assert (F : forall (l : list (option (list nat))) p, In p (combine (repeat b m) l) -> fst p = b).
  { clear. intros l [p q] H. apply in_combine_l in H. apply repeat_spec in H. exact H. }
  destruct m as [|m].
  - cbn. intros H. discriminate.
  - intros H.
    match type of H with ?l = ?r => destruct l as [u|] eqn:E1 end.
    + symmetry in H. apply P in E1; [|apply F]. apply P in H.
      * destruct E1 as [u1 E1], H as [u2 E2]. cbn in E1, E2. rewrite E1 in E2. discriminate.
      * intros [p q] Hp. 
        change (In (p, q) (combine (repeat b (S (S m))) (map Some (repeat [1] (S m)) ++ [None]))) in Hp.
        apply in_combine_l in Hp. apply repeat_spec in Hp. exact Hp.
    + assert (Q : forall l y, (forall p, In p l -> fst p = b) -> exists r, run_pairs (fun x s : list nat => Ok (x ++ s)) l y = Ok r).
      { clear. induction l as [|[b' o] l IH]; intros y F; cbn; [eexists; reflexivity|].
        assert (b' = b) by (apply (F (b', o)); now left). subst b'. cbn.
        assert (F' : forall p, In p l -> fst p = b) by (intros p Hp; apply F; now right).
        destruct o; cbn; apply IH, F'. }
      match type of E1 with run_pairs _ ?l ?y = _ => destruct (Q l y) as [r0 Hr0] end; [|congruence].
      apply F.
Qed.

(** ** C19 *)
(** Centring in zeros: for a target at least as long as the input, entry j is x[j - floor(d/2)] inside and 0 outside. *)
Theorem match_size_pad {A} (zero : A) (x : tensor A) b c n target :
  shape x = [b; c; n] -> n <= target ->
  exists y, match_size zero x (Z.of_nat target) = Ok y /\ shape y = [b; c; target] /\
    forall i k j, i < b -> k < c -> j < target ->
      get y [i; k; j] = let l := (target - n) / 2 in
                        if (l <=? j) && (j <? l + n) then get x [i; k; j - l] else Some zero.
Proof.
  intros Hs Hn. unfold match_size, ndim. rewrite Hs. cbn [length Nat.eqb last].
  destruct (Z.ltb_spec 0 (Z.of_nat target - Z.of_nat n)) as [H|H].
  - eexists; split; [reflexivity|]. unfold pad_last. rewrite Hs. cbn [removelast app last].
    set (l := Z.to_nat ((Z.of_nat target - Z.of_nat n) / 2)).
    assert (El : l = (target - n) / 2).
    { unfold l. rewrite <- Nat2Z.inj_sub by lia. change 2%Z with (Z.of_nat 2). rewrite <- Nat2Z.inj_div. apply Nat2Z.id. }
    assert (Hl : l <= target - n) by (rewrite El; apply Nat.div_le_upper_bound; lia).
    assert (Er : l + n + Z.to_nat (Z.of_nat target - Z.of_nat n - (Z.of_nat target - Z.of_nat n) / 2) = target).
    { unfold l. lia. }
    rewrite Er. split; [reflexivity|]. intros i k j Hi Hk Hj. cbn zeta. rewrite <- El.
    rewrite get_inb by (cbn; auto). cbn [elt last removelast app].
    destruct ((l <=? j) && (j <? l + n)) eqn:E; [|reflexivity].
    rewrite get_inb by (rewrite Hs; cbn; lia). reflexivity.
  - assert (target = n) by lia. subst target.
    destruct (Z.ltb_spec (Z.of_nat n - Z.of_nat n) 0); [lia|].
    exists x. split; [reflexivity|]. split; [assumption|]. intros i k j Hi Hk Hj. cbn zeta. rewrite Nat.sub_diag.
    change (0 / 2) with 0. cbn [Nat.add].
    replace ((0 <=? j) && (j <? n)) with true by lia. rewrite Nat.sub_0_r. reflexivity.
Qed.

(** One sample too many: the FIRST sample is dropped. *)
Theorem match_size_crop1 {A} (zero : A) (x : tensor A) b c n :
  shape x = [b; c; S n] ->
  exists y, match_size zero x (Z.of_nat n) = Ok y /\ shape y = [b; c; n] /\
    forall i k j, i < b -> k < c -> j < n -> get y [i; k; j] = get x [i; k; S j].
Proof.
  intros Hs. unfold match_size, ndim. rewrite Hs. cbn [length Nat.eqb last].
  replace (Z.of_nat n - Z.of_nat (S n))%Z with (-1)%Z by lia.
  change (-1 / 2)%Z with (-1)%Z. change (0 <? -1)%Z with false. change (-1 <? 0)%Z with true. cbn [Nat.ltb].
  change (3 <? 3) with false. cbn iota. change (- (-1 - -1) =? 0)%Z with true. cbn iota.
  eexists; split; [reflexivity|]. unfold slice_last. rewrite Hs. cbn [last removelast app].
  unfold slice_hi, slice_lo, py_clamp. change (- -1)%Z with 1%Z. change (1 <? 0)%Z with false. cbn iota.
  replace (Z.to_nat (Z.max 0 (Z.min 1 (Z.of_nat (S n))))) with 1 by lia.
  replace (Z.to_nat (Z.of_nat (S n) - Z.max 0 (Z.min 1 (Z.of_nat (S n))))) with n by lia.
  cbn [shape]. split; [reflexivity|]. intros i k j Hi Hk Hj.
  rewrite !get_inb by (cbn [shape]; rewrite ?Hs; cbn; lia). cbn [elt last removelast app].
  replace (j + 1) with (S j) by lia. reflexivity.
Qed.

(** Two or more samples too many: the result has no samples at all, whatever the target. *)
Theorem match_size_crop_empty {A} (zero : A) (x : tensor A) b c n target :
  shape x = [b; c; n] -> target + 2 <= n ->
  exists y, match_size zero x (Z.of_nat target) = Ok y /\ shape y = [b; c; 0].
Proof.
  intros Hs Hn. unfold match_size, ndim. rewrite Hs. cbn [length Nat.eqb last].
  destruct (Z.ltb_spec 0 (Z.of_nat target - Z.of_nat n)) as [H|H]; [lia|].
  destruct (Z.ltb_spec (Z.of_nat target - Z.of_nat n) 0); [|lia].
  change (3 <? 3) with false. cbn iota. eexists; split; [reflexivity|].
  unfold slice_last. rewrite Hs. cbn [last removelast app shape]. do 3 f_equal.
  set (d := (Z.of_nat target - Z.of_nat n)%Z) in *.
  destruct (Z.eqb_spec (- (d - d / 2)) 0) as [E|E]; [lia|].
  unfold slice_hi, slice_lo, py_clamp.
  destruct (Z.ltb_spec (- (d - d / 2)) 0); [lia|].
  destruct (Z.ltb_spec (- (d / 2)) 0); [lia|]. lia.
Qed.

(** hence the target length is reached on cropping iff the excess is one sample or the target is zero *)
Theorem match_size_crop_refuted {A} (zero : A) (x : tensor A) b c n target :
  shape x = [b; c; n] -> target < n ->
  (exists y, match_size zero x (Z.of_nat target) = Ok y /\ shape y = [b; c; target]) <-> n = S target \/ target = 0.
Proof.
  intros Hs Hn. split.
  - intros [y [E S]]. destruct (Nat.eq_dec n (1 + target)) as [|D]; [now left|]. right.
    destruct (match_size_crop_empty zero x b c n target Hs ltac:(lia)) as [y' [E' S']].
    rewrite E in E'. injection E' as <-. congruence.
  - destruct (Nat.eq_dec n (1 + target)) as [->|D].
    + intros _. destruct (match_size_crop1 zero x b c target Hs) as [y [E [S _]]]. eauto.
    + intros [->| ->]; [lia|]. destruct (match_size_crop_empty zero x b c n 0 Hs ltac:(lia)) as [y' [E' S']]. eauto.
Qed.

(** ** C20 *)
Lemma interleave_ok {A} (l m : list A) : length l = length m ->
  exists r, interleave l m = Ok r /\ length r = 2 * length l /\
    forall i, nth_error r (2 * i) = nth_error l i /\ nth_error r (2 * i + 1) = nth_error m i.
Proof.
  revert m; induction l as [|a l IH]; intros [|b m] H; try discriminate.
  - exists []. repeat split; cbn; destruct i; reflexivity.
  - destruct (IH m) as [r [E [L P]]]; [now injection H|]. cbn. rewrite E. cbn.
    exists (a :: b :: r). split; [reflexivity|]. split; [cbn; lia|]. intros [|i]; [split; reflexivity|].
    replace (S i + (S i + 0)) with (S (S (2 * i))) by lia. replace (S (S (2 * i)) + 1) with (S (S (2 * i + 1))) by lia. cbn [nth_error]. apply P.
Qed.

Lemma cat1_elt_blocks {A} (l : list (tensor A)) (d : list nat -> A) n b c t x :
  0 < n -> (forall y, In y l -> nth 1 (shape y) 0 = n) -> nth_error l (c / n) = Some x ->
  cat1_elt l d b c t = elt x [b; c mod n; t].
Proof.
  intros Hn. revert c; induction l as [|y l IH]; intros c H E; [destruct (c / n); discriminate|].
  cbn. rewrite (H y) by now left. destruct (Nat.ltb_spec c n).
  - rewrite Nat.div_small in E by lia. injection E as ->. rewrite Nat.mod_small by lia. reflexivity.
  - assert (E1 : c / n = S ((c - n) / n)).
    { replace c with ((c - n) + 1 * n) at 1 by lia. rewrite Nat.div_add by lia. lia. }
    rewrite E1 in E. cbn in E. rewrite IH by (try assumption; intros; apply H; now right).
    replace (c mod n) with ((c - n) mod n); [reflexivity|].
    replace c with ((c - n) + 1 * n) at 2 by lia. rewrite Nat.mod_add by lia. reflexivity.
Qed.

Lemma list_sum_map_const {A} (l : list A) (f : A -> nat) n : (forall x, In x l -> f x = n) -> list_sum (map f l) = length l * n.
Proof. induction l as [|a l IH]; intros H; [reflexivity|]. cbn [map length list_sum fold_right]. change (fold_right plus 0 (map f l)) with (list_sum (map f l)). rewrite IH, (H a) by (try (now left); intros; apply H; now right). reflexivity. Qed.

(** Output of ConcatSkipConnect for every input whose length already matches the state's (match_size is then the
    identity; in general X is first resized, see C19): 2*channels channels, in alternating chunks of [groups] channels. *)
Theorem concat_skip_forward {A} (zero : A) add g (x st : tensor A) b c t :
  shape x = [b; c; t] -> shape st = [b; c; t] -> 0 < c -> 2 <= g -> c mod g = 0 ->
  exists y, skip_forward zero add (ConcatSkip g) x st = Ok y /\ shape y = [b; 2 * c; t] /\
    forall i k j, i < b -> k < 2 * c -> j < t ->
      get y [i; k; j] = let q := k / (2 * g) in let r := k mod (2 * g) in
                        if r <? g then get x [i; q * g + r; j] else get st [i; q * g + (r - g); j].
Proof.
  intros Sx Ss Hc Hg Hm. unfold skip_forward, ndim. rewrite Ss. cbn [length Nat.eqb last].
  destruct (match_size_pad zero x b c t t Sx (le_n t)) as [x' [E _]].
  assert (Ex : x' = x).
  { revert E. unfold match_size, ndim. rewrite Sx. cbn [length Nat.eqb last]. rewrite Z.sub_diag. change (0 <? 0)%Z with false. cbn iota. congruence. }
  rewrite Ex in E. rewrite E. cbn [bind]. rewrite Sx. cbn [nth_error].
  destruct (Nat.eqb_spec g 1); [lia|]. destruct (Nat.eqb_spec g 0); [lia|]. rewrite Hm. cbn [Nat.eqb negb].
  unfold split_chunks. rewrite Sx, Ss. cbn [nth].
  assert (Ec : c = (c / g) * g) by (pose proof (Nat.div_mod c g ltac:(lia)); lia).
  assert (Hq : 0 < c / g) by (destruct (c / g); [cbn in Ec; lia|lia]).
  set (q := c / g) in *.
  replace (Nat.max 1 ((c + g - 1) / g)) with q.
  2:{ replace (c + g - 1) with ((g - 1) + q * g) by lia. rewrite Nat.div_add by lia. rewrite Nat.div_small by lia. lia. }
  set (lx := map _ (seq 0 q)). set (ls := map _ (seq 0 q)).
  assert (Hchunk : forall (z : tensor A) l k, shape z = [b; c; t] -> l = map (fun q0 => chunk1 (q0 * g) (Nat.min g (c - q0 * g)) z) (seq 0 q) ->
     k < q -> exists f, nth_error l k = Some (mk [b; g; t] f) /\ forall i ch j, f [i; ch; j] = elt z [i; k * g + ch; j]).
  { intros z l k Hz -> Hk. rewrite nth_error_map', nth_error_seq by lia. cbn [option_map Nat.add]. unfold chunk1. rewrite Hz.
    replace (Nat.min g (c - k * g)) with g by nia. eexists; split; [reflexivity|]. reflexivity. }
  assert (Lx : length lx = q) by (unfold lx; rewrite map_length, seq_length; reflexivity).
  assert (Ls : length ls = q) by (unfold ls; rewrite map_length, seq_length; reflexivity).
  destruct (interleave_ok lx ls) as [fr [Ef [Lf Pf]]]; [congruence|].
  rewrite Ef. cbn [bind].
  assert (Hfr : forall k, k < 2 * q -> exists f, nth_error fr k = Some (mk [b; g; t] f) /\
     forall i ch j, f [i; ch; j] = elt (if k mod 2 =? 0 then x else st) [i; k / 2 * g + ch; j]).
  { intros k Hk. assert (D := Nat.div_mod k 2 ltac:(lia)). assert (M := Nat.mod_upper_bound k 2 ltac:(lia)).
    destruct (Nat.eqb_spec (k mod 2) 0) as [M0|M0].
    - destruct (Hchunk x lx (k / 2) Sx eq_refl ltac:(lia)) as [f [F1 F2]].
      exists f. split; [|assumption]. replace k with (2 * (k / 2)) at 1 by lia. rewrite (proj1 (Pf _)). exact F1.
    - destruct (Hchunk st ls (k / 2) Ss eq_refl ltac:(lia)) as [f [F1 F2]].
      exists f. split; [|assumption]. replace k with (2 * (k / 2) + 1) at 1 by lia. rewrite (proj2 (Pf _)). exact F1. }
  assert (Hall : forall y, In y fr -> shape y = [b; g; t]).
  { intros y Hy. apply In_nth_error in Hy. destruct Hy as [k Hk].
    assert (k < 2 * q) by (rewrite <- Lx, <- Lf; apply nth_error_Some; congruence).
    destruct (Hfr k H) as [f [F _]]. rewrite F in Hk. injection Hk as <-. reflexivity. }
  unfold cat1. destruct fr as [|y0 fr']; [cbn in Lf; lia|].
  rewrite (Hall y0 (or_introl eq_refl)).
  set (fr := y0 :: fr') in *.
  assert (FB : forallb (fun y => match shape y with [b'; _; t'] => (b' =? b) && (t' =? t) | _ => false end) fr = true).
  { apply forallb_forall. intros y Hy. rewrite (Hall y Hy). rewrite !Nat.eqb_refl. reflexivity. }
  rewrite FB. eexists; split; [reflexivity|]. cbn [shape].
  rewrite (list_sum_map_const fr _ g) by (intros y Hy; rewrite (Hall y Hy); reflexivity).
  rewrite Lf, Lx. replace (2 * q * g) with (2 * c) by lia. split; [reflexivity|].
  intros i k j Hi Hk Hj. cbn zeta. rewrite get_inb by (cbn; auto). cbn [elt].
  assert (Hkg : k / g < 2 * q) by (apply Nat.div_lt_upper_bound; lia).
  destruct (Hfr (k / g) Hkg) as [f [F1 F2]].
  rewrite (cat1_elt_blocks fr _ g i k j (mk [b; g; t] f)) by (try assumption; try lia; intros y Hy; rewrite (Hall y Hy); reflexivity).
  cbn [elt]. rewrite F2.
  (* k = (k/(2g)) * 2g + r *)
  assert (D2 := Nat.div_mod k (2 * g) ltac:(lia)). assert (M2 := Nat.mod_upper_bound k (2 * g) ltac:(lia)).
  set (Q := k / (2 * g)) in *. set (r := k mod (2 * g)) in *.
  assert (HQ : Q < q) by (unfold Q; apply Nat.div_lt_upper_bound; nia).
  destruct (Nat.ltb_spec r g) as [Hr|Hr].
  - assert (Ekg : k / g = 2 * Q) by (symmetry; apply Nat.div_unique with r; lia).
    assert (Emg : k mod g = r) by (symmetry; apply Nat.mod_unique with (2 * Q); lia).
    rewrite Ekg, Emg. replace (2 * Q) with (Q * 2) by lia. rewrite Nat.mod_mul, Nat.div_mul by lia. cbn [Nat.eqb].
    rewrite get_inb by (rewrite Sx; cbn; nia). reflexivity.
  - assert (Ekg : k / g = 2 * Q + 1) by (symmetry; apply Nat.div_unique with (r - g); lia).
    assert (Emg : k mod g = r - g) by (symmetry; apply Nat.mod_unique with (2 * Q + 1); lia).
    rewrite Ekg, Emg. replace (2 * Q + 1) with (1 + Q * 2) by lia. rewrite Nat.mod_add, Nat.div_add by lia. cbn [Nat.add Nat.eqb].
    change (1 mod 2) with 1. change (1 / 2) with 0. cbn [Nat.eqb Nat.add].
    rewrite get_inb by (rewrite Ss; cbn; nia). reflexivity.
Qed.

(** groups = 1: plain concatenation *)
Theorem concat_skip_forward1 {A} (zero : A) add (x st : tensor A) b c c' t :
  shape x = [b; c; t] -> shape st = [b; c'; t] ->
  exists y, skip_forward zero add (ConcatSkip 1) x st = Ok y /\ shape y = [b; c + c'; t] /\
    forall i k j, i < b -> k < c + c' -> j < t ->
      get y [i; k; j] = if k <? c then get x [i; k; j] else get st [i; k - c; j].
Proof.
  intros Sx Ss. unfold skip_forward, ndim. rewrite Ss. cbn [length Nat.eqb last].
  assert (E : match_size zero x (Z.of_nat t) = Ok x).
  { unfold match_size, ndim. rewrite Sx. cbn [length Nat.eqb last]. rewrite Z.sub_diag. reflexivity. }
  rewrite E. cbn [bind]. unfold cat1. rewrite Sx. cbn [forallb]. rewrite Sx, Ss. rewrite !Nat.eqb_refl. cbn [andb].
  eexists; split; [reflexivity|]. cbn [shape map list_sum fold_right]. rewrite Sx, Ss. cbn [nth]. rewrite Nat.add_0_r.
  split; [reflexivity|]. intros i k j Hi Hk Hj. rewrite get_inb by (cbn; auto). cbn [elt cat1_elt]. rewrite Sx, Ss. cbn [nth].
  destruct (Nat.ltb_spec k c).
  - rewrite get_inb by (rewrite Sx; cbn; auto). reflexivity.
  - destruct (Nat.ltb_spec (k - c) c'); [|lia]. rewrite get_inb by (rewrite Ss; cbn; lia). reflexivity.
Qed.

(** channels not divisible by groups: ValueError *)
Theorem concat_skip_indivisible {A} (zero : A) add g (x st : tensor A) b c t :
  shape x = [b; c; t] -> shape st = [b; c; t] -> 2 <= g -> c mod g <> 0 ->
  skip_forward zero add (ConcatSkip g) x st = Err ValueError.
Proof.
  intros Sx Ss Hg Hm. unfold skip_forward, ndim. rewrite Ss. cbn [length Nat.eqb last].
  assert (E : match_size zero x (Z.of_nat t) = Ok x).
  { unfold match_size, ndim. rewrite Sx. cbn [length Nat.eqb last]. rewrite Z.sub_diag. reflexivity. }
  rewrite E. cbn [bind]. rewrite Sx. cbn [nth_error].
  destruct (Nat.eqb_spec g 1); [lia|]. destruct (Nat.eqb_spec g 0); [lia|]. apply Nat.eqb_neq in Hm. rewrite Hm. reflexivity.
Qed.

(** get_out_channels announces the number of channels that forward returns, for every skip connection *)
Theorem skip_out_channels {A} (zero : A) add sk (x st : tensor A) b c t y :
  shape x = [b; c; t] -> shape st = [b; c; t] -> 0 < c -> skip_forward zero add sk x st = Ok y -> shape y = [b; get_out_channels sk c; t].
Proof.
  intros Sx Ss Hc H. destruct sk as [| |g].
  - unfold skip_forward, ndim, match_size, ndim in H. rewrite Sx, Ss in H. cbn [length Nat.eqb last] in H. rewrite Z.sub_diag in H.
    injection H as <-. exact Sx.
  - unfold skip_forward, ndim, match_size, ndim in H. rewrite Sx, Ss in H. cbn [length Nat.eqb last] in H. rewrite Z.sub_diag in H.
    change (0 <? 0)%Z with false in H. cbv iota in H. cbn [bind] in H. unfold bzip in H. rewrite Sx, Ss in H.
    assert (E : bshape [b; c; t] [b; c; t] = Ok [b; c; t]) by (unfold bshape; cbn; unfold bdim; rewrite !Nat.eqb_refl; reflexivity).
    rewrite E in H. injection H as <-. reflexivity.
  - cbn [get_out_channels]. destruct (Nat.eq_dec g 1) as [->|N1].
    + destruct (concat_skip_forward1 zero add x st b c c t Sx Ss) as [y' [E [S' _]]]. rewrite H in E. injection E as <-. rewrite S'. f_equal. f_equal. lia.
    + destruct (Nat.eq_dec g 0) as [->|N0].
      { exfalso. unfold skip_forward, ndim, match_size, ndim in H. rewrite Sx, Ss in H. cbn [length Nat.eqb last] in H. rewrite Z.sub_diag in H.
        change (0 <? 0)%Z with false in H. cbv iota in H. cbn [bind nth_error] in H. rewrite Sx in H. discriminate. }
      destruct (Nat.eq_dec (c mod g) 0) as [E0|E0].
      * destruct (concat_skip_forward zero add g x st b c t Sx Ss Hc ltac:(lia) E0) as [y' [E [S' _]]]. rewrite H in E. injection E as <-. exact S'.
      * rewrite (concat_skip_indivisible zero add g x st b c t Sx Ss ltac:(lia) E0) in H. discriminate.
Qed.

(** The documented layout: [groups] groups of c/groups channels of X, each followed by the matching group of the state. *)
Definition grouped_layout {A} (g c : nat) (x st : tensor A) (i k j : nat) : option A :=
  let m := c / g in let q := k / (2 * m) in let r := k mod (2 * m) in
  if r <? m then get x [i; q * m + r; j] else get st [i; q * m + (r - m); j].

(** It is what ConcatSkipConnect(groups) returns for all inputs iff channels = groups^2. *)
Theorem concat_skip_layout_iff g b c t : 0 < b -> 0 < c -> 0 < t -> 2 <= g -> c mod g = 0 ->
  (forall (x st : tensor nat), shape x = [b; c; t] -> shape st = [b; c; t] ->
     exists y, skip_forward 0 Nat.add (ConcatSkip g) x st = Ok y /\
       forall i k j, i < b -> k < 2 * c -> j < t -> get y [i; k; j] = grouped_layout g c x st i k j)
  <-> c = g * g.
Proof.
  intros Hb Hc Ht Hg Hm. assert (Ec : c = g * (c / g)) by (pose proof (Nat.div_mod c g ltac:(lia)); lia).
  set (m := c / g) in *. assert (0 < m) by (destruct m; [cbn in Ec; lia|lia]). split.
  - intros H1. destruct (Nat.eq_dec m g) as [->|Hne]; [exact Ec|]. exfalso.
    (* x all zeros, state all ones: compare at channel min g m *)
    destruct (H1 (mk [b; c; t] (fun _ => 0)) (mk [b; c; t] (fun _ => 1)) eq_refl eq_refl) as [y [E G]].
    destruct (concat_skip_forward 0 Nat.add g (mk [b; c; t] (fun _ => 0)) (mk [b; c; t] (fun _ => 1)) b c t eq_refl eq_refl Hc Hg Hm)
      as [y' [E' [_ P]]]. rewrite E in E'. injection E' as <-.
    set (k := Nat.min g m). assert (Hk : k < 2 * c) by (unfold k; nia).
    specialize (G 0 k 0 Hb Hk Ht). specialize (P 0 k 0 Hb Hk Ht). rewrite G in P. clear G. unfold grouped_layout in P. fold m in P. cbn zeta in P.
    assert (k < 2 * g) by (unfold k; lia). assert (k < 2 * m) by (unfold k; lia).
    rewrite !Nat.div_small, !Nat.mod_small in P by assumption. cbn [Nat.mul Nat.add] in P.
    destruct (Nat.ltb_spec k m), (Nat.ltb_spec k g); unfold k in *; try lia;
      rewrite !get_inb in P by (cbn; nia); cbn in P; discriminate.
  - intros E x st Sx Ss.
    destruct (concat_skip_forward 0 Nat.add g x st b c t Sx Ss Hc Hg Hm) as [y [Ey [_ P]]]. exists y. split; [exact Ey|].
    intros i k j Hi Hk Hj. rewrite (P i k j Hi Hk Hj). unfold grouped_layout. fold m.
    replace m with g by nia. reflexivity.
Qed.

(** ** C61 *)
Definition is_class {A} (a : act A) : Prop := a = ActClassOk \/ a = ActClassNoArg.

Lemma cae_blocks_app_last {A} chans : forall i cin k s groups (activation out_act : act A) dch skip ar, chans <> [] -> is_class activation ->
  (i <> 0 \/ length chans >= 2 \/ is_class out_act) ->
  exists bs b, cae_blocks i cin chans k s groups activation out_act dch skip ar = bs ++ [b] /\
    forall v, is_err (dec b v) \/ dec b v = Ok VModule.
Proof.
  induction chans as [|c rest IH]; intros i cin k s groups activation out_act dch skip ar Hn Ha Hi; [congruence|].
  destruct rest as [|c2 rest].
  - cbn [cae_blocks]. eexists [], _. split; [reflexivity|]. cbn [dec conv_block].
    assert (Ho : is_class (match (if i =? 0 then Some out_act else None) with Some a => a | None => activation end)).
    { destruct (Nat.eqb_spec i 0); [|exact Ha]. destruct Hi as [Hi|[Hi|Hi]]; [congruence|cbn in Hi; lia|exact Hi]. }
    intros [x|]; [|left; eexists; reflexivity].
    match goal with |- context [bind ?r _] => destruct r as [y|e] end; cbn [bind]; [|left; eexists; reflexivity].
    destruct Ho as [-> | ->]; cbn; [right; reflexivity|left; eexists; reflexivity].
  - destruct (IH (S i) (c * groups) k s groups activation out_act dch skip ar) as [bs [b [E P]]]; [congruence|assumption|left; lia|].
    cbn [cae_blocks]. cbn [cae_blocks] in E. rewrite E. eexists (_ :: bs), b. split; [reflexivity|exact P].
Qed.

(** With the default arguments (an activation class and no output activation), or with two or more blocks, forward
    raises for every input, every kernel size, stride, skip connection and arithmetic of the layers. *)
Theorem conv_autoencoder_forward_refuted {A} (zero : A) add cin chans k s groups (activation : act A) out dch skip ar x :
  chans <> [] -> is_class activation ->
  (length chans >= 2 \/ match out with None => True | Some a => is_class a end) ->
  is_err (cae_forward zero add skip (cae_create cin chans k s groups activation out dch skip ar) x).
Proof.
  intros Hc Ha Ho. unfold cae_forward. destruct (ndim x =? 0); [eexists; reflexivity|].
  destruct (cae_blocks_app_last chans 0 cin k s groups activation (match out with Some a => a | None => activation end) dch skip ar Hc Ha)
    as [bs [b [E P]]].
  { right. destruct Ho as [Ho|Ho]; [now left|right]. destruct out; assumption. }
  unfold cae_create. rewrite E. destruct skip as [sk|]; cbn [option_map].
  2:{ destruct (autoencoder_no_skip_forward bs b (VT x)) as [[e He] _]. rewrite He. eexists; reflexivity. }
  unfold ae_forward. destruct (ae_encode (bs ++ [b]) (VT x)) as [[z sts]|e]; cbn [bind]; [|eexists; reflexivity].
  destruct (Nat.eq_dec (length sts + 1) (length (bs ++ [b]))) as [L|L].
  2:{ rewrite (proj2 (autoencoder_decode_checks (skip_v zero add sk) (bs ++ [b]) z sts)); [eexists; reflexivity|].
      left. rewrite app_length in *; cbn in *; lia. }
  rewrite autoencoder_decode_pairing by exact L. rewrite rev_app_distr. cbn [rev app combine run_pairs].
  destruct (P z) as [[e ->]| ->]; cbn [bind]; [eexists; reflexivity|].
  (* the module object reaches the next decoder, or match_size *)
  assert (Q : forall l, (forall b' o, In (b', o) l -> dec b' VModule = Err TypeError) ->
     l = [] \/ is_err (run_pairs (skip_v zero add sk) l VModule)).
  { clear. intros [|[b' o] l] H; [now left|right]. cbn. rewrite (H b' o) by now left. destruct o; eexists; reflexivity. }
  assert (D : forall chans i cin out_act b', In b' (cae_blocks i cin chans k s groups activation out_act dch (Some sk) ar) -> dec b' VModule = Err TypeError).
  { clear. induction chans as [|c rest IH]; intros i cin out_act b' H; [destruct H|].
    destruct H as [<-|H]; [reflexivity|]. eapply IH, H. }
  destruct (Q (combine (rev bs) (map Some sts))) as [Z|[e Z]].
  - intros b' o H. apply in_combine_l in H. apply in_rev in H. eapply D. rewrite E. apply in_or_app. now left.
  - rewrite Z. cbn. eexists; reflexivity.
  - rewrite Z. eexists; reflexivity.
Qed.

(** One block and an output activation acting on tensors: with a non-concatenating skip connection (which is then never
    applied) the output has the input's length and the documented number of channels. *)
Theorem conv_autoencoder_single {A} (zero : A) add cin c k s groups (activation : act A) f dch sk ar x b l :
  shape x = [b; cin; l] -> 1 <= k -> 1 <= s -> k <= l -> (sk = BaseSkip \/ sk = AddSkip) ->
  exists y, cae_forward zero add (Some sk) (cae_create cin [c] k s groups activation (Some (ActFun f)) dch (Some sk) ar) x = Ok y /\
    shape y = [b; match dch with Some d => if d =? 0 then cin else d | None => cin end; l].
Proof.
  intros Sx Hk Hs Hl Hsk. unfold cae_forward, ndim. rewrite Sx. cbn [length Nat.eqb last].
  unfold cae_create. cbn [cae_blocks Nat.eqb option_map]. unfold ae_forward, ae_encode. cbn [ae_encode_states enc conv_block bind].
  unfold conv1d. rewrite Sx. rewrite Nat.eqb_refl. cbn [negb orb].
  set (p := (k - 1) / 2).
  destruct (Nat.ltb_spec (l + 2 * p) k); [lia|]. cbn [bind removelast].
  unfold ae_decode. cbn [length Nat.add Nat.eqb negb rev app map ae_loop dec conv_block bind].
  assert (Eg : get_out_channels sk (c * groups) = c * groups) by (destruct Hsk as [-> | ->]; reflexivity).
  unfold conv_transpose1d, same_shape. cbn [shape]. rewrite Eg, Nat.eqb_refl. cbn [negb orb].
  set (q := (l + 2 * p - k) / s). fold p. replace (q + 1 =? 0) with false by lia. cbn [orb].
  replace (q + 1 - 1) with q by lia.
  assert (Hp : 2 * p + 1 <= k).
  { unfold p. pose proof (Nat.div_mod (k - 1) 2 ltac:(lia)). lia. }
  destruct (Nat.leb_spec (q * s + k) (2 * p)); [nia|]. cbn [bind call_act]. fold p.
  change (- Z.of_nat 0 - 1)%Z with (-1)%Z. change (pyindex [@None (value A)] (-1)) with (Ok (@None (value A))). cbn [bind].
  assert (Hq : q * s <= l + 2 * p - k) by (unfold q; rewrite Nat.mul_comm; apply Nat.mul_div_le; lia).
  unfold match_size_v, same_shape. cbn [shape].
  match goal with |- context [match_size zero ?y _] =>
    destruct (match_size_pad zero y b (match dch with Some d => if d =? 0 then cin else d | None => cin end) (q * s + k - 2 * p) l eq_refl ltac:(lia)) as [r [Er [Sr _]]] end.
  exists r. split; [exact Er|exact Sr].
Qed.


(** non-vacuity: a three-block run with concrete states; padding and cropping *)
Example autoencoder_nonvacuous :
  let bs := map (fun j => {| enc := fun x => Ok (x ++ [j]); dec := fun x => Ok (x ++ [10 + j]) |}) [0; 1; 2] in
  ae_forward (Some (fun x s => Ok (x ++ [100] ++ s))) bs [] = Ok [0; 1; 2; 12; 11; 100; 0; 10; 100; 0; 1] /\
  ae_forward None bs [] = Err TypeError.
Proof. split; reflexivity. Qed.
Example match_size_nonvacuous :
  let x := mk [1; 1; 5] (fun i => 1 + nth 2 i 0) in
  rmap (fun y => (shape y, map (fun j => elt y [0; 0; j]) (seq 0 (nth 2 (shape y) 0)))) (match_size 0 x 8) = Ok ([1; 1; 8], [0; 1; 2; 3; 4; 5; 0; 0]) /\
  rmap (fun y => (shape y, map (fun j => elt y [0; 0; j]) (seq 0 (nth 2 (shape y) 0)))) (match_size 0 x 4) = Ok ([1; 1; 4], [2; 3; 4; 5]) /\
  rmap (fun y => shape y) (match_size 0 x 3) = Ok [1; 1; 0].
Proof. vm_compute. repeat split. Qed.
