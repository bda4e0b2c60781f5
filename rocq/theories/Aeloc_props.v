(** C121: autoencoders treat the items of a batch independently.
    If every block encodes and decodes each item of a (batch, channel, time) tensor from that item alone (and may raise
    only depending on the number of channels and samples), then so does the whole [forward] of
    ml4gw/nn/autoencoder/base.py, with any of the three skip connections of skip_connection.py: the batch an item is in,
    and its place in it, change neither its result nor whether an exception is raised.  Instances: the convolutional
    autoencoder with arbitrary item-wise layers; with real convolution weights and BatchNorm1d in evaluation mode.
    With BatchNorm1d in training mode (the constructor's default norm, before [.eval()]) it is false. *)
From Coq Require Import Reals Lra.
From Verif Require Import Base Tensor Streaming_model Autoenc_model Autoenc_props.
Local Open Scope nat_scope.

(** ** what "item by item" means *)
(** item p of X and item q of Y are equal *)
Definition same_item {A} (c n p q : nat) (X Y : tensor A) : Prop := forall i j, i < c -> j < n -> elt X [p; i; j] = elt Y [q; i; j].
(** the two calls raise the same exception, or both return tensors of the same channels and length, keeping their
    batch sizes, in which item p of the one is item q of the other *)
Definition same_outcome {A} (b b' p q : nat) (r r' : res (tensor A)) : Prop :=
  match r, r' with
  | Ok X, Ok Y => exists c n, shape X = [b; c; n] /\ shape Y = [b'; c; n] /\ (p < b -> q < b' -> same_item c n p q X Y)
  | Err e, Err e' => e = e'
  | _, _ => False
  end.
(** functions of one tensor, of two tensors with equal batch sizes *)
Definition itemwise {A} (f : tensor A -> res (tensor A)) : Prop :=
  forall b b' c n p q X Y, shape X = [b; c; n] -> shape Y = [b'; c; n] -> (p < b -> q < b' -> same_item c n p q X Y) ->
    same_outcome b b' p q (f X) (f Y).
Definition itemwise2 {A} (f : tensor A -> tensor A -> res (tensor A)) : Prop :=
  forall b b' c n c2 n2 p q X Y S T, shape X = [b; c; n] -> shape Y = [b'; c; n] -> shape S = [b; c2; n2] -> shape T = [b'; c2; n2] ->
    (p < b -> q < b' -> same_item c n p q X Y) -> (p < b -> q < b' -> same_item c2 n2 p q S T) ->
    same_outcome b b' p q (f X S) (f Y T).

(** ** a logical relation over base.py *)
Definition rrel {V W} (Q : V -> W -> Prop) (r : res V) (r' : res W) : Prop :=
  match r, r' with Ok x, Ok y => Q x y | Err e, Err e' => e = e' | _, _ => False end.
Lemma rrel_bind {V W V' W'} (Q : V -> W -> Prop) (P : V' -> W' -> Prop) r r' f f' :
  rrel Q r r' -> (forall x y, Q x y -> rrel P (f x) (f' y)) -> rrel P (bind r f) (bind r' f').
Proof. destruct r, r'; cbn; auto; contradiction. Qed.

Definition brel {V} (Q : V -> V -> Prop) (b b' : block V) : Prop :=
  (forall x y, Q x y -> rrel Q (enc b x) (enc b' y)) /\ (forall x y, Q x y -> rrel Q (dec b x) (dec b' y)).
Definition orel {V} (Q : V -> V -> Prop) (x y : option V) : Prop :=
  match x, y with Some a, Some b => Q a b | None, None => True | _, _ => False end.
Lemma encode_states_rel {V} (Q : V -> V -> Prop) bs bs' : Forall2 (brel Q) bs bs' -> forall x y, Q x y ->
  rrel (fun u w => Q (fst u) (fst w) /\ Forall2 Q (snd u) (snd w)) (ae_encode_states bs x) (ae_encode_states bs' y).
Proof.
  induction 1 as [|b b' bs bs' Hb _ IH]; intros x y H; cbn [ae_encode_states].
  - cbn. auto.
  - apply (rrel_bind Q); [apply Hb, H|]. intros u w Huw. eapply rrel_bind; [apply IH, Huw|].
    intros [z s] [z' s'] [Hz Hs]. cbn in *. auto.
Qed.
Lemma Forall2_removelast {V W} (Q : V -> W -> Prop) l m : Forall2 Q l m -> Forall2 Q (removelast l) (removelast m).
Proof. induction 1 as [|a b l m H H' IH]; cbn; [constructor|]. destruct H'; [constructor|]. constructor; auto. Qed.
Lemma encode_rel {V} (Q : V -> V -> Prop) bs bs' x y : Forall2 (brel Q) bs bs' -> Q x y ->
  rrel (fun u w => Q (fst u) (fst w) /\ Forall2 Q (snd u) (snd w)) (ae_encode bs x) (ae_encode bs' y).
Proof.
  intros Hb H. unfold ae_encode. eapply rrel_bind; [apply encode_states_rel; eassumption|].
  intros [z s] [z' s'] [Hz Hs]. cbn in *. split; [auto|]. apply Forall2_removelast, Hs.
Qed.
Lemma Forall2_len {V W} (Q : V -> W -> Prop) l m : Forall2 Q l m -> length l = length m.
Proof. induction 1; cbn; congruence. Qed.
Lemma Forall2_nth_error {V W} (Q : V -> W -> Prop) l m : Forall2 Q l m -> forall k,
  match nth_error l k, nth_error m k with Some a, Some b => Q a b | None, None => True | _, _ => False end.
Proof. induction 1 as [|a b l m H H' IH]; intros [|k]; cbn; auto. apply IH. Qed.
Lemma pyindex_rel {V W} (Q : V -> W -> Prop) l m k : Forall2 Q l m -> rrel Q (pyindex l k) (pyindex m k).
Proof.
  intros H. unfold pyindex. rewrite <- (Forall2_len _ _ _ H). set (j := (if (k <? 0)%Z then _ else _)).
  destruct (j <? 0)%Z; [reflexivity|]. pose proof (Forall2_nth_error _ _ _ H (Z.to_nat j)) as N.
  destruct (nth_error l _), (nth_error m _); cbn in *; auto; contradiction.
Qed.
Definition srel {V} (Q : V -> V -> Prop) (f g : V -> V -> res V) : Prop := forall x y s t, Q x y -> Q s t -> rrel Q (f x s) (g y t).
Lemma loop_rel {V} (Q : V -> V -> Prop) skip skip' st st' rbs rbs' : match skip, skip' with Some f, Some g => srel Q f g | None, None => True | _, _ => False end ->
  match st, st' with Some l, Some m => Forall2 (orel Q) l m | None, None => True | _, _ => False end ->
  Forall2 (brel Q) rbs rbs' -> forall i x y, Q x y -> rrel Q (ae_loop skip st rbs i x) (ae_loop skip' st' rbs' i y).
Proof.
  intros Hk Hs. induction 1 as [|b b' bs bs' Hb _ IH]; intros i x y H; cbn [ae_loop]; [exact H|].
  apply (rrel_bind Q); [apply Hb, H|]. intros u w Huw.
  apply (rrel_bind (orel Q)).
  { destruct st as [l|], st' as [m|]; try contradiction; [apply pyindex_rel, Hs|reflexivity]. }
  intros o o' Ho. apply (rrel_bind Q); [|intros; apply IH; assumption].
  destruct o, o'; try contradiction; cbn in Ho; [|exact Huw].
  destruct skip, skip'; try contradiction; [apply Hk; assumption|reflexivity].
Qed.
Lemma Forall2_rev' {V W} (Q : V -> W -> Prop) l m : Forall2 Q l m -> Forall2 Q (rev l) (rev m).
Proof. induction 1; cbn; [constructor|]. apply Forall2_app; auto. Qed.
Lemma decode_rel {V} (Q : V -> V -> Prop) skip skip' st st' bs bs' x y : match skip, skip' with Some f, Some g => srel Q f g | None, None => True | _, _ => False end ->
  match st, st' with Some l, Some m => Forall2 Q l m | None, None => True | _, _ => False end ->
  Forall2 (brel Q) bs bs' -> Q x y -> rrel Q (ae_decode skip bs x st) (ae_decode skip' bs' y st').
Proof.
  intros Hk Hs Hb H. unfold ae_decode.
  destruct st as [l|], st' as [m|]; try contradiction.
  - assert (E : rrel Q (if negb (length l + 1 =? length bs) then Err ValueError else ae_loop skip (Some (map Some (rev l) ++ [None])) (rev bs) 0 x)
                       (if negb (length m + 1 =? length bs') then Err ValueError else ae_loop skip' (Some (map Some (rev m) ++ [None])) (rev bs') 0 y)).
    { rewrite (Forall2_len _ _ _ Hs), (Forall2_len _ _ _ Hb). destruct (negb _); [reflexivity|].
      apply loop_rel; auto; [|apply Forall2_rev', Hb]. apply Forall2_app; [|repeat constructor].
      clear - Hs. apply Forall2_rev' in Hs. induction Hs; cbn; constructor; auto. }
    destruct skip, skip'; try contradiction; exact E.
  - destruct skip, skip'; try contradiction; [reflexivity|]. apply loop_rel; auto. apply Forall2_rev', Hb.
Qed.
Lemma forward_rel {V} (Q : V -> V -> Prop) skip skip' bs bs' x y : match skip, skip' with Some f, Some g => srel Q f g | None, None => True | _, _ => False end ->
  Forall2 (brel Q) bs bs' -> Q x y -> rrel Q (ae_forward skip bs x) (ae_forward skip' bs' y).
Proof.
  intros Hk Hb H. unfold ae_forward. destruct skip, skip'; try contradiction;
    (eapply rrel_bind; [apply encode_rel; eassumption|]; intros [z s] [z' s'] [Hz Hs]; cbn in Hz, Hs; apply decode_rel; auto).
Qed.

(** ** the relation used: equal items p and q of batches of b and b' items *)
Definition Rel {A} (b b' p q : nat) (X Y : tensor A) : Prop :=
  exists c n, shape X = [b; c; n] /\ shape Y = [b'; c; n] /\ (p < b -> q < b' -> same_item c n p q X Y).
Lemma outcome_rrel {A} b b' p q (r r' : res (tensor A)) : same_outcome b b' p q r r' <-> rrel (Rel b b' p q) r r'.
Proof. destruct r, r'; cbn; tauto. Qed.
Lemma itemwise_rel {A} (f : tensor A -> res (tensor A)) : itemwise f <-> forall b b' p q X Y, Rel b b' p q X Y -> rrel (Rel b b' p q) (f X) (f Y).
Proof.
  split.
  - intros H b b' p q X Y (c & n & SX & SY & E). apply outcome_rrel. eapply H; eassumption.
  - intros H b b' c n p q X Y SX SY E. apply outcome_rrel, H. exists c, n. auto.
Qed.
Lemma itemwise2_rel {A} (f : tensor A -> tensor A -> res (tensor A)) : itemwise2 f <-> forall b b' p q, srel (Rel b b' p q) f f.
Proof.
  split.
  - intros H b b' p q X Y S T (c & n & SX & SY & E) (c2 & n2 & SS & ST & E2). apply outcome_rrel. eapply H; eassumption.
  - intros H b b' c n c2 n2 p q X Y S T SX SY SS ST E E2. apply outcome_rrel, H; [exists c, n|exists c2, n2]; auto.
Qed.

Definition itemwise_block {A} (b : block (tensor A)) : Prop := itemwise (enc b) /\ itemwise (dec b).

Theorem autoencoder_itemwise {A} skip (bs : list (block (tensor A))) : itemwise2 skip -> Forall itemwise_block bs -> itemwise (ae_forward (Some skip) bs).
Proof.
  intros Hs Hb. apply itemwise_rel. intros b b' p q X Y H. apply forward_rel; [apply (proj1 (itemwise2_rel skip)), Hs| |exact H].
  clear H. induction Hb as [|k l [He Hd] _ IH]; constructor; [|exact IH].
  split; intros; [apply (proj1 (itemwise_rel _) He)|apply (proj1 (itemwise_rel _) Hd)]; assumption.
Qed.

(** ** skip_connection.py *)
Lemma slice_bounds_le n a b : (0 <= n)%Z -> (0 <= slice_lo n a)%Z /\ (slice_hi n b <= n)%Z.
Proof. intros. destruct a, b; unfold slice_lo, slice_hi, py_clamp; cbn; lia. Qed.
Lemma match_size_rel {A} (zero : A) b b' p q X Y target : Rel b b' p q X Y -> rrel (Rel b b' p q) (match_size zero X target) (match_size zero Y target).
Proof.
  intros (c & n & SX & SY & E). unfold match_size, ndim. rewrite SX, SY. cbn [length Nat.eqb last Nat.ltb Nat.leb].
  set (d := (target - Z.of_nat n)%Z). destruct (0 <? d)%Z.
  - cbn. unfold pad_last. rewrite SX, SY. cbn [removelast last app]. eexists c, _. repeat split.
    intros Hp Hq i j Hi Hj. cbn [elt last removelast app]. 
    match goal with |- context [(?u <=? j) && ?v] => destruct ((u <=? j) && v) eqn:G end; [|reflexivity].
    apply E; auto. lia.
  - destruct (d <? 0)%Z.
    + change (3 <? 3) with false. cbn [bind rrel]. match goal with |- Rel _ _ _ _ (slice_last ?u ?v X) _ => set (lo := u); set (hi := v) end.
      unfold slice_last. rewrite SX, SY. cbn [removelast last app]. eexists c, _. repeat split.
      intros Hp Hq i j Hi Hj. cbn [elt last removelast app]. apply E; auto.
      pose proof (slice_bounds_le (Z.of_nat n) lo hi ltac:(lia)). lia.
    + cbn. exists c, n. auto.
Qed.

Lemma bzip_rel {A} (add : A -> A -> A) b b' p q X Y S T : Rel b b' p q X Y -> Rel b b' p q S T -> rrel (Rel b b' p q) (bzip add X S) (bzip add Y T).
Proof.
  intros (c & n & SX & SY & E) (c2 & n2 & SS & ST & E2). unfold bzip. rewrite SX, SY, SS, ST. unfold bshape. cbn [rev app bshape_rev].
  rewrite !bdim_refl.
  destruct (bdim n n2) as [nn|] eqn:Dn; cbn [bind]; [|reflexivity].
  destruct (bdim c c2) as [cc|] eqn:Dc; cbn [bind rev app]; [|reflexivity].
  assert (D : forall u v w k, bdim u v = Ok w -> k < w -> (if u =? 1 then 0 else k) < u /\ (if v =? 1 then 0 else k) < v).
  { intros u v w k. unfold bdim. destruct (Nat.eqb_spec u v), (Nat.eqb_spec u 1), (Nat.eqb_spec v 1); intros [=]; subst; lia. }
  cbn [bind rrel]. exists cc, nn. repeat split. intros Hp Hq i j Hi Hj. cbn [elt].
  unfold bidx. cbn [length Nat.sub skipn zip_with].
  destruct (D _ _ _ _ Dn Hj) as [J1 J2], (D _ _ _ _ Dc Hi) as [I1 I2].
  assert (P : (if b =? 1 then 0 else p) = p) by (destruct (Nat.eqb_spec b 1); lia).
  assert (P' : (if b' =? 1 then 0 else q) = q) by (destruct (Nat.eqb_spec b' 1); lia).
  rewrite P, P'. f_equal; [apply E|apply E2]; auto.
Qed.

Lemma interleave_rel {V W} (Q : V -> W -> Prop) l l' m m' : Forall2 Q l l' -> Forall2 Q m m' -> rrel (Forall2 Q) (interleave l m) (interleave l' m').
Proof.
  intros H. revert m m'. induction H as [|a a' l l' Ha _ IH]; intros m m' Hm; destruct Hm as [|x y m m' Hx Hm]; cbn [interleave]; try reflexivity.
  - cbn. constructor.
  - eapply rrel_bind; [apply IH, Hm|]. intros r r' Hr. cbn. constructor; [auto|]. constructor; auto.
Qed.

Lemma split_chunks_rel {A} b b' p q g (X Y : tensor A) : Rel b b' p q X Y -> Forall2 (Rel b b' p q) (split_chunks g X) (split_chunks g Y).
Proof.
  intros (c & n & SX & SY & E). unfold split_chunks. rewrite SX, SY. cbn [nth].
  assert (H : forall l, Forall2 (Rel b b' p q) (map (fun q0 => chunk1 (q0 * g) (Nat.min g (c - q0 * g)) X) l) (map (fun q0 => chunk1 (q0 * g) (Nat.min g (c - q0 * g)) Y) l)).
  { induction l as [|k l IH]; cbn [map]; constructor; [|exact IH].
    unfold chunk1. rewrite SX, SY. eexists (Nat.min g (c - k * g)), n. repeat split.
    intros Hp Hq i j Hi Hj. cbn [elt]. apply E; auto. lia. }
  apply H.
Qed.

Lemma cat1_elt_rel {A} b b' p q (l l' : list (tensor A)) d d' n : Forall2 (Rel b b' p q) l l' -> p < b -> q < b' ->
  Forall (fun y => nth 2 (shape y) 0 = n) l -> forall i j, i < list_sum (map (fun y => nth 1 (shape y) 0) l) -> j < n ->
  cat1_elt l d p i j = cat1_elt l' d' q i j.
Proof.
  intros H Hp Hq. induction H as [|X Y l l' (c & m & SX & SY & E) _ IH]; intros Hn i j Hi Hj; [cbn in Hi; lia|].
  inversion Hn as [|? ? N Hn']; subst. cbn [cat1_elt]. rewrite SX, SY in *. cbn [nth] in *. cbn [map list_sum fold_right] in Hi.
  rewrite SX in Hi. cbn [nth] in Hi. destruct (Nat.ltb_spec i c).
  - apply E; auto.
  - apply IH; auto. change (i - c < list_sum (map (fun y => nth 1 (shape y) 0) l)). 
    change (fold_right Nat.add 0 (map (fun y => nth 1 (shape y) 0) l)) with (list_sum (map (fun y => nth 1 (shape y) 0) l)) in Hi. lia.
Qed.
Lemma cat1_rel {A} b b' p q (l l' : list (tensor A)) : Forall2 (Rel b b' p q) l l' -> rrel (Rel b b' p q) (cat1 l) (cat1 l').
Proof.
  intros H. assert (H0 := H). destruct H0 as [|X Y l0 l0' (c & n & SX & SY & E) Hl]; [reflexivity|].
  unfold cat1. rewrite SX, SY.
  assert (G : forallb (fun y => match shape y with [u; _; v] => (u =? b) && (v =? n) | _ => false end) (X :: l0)
            = forallb (fun y => match shape y with [u; _; v] => (u =? b') && (v =? n) | _ => false end) (Y :: l0')).
  { clear - H. induction H as [|X' Y' m m' (c' & n' & SX' & SY' & _) _ IH]; [reflexivity|]. cbn [forallb]. rewrite SX', SY', IH, !Nat.eqb_refl. reflexivity. }
  rewrite <- G. destruct (forallb _ (X :: l0)) eqn:F; [|reflexivity].
  assert (Hn : Forall (fun y => nth 2 (shape y) 0 = n) (X :: l0)).
  { apply Forall_forall. intros y Hy. apply (proj1 (forallb_forall _ _) F) in Hy. destruct (shape y) as [|? [|? [|? []]]]; try discriminate. cbn. lia. }
  assert (L : map (fun y : tensor A => nth 1 (shape y) 0) (X :: l0) = map (fun y => nth 1 (shape y) 0) (Y :: l0')).
  { clear - H. induction H as [|X' Y' m m' (c' & n' & SX' & SY' & _) _ IH]; [reflexivity|]. cbn [map]. rewrite SX', SY', IH. reflexivity. }
  cbn [rrel]. rewrite <- L. eexists _, n. repeat split. intros Hp Hq i j Hi Hj. cbn [elt].
  eapply cat1_elt_rel; eauto.
Qed.

Theorem skip_itemwise {A} (zero : A) add s : itemwise2 (skip_forward zero add s).
Proof.
  apply itemwise2_rel. intros b b' p q X Y S T H HS. assert (HS' := HS). destruct HS' as (c2 & n2 & SS & ST & _).
  unfold skip_forward, ndim. rewrite SS, ST. cbn [length Nat.eqb last].
  apply (rrel_bind (Rel b b' p q)); [apply match_size_rel, H|]. intros X' Y' H'.
  destruct s as [| |g].
  - exact H'.
  - apply bzip_rel; assumption.
  - destruct (g =? 1). { apply cat1_rel. repeat constructor; assumption. }
    assert (H2 := H'). destruct H2 as (c & n & SX & SY & _). rewrite SX, SY. cbn [nth_error].
    destruct (g =? 0); [reflexivity|]. destruct (negb _); [reflexivity|].
    apply (rrel_bind (Forall2 (Rel b b' p q))); [|intros; apply cat1_rel; assumption].
    apply interleave_rel; apply split_chunks_rel; assumption.
Qed.

(** what it says of one batch: item k of the output is the output of item k alone, as a batch of one *)
Definition item {A} (k : nat) (X : tensor A) : tensor A := mk (1 :: tl (shape X)) (fun i => elt X (k :: tl i)).
Theorem itemwise_alone {A} (f : tensor A -> res (tensor A)) X b c n k : itemwise f -> shape X = [b; c; n] -> k < b ->
  (forall e, f X = Err e <-> f (item k X) = Err e) /\
  (forall Y, f X = Ok Y -> exists Z c' n', f (item k X) = Ok Z /\ shape Y = [b; c'; n'] /\ shape Z = [1; c'; n'] /\
     forall i j, i < c' -> j < n' -> elt Y [k; i; j] = elt Z [0; i; j]).
Proof.
  intros H SX Hk.
  pose proof (H b 1 c n k 0 X (item k X) SX ltac:(unfold item; cbn; rewrite SX; reflexivity) ltac:(intros _ _ i j _ _; reflexivity)) as O.
  unfold same_outcome in O. destruct (f X) as [Y|e], (f (item k X)) as [Z|e']; try contradiction.
  - split; [split; discriminate|]. intros Y' [= <-]. destruct O as (c' & n' & SY & SZ & E). exists Z, c', n'. repeat split; auto.
    apply E; lia.
  - subst. split; [tauto|discriminate].
Qed.

(** ** convolutional.py *)
(** the layers' arithmetic item by item: convolutions (every output channel), shape-preserving layers (their channels) *)
Definition layer_itemwise {A} (f : tensor A -> list nat -> A) : Prop :=
  forall b b' c n p q X Y, shape X = [b; c; n] -> shape Y = [b'; c; n] -> p < b -> q < b' -> same_item c n p q X Y ->
    forall i j, f X [p; i; j] = f Y [q; i; j].
Definition norm_itemwise {A} (f : tensor A -> list nat -> A) : Prop :=
  forall b b' c n p q X Y, shape X = [b; c; n] -> shape Y = [b'; c; n] -> p < b -> q < b' -> same_item c n p q X Y ->
    forall i j, i < c -> j < n -> f X [p; i; j] = f Y [q; i; j].
Definition act_itemwise {A} (a : act A) : Prop := match a with ActFun f => norm_itemwise f | _ => True end.
Definition arith_itemwise {A} (m : arith A) : Prop :=
  layer_itemwise (a_enc m) /\ norm_itemwise (a_n1 m) /\ norm_itemwise (a_act m) /\ layer_itemwise (a_dec m) /\ norm_itemwise (a_n2 m).

Definition VRel {A} (b b' p q : nat) (v w : value A) : Prop :=
  match v, w with VT X, VT Y => Rel b b' p q X Y | VModule, VModule => True | _, _ => False end.

Lemma same_shape_rel {A} b b' p q f (X Y : tensor A) : norm_itemwise f -> Rel b b' p q X Y -> Rel b b' p q (same_shape f X) (same_shape f Y).
Proof. intros F (c & n & SX & SY & E). exists c, n. repeat split; auto. intros Hp Hq i j Hi Hj. cbn. apply (F b b' c n); auto. Qed.
Lemma conv1d_rel {A} b b' p q cin cout k s pd f (X Y : tensor A) : layer_itemwise f -> Rel b b' p q X Y -> rrel (Rel b b' p q) (conv1d cin cout k s pd f X) (conv1d cin cout k s pd f Y).
Proof.
  intros F (c & n & SX & SY & E). unfold conv1d. rewrite SX, SY. destruct (_ || _); [reflexivity|]. cbn [rrel].
  eexists _, _. repeat split. intros Hp Hq i j _ _. cbn [elt]. apply (F b b' c n); auto.
Qed.
Lemma convt_rel {A} b b' p q cin cout k s pd f (X Y : tensor A) : layer_itemwise f -> Rel b b' p q X Y -> rrel (Rel b b' p q) (conv_transpose1d cin cout k s pd f X) (conv_transpose1d cin cout k s pd f Y).
Proof.
  intros F (c & n & SX & SY & E). unfold conv_transpose1d. rewrite SX, SY. destruct (_ || _); [reflexivity|]. cbn [rrel].
  eexists _, _. repeat split. intros Hp Hq i j _ _. cbn [elt]. apply (F b b' c n); auto.
Qed.
Lemma call_act_rel {A} b b' p q (a : act A) X Y : act_itemwise a -> Rel b b' p q X Y -> rrel (VRel b b' p q) (call_act a X) (call_act a Y).
Proof. intros F H. destruct a; cbn; auto. apply same_shape_rel; assumption. Qed.

Lemma conv_block_rel {A} b b' p q cin cenc k s groups activation dch oact skip (m : arith A) : act_itemwise activation -> orel (fun a _ => act_itemwise a) oact oact -> arith_itemwise m ->
  let B := conv_block cin cenc k s groups activation dch oact skip (a_enc m) (a_n1 m) (a_act m) (a_dec m) (a_n2 m) in brel (VRel b b' p q) B B.
Proof.
  intros Ha Ho (H1 & H2 & H3 & H4 & H5) B. split; intros v w H; destruct v as [X|], w as [Y|]; try contradiction; try reflexivity; cbn [B enc dec conv_block]; cbn [VRel] in H.
  - apply (rrel_bind (Rel b b' p q)); [apply conv1d_rel; assumption|]. intros x y Hxy. cbn. apply same_shape_rel, same_shape_rel; assumption.
  - apply (rrel_bind (Rel b b' p q)); [apply convt_rel; assumption|]. intros x y Hxy. apply call_act_rel; [|apply same_shape_rel; assumption].
    destruct oact; assumption.
Qed.
Lemma cae_blocks_rel {A} b b' p q k s groups activation out_act dch skip (ar : nat -> arith A) chans : act_itemwise activation -> act_itemwise out_act -> (forall i, arith_itemwise (ar i)) ->
  forall i cin, Forall2 (brel (VRel b b' p q)) (cae_blocks i cin chans k s groups activation out_act dch skip ar) (cae_blocks i cin chans k s groups activation out_act dch skip ar).
Proof.
  intros Ha Ho Hr. induction chans as [|c l IH]; intros i cin; cbn [cae_blocks]; constructor; [|apply IH].
  apply conv_block_rel; auto. destruct (i =? 0); cbn; auto.
Qed.

Theorem conv_autoencoder_itemwise {A} (zero : A) add sk cin chans k s groups activation oact dch (ar : nat -> arith A) :
  act_itemwise activation -> match oact with Some a => act_itemwise a | None => True end -> (forall i, arith_itemwise (ar i)) ->
  itemwise (cae_forward zero add (Some sk) (cae_create cin chans k s groups activation oact dch (Some sk) ar)).
Proof.
  intros Ha Ho Hr. apply itemwise_rel. intros b b' p q X Y H. assert (H' := H). destruct H' as (c & n & SX & SY & _).
  unfold cae_forward, ndim. rewrite SX, SY. cbn [length Nat.eqb last].
  apply (rrel_bind (VRel b b' p q)).
  - apply forward_rel; [| |exact H].
    + cbn [option_map]. intros v w st st' Hv Hs. destruct st as [S|], st' as [T|]; try contradiction; [|reflexivity].
      cbn [VRel] in Hs. assert (Hs' := Hs). destruct Hs' as (c2 & n2 & SS & ST & _).
      destruct v as [x|], w as [y|]; try contradiction; cbn [skip_v].
      * apply (rrel_bind (Rel b b' p q)); [|intros; assumption]. apply (proj1 (itemwise2_rel _) (skip_itemwise zero add sk)); assumption.
      * unfold ndim. rewrite SS, ST. reflexivity.
    + apply cae_blocks_rel; auto. destruct oact; assumption.
  - intros v w Hv. destruct v, w; try contradiction; [|reflexivity]. apply match_size_rel, Hv.
Qed.

(** *** the layers that are built, in evaluation mode *)
From Verif Require Import Rutil Aeconv_model.

Lemma Rsum_eq n f g : (forall i, i < n -> f i = g i) -> Rsum n f = Rsum n g.
Proof. induction n as [|n IH]; intros H; cbn; [reflexivity|]. rewrite IH by (intros; apply H; lia). rewrite H by lia. reflexivity. Qed.
Lemma group_in_range c g u ci : ci < c / g -> u mod g * (c / g) + ci < c.
Proof.
  intros H. destruct g as [|g]; [cbn in H; lia|].
  pose proof (Nat.mod_upper_bound u (S g) ltac:(lia)). pose proof (Nat.mul_div_le c (S g) ltac:(lia)). nia.
Qed.
Lemma conv_arith_itemwise g opg k s p W : layer_itemwise (conv_arith g opg k s p W).
Proof.
  intros b b' c n x y X Y SX SY Hx Hy E i j. unfold conv_arith. rewrite SX, SY. cbn [nth].
  apply Rsum_eq; intros ci Hci. apply Rsum_eq; intros t Ht. f_equal.
  match goal with |- context [if ?v then _ else _] => destruct v eqn:G end; [|reflexivity].
  apply E; [apply group_in_range, Hci|lia].
Qed.
Lemma convt_arith_itemwise g opg k s p W : layer_itemwise (convt_arith g opg k s p W).
Proof.
  intros b b' c n x y X Y SX SY Hx Hy E i j. unfold convt_arith. rewrite SX, SY. cbn [nth].
  apply Rsum_eq; intros ci Hci. apply Rsum_eq; intros u Hu. apply Rsum_eq; intros t Ht.
  destruct (_ =? _); [|reflexivity]. f_equal. apply E; [apply group_in_range, Hci|assumption].
Qed.
Lemma bn_eval_itemwise m v w bias eps : norm_itemwise (bn_eval m v w bias eps).
Proof. intros b b' c n x y X Y SX SY Hx Hy E i j Hi Hj. unfold bn_eval. rewrite (E i j Hi Hj). reflexivity. Qed.
Lemma pointwise_itemwise f : norm_itemwise (pointwise f).
Proof. intros b b' c n x y X Y SX SY Hx Hy E i j Hi Hj. unfold pointwise. rewrite (E i j Hi Hj). reflexivity. Qed.

(** Every convolutional autoencoder in evaluation mode, whatever its weights, running statistics, element-wise
    activations, channels, kernel, stride, groups and skip connection. *)
Theorem conv_autoencoder_eval_itemwise sk cin chans k s groups f g dch eps q :
  itemwise (cae_forward 0%R Rplus (Some sk) (cae_create cin chans k s groups (ActFun (pointwise f)) (Some (ActFun (pointwise g))) dch (Some sk)
                                                        (fun i => eval_arith k s groups eps f (q i)))).
Proof.
  apply conv_autoencoder_itemwise; try apply pointwise_itemwise. intros i. destruct (q i) as [we wd oe od [[[m1 v1] w1] b1] [[[m2 v2] w2] b2]].
  repeat split; cbn; auto using conv_arith_itemwise, convt_arith_itemwise, bn_eval_itemwise, pointwise_itemwise.
Qed.

(** *** BatchNorm1d in training mode: one block, kernel 1, one channel, unit weights, no activation *)
Definition unit_params : params := {| w_enc := fun _ _ _ => 1%R; w_dec := fun _ _ _ => 1%R; opg_enc := 1; opg_dec := 1;
  n_enc := (fun _ => 0%R, fun _ => 1%R, fun _ => 1%R, fun _ => 0%R); n_dec := (fun _ => 0%R, fun _ => 1%R, fun _ => 1%R, fun _ => 0%R) |}.
Definition train_net (eps : R) (X : tensor R) : res (tensor R) :=
  cae_forward 0%R Rplus (Some AddSkip) (cae_create 1 [1] 1 1 1 (ActFun (pointwise (fun x => x))) (Some (ActFun (pointwise (fun x => x)))) None (Some AddSkip)
                                                   (fun _ => train_arith 1 1 1 eps (fun x => x) unit_params)) X.
Lemma conv_unit B n t b (X : tensor R) : shape X = [B; 1; n] -> t < n -> conv_arith 1 1 1 1 0 (fun _ _ _ => 1%R) X [b; 0; t] = elt X [b; 0; t].
Proof.
  intros SX Ht. unfold conv_arith. rewrite SX. cbn [nth]. change (1 / 1) with 1. cbn [Rsum].
  replace ((0 <=? t * 1 + 0) && (t * 1 + 0 - 0 <? n)) with true by lia.
  replace (t * 1 + 0 - 0) with t by lia. replace ((0 / 1) mod 1 * 1 + 0) with 0 by reflexivity. ring.
Qed.
Lemma convt_unit B t b (X : tensor R) : shape X = [B; 1; 2] -> t < 2 -> convt_arith 1 1 1 1 0 (fun _ _ _ => 1%R) X [b; 0; t] = elt X [b; 0; t].
Proof.
  intros SX Ht. unfold convt_arith. rewrite SX. cbn [nth]. change (1 / 1) with 1. cbn [Rsum].
  replace ((0 / 1) mod 1 * 1 + 0) with 0 by reflexivity.
  destruct t as [|[|t]]; [| |lia]; cbn; ring.
Qed.
(** the training-mode normalisation of a batch of one or two constant items *)
Definition ones (_ : nat) : R := 1%R.
Definition zeros (_ : nat) : R := 0%R.
Lemma bn_one eps u t (X : tensor R) : shape X = [1; 1; 2] -> (0 < eps)%R -> t < 2 -> (forall j, j < 2 -> elt X [0; 0; j] = u) -> bn_train ones zeros eps X [0; 0; t] = 0%R.
Proof.
  intros SX He Ht E. unfold bn_train. rewrite SX. cbn [nth Rsum]. rewrite !E by lia. cbn [Nat.mul Nat.add INR]. unfold ones, zeros.
  replace (u - (0 + (0 + u + u)) / (1 + 1))%R with 0%R by field. unfold Rdiv. ring.
Qed.
Lemma bn_two eps u t (X : tensor R) : shape X = [2; 1; 2] -> (0 < eps)%R -> t < 2 -> (forall b j, b < 2 -> j < 2 -> elt X [b; 0; j] = match b with 0 => 0%R | _ => u end) ->
  forall b, b < 2 -> bn_train ones zeros eps X [b; 0; t] = ((match b with 0 => - (u / 2) | _ => u / 2 end) / sqrt (u / 2 * (u / 2) + eps))%R.
Proof.
  intros SX He Ht E b Hb. unfold bn_train. rewrite SX. cbn [nth Rsum]. rewrite !E by lia. cbn [Nat.mul Nat.add INR]. unfold ones, zeros.
  set (m := ((0 + (0 + 0 + 0) + (0 + u + u)) / (1 + 1 + 1 + 1))%R). replace m with (u / 2)%R by (unfold m; field).
  match goal with |- context [sqrt ?v] => replace v with (u / 2 * (u / 2) + eps)%R by field end.
  replace ((match b with 0 => 0 | S _ => u end - u / 2)%R) with (match b with 0 => - (u / 2) | _ => u / 2 end)%R by (destruct b; field).
  ring.
Qed.
Definition cv B (X : tensor R) := mk [B; 1; 2] (conv_arith 1 1 1 1 0 (fun _ _ _ => 1%R) X).
Definition dv B (X : tensor R) := mk [B; 1; 2] (convt_arith 1 1 1 1 0 (fun _ _ _ => 1%R) X).
Definition bn eps := same_shape (bn_train ones zeros eps).
Definition idl := same_shape (pointwise (fun x : R => x)).
Definition chain B eps X := idl (bn eps (dv B (idl (bn eps (cv B X))))).
Lemma net_chain eps f : train_net eps (mk [1; 1; 2] f) = Ok (chain 1 eps (mk [1; 1; 2] f)) /\ train_net eps (mk [2; 1; 2] f) = Ok (chain 2 eps (mk [2; 1; 2] f)).
Proof. split; reflexivity. Qed.
Theorem conv_autoencoder_train_refuted eps : (0 < eps)%R -> ~ itemwise (train_net eps).
Proof.
  intros He H.
  set (X := mk [1; 1; 2] (fun _ => 0%R)). set (Y := mk [2; 1; 2] (fun i => match i with 0 :: _ => 0%R | _ => 2%R end)).
  specialize (H 1 2 1 2 0 0 X Y eq_refl eq_refl ltac:(intros _ _ i j _ _; reflexivity)).
  unfold X, Y in H. rewrite (proj1 (net_chain eps _)), (proj2 (net_chain eps _)) in H. fold X Y in H.
  destruct H as (c & n & SX & SY & E). injection SX as <- <-. specialize (E ltac:(lia) ltac:(lia) 0 0 ltac:(lia) ltac:(lia)).
  assert (EX : elt (chain 1 eps X) [0; 0; 0] = 0%R).
  { change (elt (chain 1 eps X) [0; 0; 0]) with (bn_train ones zeros eps (dv 1 (idl (bn eps (cv 1 X)))) [0; 0; 0]).
    apply (bn_one eps 0); [reflexivity|exact He|lia|]. intros j Hj. cbn [elt dv]. rewrite (convt_unit 1) by (auto || lia).
    change (bn_train ones zeros eps (cv 1 X) [0; 0; j] = 0%R). apply (bn_one eps 0); [reflexivity|exact He|exact Hj|]. intros j' Hj'. cbn [elt cv].
    rewrite (conv_unit 1 2) by (auto || lia). reflexivity. }
  set (a := (2 / 2 / sqrt (2 / 2 * (2 / 2) + eps))%R).
  assert (Ca : forall b j, b < 2 -> j < 2 -> elt (cv 2 Y) [b; 0; j] = match b with 0 => 0%R | _ => 2%R end).
  { intros b j Hb Hj. cbn [elt cv]. rewrite (conv_unit 2 2) by (auto || lia). reflexivity. }
  assert (Da : forall b j, b < 2 -> j < 2 -> elt (dv 2 (idl (bn eps (cv 2 Y)))) [b; 0; j] = match b with 0 => (- a)%R | _ => a end).
  { intros b j Hb Hj. cbn [elt dv]. rewrite (convt_unit 2) by (auto || lia).
    change (bn_train ones zeros eps (cv 2 Y) [b; 0; j] = match b with 0 => (- a)%R | _ => a end).
    rewrite (bn_two eps 2 j (cv 2 Y) eq_refl He Hj Ca b Hb). unfold a. destruct b; [|reflexivity]. unfold Rdiv. ring. }
  assert (Ha : (0 < a)%R). { unfold a. apply Rdiv_lt_0_compat; [lra|]. apply sqrt_lt_R0. lra. }
  assert (EY : Rlt (elt (chain 2 eps Y) [0; 0; 0]) 0).
  { change (elt (chain 2 eps Y) [0; 0; 0]) with (bn_train ones zeros eps (dv 2 (idl (bn eps (cv 2 Y)))) [0; 0; 0]).
    set (D := dv 2 _) in *. unfold bn_train. change (shape D) with [2; 1; 2]. cbn [nth Rsum]. rewrite !Da by lia. cbn [Nat.mul Nat.add INR]. unfold ones, zeros.
    set (m := ((0 + (0 + - a + - a) + (0 + a + a)) / (1 + 1 + 1 + 1))%R). replace m with 0%R by (unfold m; field).
    match goal with |- context [sqrt ?v] => set (w := v) end.
    assert (W : (0 < w)%R) by (unfold w; nra).
    pose proof (sqrt_lt_R0 w W) as Q. apply Rinv_0_lt_compat in Q. unfold Rdiv. nra. }
  lra.
Qed.

(** non-vacuity: a two-block network in evaluation mode, with kernel 3, two groups and interleaving skip connection, is
    itemwise; its blocks and the convolutions meet the hypotheses *)
Example arith_itemwise_nonvacuous : arith_itemwise (eval_arith 3 1 2 1%R (fun x => Rmax 0 x) unit_params).
Proof. repeat split; cbn; auto using conv_arith_itemwise, convt_arith_itemwise, bn_eval_itemwise, pointwise_itemwise. Qed.
Example autoencoder_itemwise_nonvacuous : exists X Y, shape X = [2; 1; 2] /\
  cae_forward 0%R Rplus (Some AddSkip) (cae_create 1 [1; 1] 1 1 1 (ActFun (pointwise (fun x => x))) None None (Some AddSkip) (fun _ => eval_arith 1 1 1 1%R (fun x => x) unit_params)) X = Ok Y.
Proof. exists (mk [2; 1; 2] (fun _ => 1%R)). eexists. split; reflexivity. Qed.
