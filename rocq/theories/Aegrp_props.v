(** C122: channel groups of the autoencoders.
    With [groups] = g and the plain or the adding skip connection, the g groups of channels never mix: the output channels
    of group u depend on the input channels of group u alone, in evaluation and in training mode.
    With ConcatSkipConnect (whatever its groups) ConvolutionalAutoencoder.forward raises for every input: the deepest
    decoder is built for twice the channels that the deepest encoder returns, but is given no state to concatenate. *)
From Coq Require Import Reals Lra.
From Verif Require Import Base Tensor Streaming_model Autoenc_model Autoenc_props Rutil Aeconv_model Aeloc_props.
Local Open Scope nat_scope.

(** ** specification *)
(** X and Y, of c channels in g groups of c / g consecutive ones, have the same values in group u *)
Definition same_group {A} (g u b c n : nat) (X Y : tensor A) : Prop :=
  forall k i j, k < b -> u * (c / g) <= i < (u + 1) * (c / g) -> j < n -> elt X [k; i; j] = elt Y [k; i; j].
Definition groupwise {A} (g u : nat) (f : tensor A -> res (tensor A)) : Prop :=
  forall b c n X Y, shape X = [b; c; n] -> shape Y = [b; c; n] -> c mod g = 0 -> same_group g u b c n X Y ->
    match f X, f Y with
    | Ok X', Ok Y' => exists b' c' n', shape X' = [b'; c'; n'] /\ shape Y' = [b'; c'; n'] /\ c' mod g = 0 /\ same_group g u b' c' n' X' Y'
    | Err e, Err e' => e = e'
    | _, _ => False
    end.
(** the layers' arithmetic, group by group: a layer with [og] output channels per group; shape-preserving layers *)
Definition layer_groupwise {A} (g u og : nat) (f : tensor A -> list nat -> A) : Prop :=
  forall b c n X Y, shape X = [b; c; n] -> shape Y = [b; c; n] -> c mod g = 0 -> same_group g u b c n X Y ->
    forall k i j, k < b -> u * og <= i < (u + 1) * og -> f X [k; i; j] = f Y [k; i; j].
Definition norm_groupwise {A} (g u : nat) (f : tensor A -> list nat -> A) : Prop :=
  forall b c n X Y, shape X = [b; c; n] -> shape Y = [b; c; n] -> c mod g = 0 -> same_group g u b c n X Y ->
    forall k i j, k < b -> u * (c / g) <= i < (u + 1) * (c / g) -> j < n -> f X [k; i; j] = f Y [k; i; j].
Definition act_groupwise {A} (g u : nat) (a : act A) : Prop := match a with ActFun f => norm_groupwise g u f | _ => True end.
Definition arith_groupwise {A} (g u oe od : nat) (m : arith A) : Prop :=
  layer_groupwise g u oe (a_enc m) /\ norm_groupwise g u (a_n1 m) /\ norm_groupwise g u (a_act m) /\
  layer_groupwise g u od (a_dec m) /\ norm_groupwise g u (a_n2 m).
(** the decoder channels of block i (documented: the encoder's input channels, [decode_channels] for the first block) *)
Definition first_decoder_channels (cin : nat) (dch : option nat) : nat := match dch with Some d => if d =? 0 then cin else d | None => cin end.
Definition decoder_channels (cin : nat) (chans : list nat) (g : nat) (dch : option nat) (i : nat) : nat :=
  match i with 0 => first_decoder_channels cin dch | S j => nth j chans 0 * g end.

(** ** proofs *)
Definition GRel {A} (g u : nat) (X Y : tensor A) : Prop :=
  exists b c n, shape X = [b; c; n] /\ shape Y = [b; c; n] /\ c mod g = 0 /\ same_group g u b c n X Y.
Definition GV {A} (g u : nat) (v w : value A) : Prop := match v, w with VT X, VT Y => GRel g u X Y | VModule, VModule => True | _, _ => False end.
Lemma groupwise_rel {A} g u (f : tensor A -> res (tensor A)) : (forall X Y, GRel g u X Y -> rrel (GRel g u) (f X) (f Y)) -> groupwise g u f.
Proof. intros H b c n X Y SX SY Hc E. specialize (H X Y ltac:(exists b, c, n; auto)). destruct (f X), (f Y); exact H. Qed.

Lemma g_same_shape {A} g u f (X Y : tensor A) : norm_groupwise g u f -> GRel g u X Y -> GRel g u (same_shape f X) (same_shape f Y).
Proof. intros F (b & c & n & SX & SY & Hc & E). exists b, c, n. repeat split; auto. intros k i j Hk Hi Hj. cbn. apply (F b c n); auto. Qed.
Lemma g_conv {A} g u cin og k s pd f (X Y : tensor A) : 1 <= g -> layer_groupwise g u og f -> GRel g u X Y -> rrel (GRel g u) (conv1d cin (og * g) k s pd f X) (conv1d cin (og * g) k s pd f Y).
Proof.
  intros Hg F (b & c & n & SX & SY & Hc & E). unfold conv1d. rewrite SX, SY. destruct (_ || _); [reflexivity|]. cbn [rrel].
  eexists b, (og * g), _. repeat split; [apply Nat.mod_mul; lia|]. intros x i j Hx Hi _. cbn [elt].
  rewrite Nat.div_mul in Hi by lia. apply (F b c n); auto.
Qed.
Lemma g_convt {A} g u cin cout k s pd f (X Y : tensor A) : 1 <= g -> cout mod g = 0 -> layer_groupwise g u (cout / g) f -> GRel g u X Y ->
  rrel (GRel g u) (conv_transpose1d cin cout k s pd f X) (conv_transpose1d cin cout k s pd f Y).
Proof.
  intros Hg Ho F (b & c & n & SX & SY & Hc & E). unfold conv_transpose1d. rewrite SX, SY. destruct (_ || _); [reflexivity|]. cbn [rrel].
  eexists b, cout, _. repeat split; [exact Ho|]. intros x i j Hx Hi _. cbn [elt]. apply (F b c n); auto.
Qed.
Lemma g_match {A} (zero : A) g u X Y target : GRel g u X Y -> rrel (GRel g u) (match_size zero X target) (match_size zero Y target).
Proof.
  intros (b & c & n & SX & SY & Hc & E). unfold match_size, ndim. rewrite SX, SY. cbn [length Nat.eqb last].
  set (d := (target - Z.of_nat n)%Z). destruct (0 <? d)%Z.
  - cbn. unfold pad_last. rewrite SX, SY. cbn [removelast last app]. eexists b, c, _. repeat split; auto.
    intros k i j Hk Hi Hj. cbn [elt last removelast app].
    match goal with |- context [(?v <=? j) && ?w] => destruct ((v <=? j) && w) eqn:G end; [|reflexivity].
    apply E; auto. lia.
  - destruct (d <? 0)%Z.
    + change (3 <? 3) with false. cbn [bind rrel].
      match goal with |- GRel _ _ (slice_last ?v ?w X) _ => set (lo := v); set (hi := w) end.
      unfold slice_last. rewrite SX, SY. cbn [removelast last app]. eexists b, c, _. repeat split; auto.
      intros k i j Hk Hi Hj. cbn [elt last removelast app]. apply E; auto.
      pose proof (slice_bounds_le (Z.of_nat n) lo hi ltac:(lia)). lia.
    + cbn. exists b, c, n. auto.
Qed.
Lemma g_add {A} (add : A -> A -> A) g u X Y S T : 1 <= g -> u < g -> GRel g u X Y -> GRel g u S T -> rrel (GRel g u) (bzip add X S) (bzip add Y T).
Proof.
  intros Hg Hu (b & c & n & SX & SY & Hc & E) (b2 & c2 & n2 & SS & ST & Hc2 & E2). unfold bzip. rewrite SX, SY, SS, ST. unfold bshape. cbn [rev app bshape_rev].
  destruct (bdim n n2) as [nn|] eqn:Dn; cbn [bind]; [|reflexivity].
  destruct (bdim c c2) as [cc|] eqn:Dc; cbn [bind rev app]; [|reflexivity].
  destruct (bdim b b2) as [bb|] eqn:Db; cbn [bind rev app]; [|reflexivity].
  assert (D : forall v w z k, bdim v w = Ok z -> k < z -> (if v =? 1 then 0 else k) < v /\ (if w =? 1 then 0 else k) < w).
  { intros v w z k. unfold bdim. destruct (Nat.eqb_spec v w), (Nat.eqb_spec v 1), (Nat.eqb_spec w 1); intros [=]; subst; lia. }
  assert (M1 : forall v, v mod g = 0 -> v = 1 -> g = 1).
  { intros v Hv ->. destruct (Nat.eq_dec g 1) as [|N]; [assumption|]. rewrite Nat.mod_small in Hv by lia. lia. }
  assert (G : forall v w z, v mod g = 0 -> w mod g = 0 -> bdim v w = Ok z -> z mod g = 0 /\
     forall i, u * (z / g) <= i < (u + 1) * (z / g) -> u * (v / g) <= (if v =? 1 then 0 else i) < (u + 1) * (v / g) /\ u * (w / g) <= (if w =? 1 then 0 else i) < (u + 1) * (w / g)).
  { intros v w z Hv Hw. unfold bdim. destruct (Nat.eqb_spec v w) as [->|].
    - intros [= <-]. split; [exact Hv|]. intros i Hi. destruct (Nat.eqb_spec w 1) as [W|]; [|tauto].
      pose proof (M1 w Hw W). subst. assert (u = 0) by lia. subst. rewrite Nat.div_same in * by lia. lia.
    - destruct (Nat.eqb_spec v 1) as [V|].
      + intros [= <-]. split; [exact Hw|]. pose proof (M1 v Hv V). subst. assert (u = 0) by lia. subst. intros i Hi. rewrite !Nat.div_1_r in *.
        destruct (Nat.eqb_spec w 1); lia.
      + destruct (Nat.eqb_spec w 1) as [W|]; [|discriminate].
        intros [= <-]. split; [exact Hv|]. pose proof (M1 w Hw W). subst. assert (u = 0) by lia. subst. intros i Hi. rewrite !Nat.div_1_r in *. lia. }
  destruct (G c c2 cc Hc Hc2 Dc) as [Hcc GI].
  cbn [bind rrel]. exists bb, cc, nn. repeat split; auto. intros k i j Hk Hi Hj. cbn [elt].
  unfold bidx. cbn [length Nat.sub skipn zip_with].
  destruct (D _ _ _ _ Dn Hj) as [J1 J2], (D _ _ _ _ Db Hk) as [K1 K2], (GI i Hi) as [I1 I2].
  f_equal; [apply E|apply E2]; auto.
Qed.

Lemma g_skip {A} (zero : A) add g u sk X Y S T : 1 <= g -> u < g -> sk = BaseSkip \/ sk = AddSkip -> GRel g u X Y -> GRel g u S T ->
  rrel (GRel g u) (skip_forward zero add sk X S) (skip_forward zero add sk Y T).
Proof.
  intros Hg Hu Hsk H HS. assert (HS' := HS). destruct HS' as (b2 & c2 & n2 & SS & ST & _).
  unfold skip_forward, ndim. rewrite SS, ST. cbn [length Nat.eqb last].
  apply (rrel_bind (GRel g u)); [apply g_match, H|]. intros X' Y' H'.
  destruct Hsk as [-> | ->]; [exact H'|apply g_add; assumption].
Qed.

Lemma g_block {A} g u cin c k s activation dch oact skip (m : arith A) : 1 <= g -> act_groupwise g u activation ->
  match oact with Some a => act_groupwise g u a | None => True end ->
  first_decoder_channels cin dch mod g = 0 -> arith_groupwise g u c (first_decoder_channels cin dch / g) m ->
  let B := conv_block cin c k s g activation dch oact skip (a_enc m) (a_n1 m) (a_act m) (a_dec m) (a_n2 m) in brel (GV g u) B B.
Proof.
  intros Hg Ha Ho Hd (H1 & H2 & H3 & H4 & H5) B. split; intros v w H; destruct v as [X|], w as [Y|]; try contradiction; try reflexivity; cbn [B enc dec conv_block]; cbn [GV] in H.
  - apply (rrel_bind (GRel g u)); [apply g_conv; assumption|]. intros x y Hxy. cbn. apply g_same_shape, g_same_shape; assumption.
  - apply (rrel_bind (GRel g u)); [apply g_convt; assumption|]. intros x y Hxy.
    assert (Hx : GRel g u (same_shape (a_n2 m) x) (same_shape (a_n2 m) y)) by (apply g_same_shape; assumption).
    assert (Q : forall a, act_groupwise g u a -> rrel (GV g u) (call_act a (same_shape (a_n2 m) x)) (call_act a (same_shape (a_n2 m) y))).
    { intros a F. destruct a; cbn; auto. apply g_same_shape; assumption. }
    destruct oact; apply Q; assumption.
Qed.

Lemma g_blocks {A} g u k s activation out_act dch skip (ar : nat -> arith A) chans : 1 <= g -> act_groupwise g u activation -> act_groupwise g u out_act ->
  forall i cin, (i = 0 -> first_decoder_channels cin dch mod g = 0) -> cin mod g = 0 ->
  (forall j, j < length chans -> arith_groupwise g u (nth j chans 0)
      ((match j with 0 => if i =? 0 then first_decoder_channels cin dch else cin | S j' => nth j' chans 0 * g end) / g) (ar (i + j))) ->
  Forall2 (brel (GV g u)) (cae_blocks i cin chans k s g activation out_act dch skip ar) (cae_blocks i cin chans k s g activation out_act dch skip ar).
Proof.
  intros Hg Ha Ho. induction chans as [|c l IH]; intros i cin Hd Hc Hr; cbn [cae_blocks]; constructor.
  - pose proof (Hr 0 ltac:(cbn; lia)) as H0. cbn [nth] in H0. rewrite Nat.add_0_r in H0.
    apply g_block; auto.
    + destruct (i =? 0); auto.
    + destruct (Nat.eqb_spec i 0); [auto|]. cbn. destruct (cin =? 0); auto.
    + destruct (Nat.eqb_spec i 0); [exact H0|]. cbn. destruct (Nat.eqb_spec cin 0); exact H0.
  - apply IH; [lia|apply Nat.mod_mul; lia|]. intros j Hj. specialize (Hr (S j) ltac:(cbn; lia)). cbn [nth] in Hr.
    replace (S i + j) with (i + S j) by lia. replace (S i =? 0) with false by (symmetry; apply Nat.eqb_neq; lia). destruct j; exact Hr.
Qed.

Theorem conv_autoencoder_groupwise {A} (zero : A) add sk cin chans k s g u activation oact dch (ar : nat -> arith A) :
  1 <= g -> u < g -> sk = BaseSkip \/ sk = AddSkip -> cin mod g = 0 -> first_decoder_channels cin dch mod g = 0 ->
  act_groupwise g u activation -> match oact with Some a => act_groupwise g u a | None => True end ->
  (forall i, i < length chans -> arith_groupwise g u (nth i chans 0) (decoder_channels cin chans g dch i / g) (ar i)) ->
  groupwise g u (cae_forward zero add (Some sk) (cae_create cin chans k s g activation oact dch (Some sk) ar)).
Proof.
  intros Hg Hu Hsk Hc Hd Ha Ho Hr. apply groupwise_rel. intros X Y H. assert (H' := H). destruct H' as (b & c & n & SX & SY & _).
  unfold cae_forward, ndim. rewrite SX, SY. cbn [length Nat.eqb last].
  apply (rrel_bind (GV g u)).
  - apply forward_rel; [| |exact H].
    + cbn [option_map]. intros v w st st' Hv Hs. destruct st as [S|], st' as [T|]; try contradiction; [|reflexivity].
      cbn [GV] in Hs. assert (Hs' := Hs). destruct Hs' as (b2 & c2 & n2 & SS & ST & _).
      destruct v as [x|], w as [y|]; try contradiction; cbn [skip_v].
      * apply (rrel_bind (GRel g u)); [|intros; assumption]. apply g_skip; assumption.
      * unfold ndim. rewrite SS, ST. reflexivity.
    + unfold cae_create. apply g_blocks; [assumption|assumption|destruct oact; assumption|auto|assumption|]. intros j Hj. specialize (Hr j Hj). destruct j; exact Hr.
  - intros v w Hv. destruct v, w; try contradiction; [|reflexivity]. apply g_match, Hv.
Qed.

(** *** the layers that are built *)
Lemma conv_arith_groupwise g u og k s p W : u < g -> layer_groupwise g u og (conv_arith g og k s p W).
Proof.
  intros Hu b c n X Y SX SY Hc E x i j Hx Hi. unfold conv_arith. rewrite SX, SY. cbn [nth].
  assert (Q : (i / og) mod g = u).
  { rewrite <- (Nat.div_unique i og u (i - u * og)) by nia. apply Nat.mod_small, Hu. }
  apply Rsum_eq; intros ci Hci. apply Rsum_eq; intros t Ht. f_equal.
  match goal with |- context [if ?v then _ else _] => destruct v eqn:G end; [|reflexivity].
  rewrite Q. apply E; [assumption|nia|lia].
Qed.
Lemma convt_arith_groupwise g u og k s p W : u < g -> layer_groupwise g u og (convt_arith g og k s p W).
Proof.
  intros Hu b c n X Y SX SY Hc E x i j Hx Hi. unfold convt_arith. rewrite SX, SY. cbn [nth].
  assert (Q : (i / og) mod g = u).
  { rewrite <- (Nat.div_unique i og u (i - u * og)) by nia. apply Nat.mod_small, Hu. }
  apply Rsum_eq; intros ci Hci. apply Rsum_eq; intros t Ht. apply Rsum_eq; intros t' Ht'.
  destruct (_ =? _); [|reflexivity]. f_equal. rewrite Q. apply E; [assumption|nia|lia].
Qed.
Lemma bn_eval_groupwise g u m v w bias eps : norm_groupwise g u (bn_eval m v w bias eps).
Proof. intros b c n X Y SX SY Hc E x i j Hx Hi Hj. unfold bn_eval. rewrite (E x i j Hx Hi Hj). reflexivity. Qed.
Lemma bn_train_groupwise g u w bias eps : norm_groupwise g u (bn_train w bias eps).
Proof.
  intros b c n X Y SX SY Hc E x i j Hx Hi Hj. unfold bn_train. rewrite SX, SY. cbn [nth].
  rewrite (E x i j Hx Hi Hj).
  assert (M : Rsum b (fun b => Rsum n (fun t => elt X [b; i; t])) = Rsum b (fun b => Rsum n (fun t => elt Y [b; i; t]))).
  { apply Rsum_eq; intros y Hy. apply Rsum_eq; intros t Ht. apply E; assumption. }
  rewrite M. do 3 f_equal. f_equal. f_equal. f_equal. apply Rsum_eq; intros y Hy. apply Rsum_eq; intros t Ht. rewrite (E y i t Hy Hi Ht). reflexivity.
Qed.
Lemma pointwise_groupwise g u f : norm_groupwise g u (pointwise f).
Proof. intros b c n X Y SX SY Hc E x i j Hx Hi Hj. unfold pointwise. rewrite (E x i j Hx Hi Hj). reflexivity. Qed.

(** The convolution weights have the shapes torch gives them: [c] output channels per group in the encoder, the decoder
    channels over g in the decoder.  [mode] chooses evaluation or training mode of the normalisation, per block. *)
Theorem conv_autoencoder_layers_groupwise sk cin chans k s g u f h dch eps (mode : nat -> bool) q :
  1 <= g -> u < g -> sk = BaseSkip \/ sk = AddSkip -> cin mod g = 0 -> first_decoder_channels cin dch mod g = 0 ->
  (forall i, i < length chans -> opg_enc (q i) = nth i chans 0 /\ opg_dec (q i) = decoder_channels cin chans g dch i / g) ->
  groupwise g u (cae_forward 0%R Rplus (Some sk) (cae_create cin chans k s g (ActFun (pointwise f)) (Some (ActFun (pointwise h))) dch (Some sk)
     (fun i => if mode i then train_arith k s g eps f (q i) else eval_arith k s g eps f (q i)))).
Proof.
  intros Hg Hu Hsk Hc Hd Hq. apply conv_autoencoder_groupwise; auto using pointwise_groupwise; try apply pointwise_groupwise.
  intros i Hi. destruct (Hq i Hi) as [<- <-]. destruct (q i) as [we wd oe od [[[m1 v1] w1] b1] [[[m2 v2] w2] b2]].
  destruct (mode i); repeat split; cbn; auto using conv_arith_groupwise, convt_arith_groupwise, bn_eval_groupwise, bn_train_groupwise, pointwise_groupwise.
Qed.

(** ** ConcatSkipConnect *)
Lemma cae_blocks_snoc {A} k s groups activation out_act dch skip (ar : nat -> arith A) l c : forall i cin, exists bs cin' dch' oact',
  cae_blocks i cin (l ++ [c]) k s groups activation out_act dch skip ar = bs ++
   [conv_block cin' c k s groups activation dch' oact' skip (a_enc (ar (i + length l))) (a_n1 (ar (i + length l))) (a_act (ar (i + length l))) (a_dec (ar (i + length l))) (a_n2 (ar (i + length l)))].
Proof.
  induction l as [|d l IH]; intros i cin; cbn [app cae_blocks length].
  - exists []. do 3 eexists. rewrite Nat.add_0_r. reflexivity.
  - destruct (IH (S i) (d * groups)) as (bs & cin' & dch' & oact' & ->). eexists (_ :: bs), cin', dch', oact'. rewrite <- Nat.add_succ_comm. reflexivity.
Qed.
Lemma encode_states_snoc {V} (bs : list (block V)) b x z sts : ae_encode_states (bs ++ [b]) x = Ok (z, sts) -> exists y, enc b y = Ok z.
Proof.
  revert x z sts. induction bs as [|a bs IH]; intros x z sts; cbn [app ae_encode_states].
  - destruct (enc b x) as [y|] eqn:E; cbn; intros [= <- <-]. exists x. exact E.
  - destruct (enc a x) as [y|]; cbn; [|discriminate]. destruct (ae_encode_states (bs ++ [b]) y) as [[z' s']|] eqn:E; cbn; intros [= <- <-]. eapply IH, E.
Qed.
Lemma is_err_bind {A B} (r : res A) (f : A -> res B) : (forall a, r = Ok a -> is_err (f a)) -> is_err (bind r f).
Proof. intros H. destruct r as [a|e]; [apply H; reflexivity|exists e; reflexivity]. Qed.

Theorem conv_autoencoder_concat_refuted {A} (zero : A) add cin chans c k s groups g activation oact dch (ar : nat -> arith A) x :
  0 < c * groups ->
  is_err (cae_forward zero add (Some (ConcatSkip g)) (cae_create cin (chans ++ [c]) k s groups activation oact dch (Some (ConcatSkip g)) ar) x).
Proof.
  intros Hc. unfold cae_forward. destruct (ndim x =? 0); [eexists; reflexivity|].
  apply is_err_bind. intros v Hv. exfalso.
  unfold cae_create in Hv. destruct (cae_blocks_snoc k s groups activation (match oact with Some a => a | None => activation end) dch (Some (ConcatSkip g)) ar chans c 0 cin) as (bs & cin' & dch' & oact' & E).
  rewrite E in Hv. clear E. set (m := ar _) in Hv. set (B := conv_block _ _ _ _ _ _ _ _ _ _ _ _ _ _) in Hv.
  cbn [option_map ae_forward] in Hv. unfold ae_encode in Hv.
  destruct (ae_encode_states (bs ++ [B]) (VT x)) as [[z sts]|] eqn:E; cbn [bind] in Hv; [|discriminate].
  apply encode_states_snoc in E. destruct E as [y Ey]. unfold ae_decode in Hv.
  destruct (negb _); [discriminate|]. rewrite rev_app_distr in Hv. cbn [rev app ae_loop] in Hv.
  assert (D : dec B z = Err RuntimeError); [|rewrite D in Hv; discriminate Hv].
  unfold B, conv_block in Ey |- *. cbn [enc dec] in Ey |- *. destruct y as [y|]; [|discriminate].
  unfold conv1d in Ey. destruct (shape y) as [|b [|c0 [|l [|]]]]; try discriminate. destruct (_ || _); [discriminate|]. cbn [bind] in Ey.
  injection Ey as <-. unfold conv_transpose1d. cbn [shape same_shape get_out_channels].
  replace (c * groups =? 2 * (c * groups)) with false by (symmetry; apply Nat.eqb_neq; lia). reflexivity.
Qed.

(** non-vacuity: two groups of one channel, two blocks *)
Definition two_params : params := unit_params.
Example groupwise_nonvacuous : exists X Y, shape X = [1; 2; 3] /\
  cae_forward 0%R Rplus (Some AddSkip) (cae_create 2 [1; 1] 1 1 2 (ActFun (pointwise (fun x => x))) (Some (ActFun (pointwise (fun x => x)))) None (Some AddSkip)
    (fun i => if Nat.even i then train_arith 1 1 2 1%R (fun x => x) two_params else eval_arith 1 1 2 1%R (fun x => x) two_params)) X = Ok Y /\
  (forall i, i < length [1; 1] -> opg_enc two_params = nth i [1; 1] 0 /\ opg_dec two_params = decoder_channels 2 [1; 1] 2 None i / 2).
Proof.
  exists (mk [1; 2; 3] (fun _ => 1%R)). eexists. split; [reflexivity|]. split; [reflexivity|].
  intros [|[|i]] Hi; cbn in Hi |- *; repeat split; lia.
Qed.
