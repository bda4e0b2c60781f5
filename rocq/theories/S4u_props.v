(** Property C101: unbatched inputs of the S4 layer and of the S4 sequence model. *)
From Coq Require Import Reals Lra.
From Coquelicot Require Import Coquelicot.
From Verif Require Import Base Tensor Rutil Dft S4_model S4_props S4m_props.
Local Open Scope R_scope.

(** ** tensors of one or two axes: [Some b] for shape [b; L], [None] for shape [L] *)
Definition shp (c : option nat) (L : nat) : list nat := match c with Some b => [b; L] | None => [L] end.
(** the series that channel j receives: its own, or the only one there is *)
Definition row {X} (x : tensor X) (c : option nat) (j k : nat) : X :=
  match c with Some b => elt x [if (b =? 1)%nat then 0%nat else j; k] | None => elt x [k] end.
Definition fitsc (c : option nat) (H : nat) : Prop := match c with Some b => b = H \/ b = 1%nat | None => True end.

Lemma tr2 {A} (t : tensor A) b c : shape t = [b; c] -> exists r, transpose (-1) (-2) t = Ok r /\ shape r = [c; b] /\ forall j k, elt r [j; k] = elt t [k; j].
Proof. intros H. unfold transpose, ndim. rewrite H. cbn. eexists. split; [reflexivity|]. split; [reflexivity|]. reflexivity. Qed.
Lemma bzip_x2 {X Y Z} (f : X -> Y -> Z) x y co h c c' : shape x = shp co c -> shape y = [h; c'] -> fitsc co h -> (c' = c \/ c' = 1%nat) ->
  exists r, bzip f x y = Ok r /\ shape r = [h; c] /\ forall j k, (j < h)%nat -> (k < c)%nat ->
    elt r [j; k] = f (row x co j k) (elt y [j; if (c' =? 1)%nat then 0%nat else k]).
Proof.
  intros Hx Hy Hb Hc. unfold bzip, bshape. rewrite Hx, Hy.
  assert (B2 : bdim c c' = Ok c). { destruct Hc as [-> | ->]; [apply bdim_same|apply bdim_1_r]. }
  destruct co as [b|]; cbn [shp rev app bshape_rev]; rewrite B2; cbn [bind].
  - assert (B1 : bdim b h = Ok h). { destruct Hb as [-> | ->]; [apply bdim_same|apply bdim_1_l]. }
    rewrite B1. cbn [bind rev app]. eexists. split; [reflexivity|]. split; [reflexivity|].
    intros j k Hj Hk. cbn [elt]. unfold bidx. cbn [length Nat.sub skipn zip_with row]. rewrite (bpick h j), (bpick c k) by assumption. reflexivity.
  - cbn [bind rev app]. eexists. split; [reflexivity|]. split; [reflexivity|].
    intros j k Hj Hk. cbn [elt]. unfold bidx. cbn [length Nat.sub skipn zip_with row]. rewrite (bpick h j), (bpick c k) by assumption. reflexivity.
Qed.
Lemma bzip_22 {X Y Z} (f : X -> Y -> Z) x y b c : shape x = [b; c] -> shape y = [b; c] ->
  exists r, bzip f x y = Ok r /\ shape r = [b; c] /\ forall j k, (j < b)%nat -> (k < c)%nat -> elt r [j; k] = f (elt x [j; k]) (elt y [j; k]).
Proof.
  intros Hx Hy. destruct (bzip_x2 f x y (Some b) b c c Hx Hy (or_introl eq_refl) (or_introl eq_refl)) as [r [E [S1 G]]].
  exists r. split; [exact E|]. split; [exact S1|]. intros j k Hj Hk. rewrite G by assumption. cbn [row]. rewrite (bpick b j), (bpick c k) by assumption. reflexivity.
Qed.

(** the layer, on one unbatched input *)
Lemma s4_core_unbatched gelu s mask u co L : s_transposed s = true -> shape u = shp co L -> fitsc co (s_H s) -> (0 < L)%nat ->
  exists y, s4_forward gelu s mask u = Ok y /\ shape y = [s_H s; L] /\
    forall h t, (h < s_H s)%nat -> (t < L)%nat -> elt y [h; t] = layer_out gelu s (mask 0%nat) (row u co) h t.
Proof.
  intros HT HS Hc HL. unfold s4_forward. rewrite HT. cbn [bind].
  assert (HLs : match shape u with [] => Err IndexError | _ :: _ => Ok (last (shape u) 0%nat) end = Ok L) by (rewrite HS; destruct co; reflexivity).
  rewrite HLs. cbn [bind]. unfold rfft_t at 1. destruct (Nat.eqb_spec (2 * L) 0); [lia|]. cbn [bind].
  unfold rfft_t at 1. destruct (Nat.eqb_spec (2 * L) 0); [lia|]. cbn [bind].
  assert (HLast : last (shape u) 0%nat = L) by (rewrite HS; destruct co; reflexivity). rewrite HLast.
  assert (SU : removelast (shape u) ++ [rbins (2 * L)] = shp co (rbins (2 * L))) by (rewrite HS; destruct co; reflexivity). rewrite SU.
  unfold s4_kernel at 1. cbn [shape removelast app last].
  match goal with |- context [bzip Cmult ?U ?K] => destruct (bzip_x2 Cmult U K co (s_H s) (rbins (2 * L)) (rbins (2 * L)) eq_refl eq_refl Hc (or_introl eq_refl)) as [yf [E1 [S1 G1]]] end.
  rewrite E1. cbn [bind].
  match goal with |- context [bzip Rmult u ?D] => destruct (bzip_x2 Rmult u D co (s_H s) L 1 HS eq_refl Hc (or_intror eq_refl)) as [ud [E2 [S2 G2]]] end.
  rewrite E2. cbn [bind].
  assert (S3 : shape (first_last L (irfft_t (2 * L) yf)) = [s_H s; L]). { unfold first_last, irfft_t. cbn [shape]. rewrite S1. cbn [removelast app last]. repeat f_equal. lia. }
  destruct (bzip_22 Rplus _ ud (s_H s) L S3 S2) as [y [E4 [S4 G4]]]. rewrite E4. cbn [bind].
  set (d := dropout1d (s_p s) mask (S4_model.tmap gelu y)).
  assert (Sd : shape d = [s_H s; L]) by (unfold d, dropout1d; destruct (Rlt_dec 0 (s_p s)); exact S4).
  unfold conv_1x1. rewrite Sd, Nat.eqb_refl. cbn [bind]. eexists. split; [reflexivity|]. unfold glu. cbn [shape]. replace (2 * s_H s / 2)%nat with (s_H s) by (symmetry; rewrite Nat.mul_comm; apply Nat.div_mul; lia). split; [reflexivity|].
  intros h t Hh Ht. cbn [elt].
  assert (GD : forall h', (h' < s_H s)%nat -> elt d [h'; t] = hidden gelu s (mask 0%nat) (row u co) h' t).
  { intros h' Hh'. unfold hidden. assert (GY : elt (S4_model.tmap gelu y) [h'; t] = gelu (ssm_out s h' (row u co h') t + row u co h' t * s_D s h')).
    { unfold S4_model.tmap. cbn [elt]. f_equal. rewrite G4 by assumption. rewrite G2 by assumption. cbn [elt nth Nat.eqb]. f_equal.
      unfold first_last, irfft_t. cbn [elt removelast last app].
      rewrite (irfft_ext (2 * L) _ (fun k => Cmult (rfft (2 * L) (fun a => if (a <? L)%nat then row u co h' a else 0) k) (rfft (2 * L) (fun a => if (a <? L)%nat then kernel_doc s h' a else 0) k))).
      - rewrite irfft_mult by lia. rewrite cconv_causal by assumption. symmetry. apply ssm_conv.
      - intros k Hk. rewrite (G1 h' k Hh' Hk).
        replace (if (rbins (2 * L) =? 1)%nat then 0%nat else k) with k by (symmetry; apply bpick; exact Hk).
        destruct co as [b|]; cbn [row elt removelast last app]; f_equal; apply rfft_ext; intros a _; try reflexivity;
        change (last (shape (s4_kernel s L)) 0%nat) with L; (destruct (a <? L)%nat; [apply kernel_elt|reflexivity]). }
    unfold d, dropout1d. destruct (Rlt_dec 0 (s_p s)); cbn [elt nth]; rewrite GY; [reflexivity|ring]. }
  unfold layer_out, mixed. f_equal; [|f_equal]; f_equal; apply Rsum_ext; intros h' Hh'; rewrite GD by assumption; reflexivity.
Qed.
Lemma layer_row gelu s m u h t : layer_out gelu s m (row u (Some (s_H s))) h t = layer_out gelu s m (fun h' t' => elt u [h'; t']) h t.
Proof.
  unfold layer_out, mixed. assert (K : forall h', (h' < s_H s)%nat -> hidden gelu s m (row u (Some (s_H s))) h' t = hidden gelu s m (fun h' t' => elt u [h'; t']) h' t).
  { intros h' Hh'. unfold hidden, row. rewrite (bpick (s_H s) h') by exact Hh'. reflexivity. }
  f_equal; [|f_equal]; f_equal; apply Rsum_ext; intros h' Hh'; rewrite K by exact Hh'; reflexivity.
Qed.

(** ** C101 *)
(** adding a batch axis of one commutes with the layer: a (d_model, length) input gives the (d_model, length) output that the
    batch holding only that input gives *)
Theorem s4_unbatched gelu s mask u L : s_transposed s = true -> shape u = [s_H s; L] -> (0 < L)%nat ->
  exists y y', s4_forward gelu s mask u = Ok y /\ shape y = [s_H s; L] /\
    s4_forward gelu s mask (mk [1%nat; s_H s; L] (fun i => elt u (tl i))) = Ok y' /\ shape y' = [1%nat; s_H s; L] /\
    forall h t, (h < s_H s)%nat -> (t < L)%nat ->
      get y [h; t] = Some (layer_out gelu s (mask 0%nat) (fun h' t' => elt u [h'; t']) h t) /\ get y' [0%nat; h; t] = get y [h; t].
Proof.
  intros HT HS HL. destruct (s4_core_unbatched gelu s mask u (Some (s_H s)) L HT HS (or_introl eq_refl) HL) as [y [E [Sy G]]].
  destruct (s4_forward_spec gelu s mask (mk [1%nat; s_H s; L] (fun i => elt u (tl i))) 1 L HT eq_refl HL) as [y' [E' [Sy' G']]].
  exists y, y'. repeat (split; [assumption|]). intros h t Hh Ht. rewrite (G' 0%nat h t) by (lia || assumption). rewrite get_inb by (rewrite Sy; cbn; auto).
  rewrite G by assumption. rewrite layer_row. split; reflexivity.
Qed.
(** a one-dimensional series is accepted too: every channel receives it *)
Theorem s4_one_dim gelu s mask u L : s_transposed s = true -> shape u = [L] -> (0 < L)%nat ->
  exists y, s4_forward gelu s mask u = Ok y /\ shape y = [s_H s; L] /\
    forall h t, (h < s_H s)%nat -> (t < L)%nat -> get y [h; t] = Some (layer_out gelu s (mask 0%nat) (fun _ t' => elt u [t']) h t).
Proof.
  intros HT HS HL. destruct (s4_core_unbatched gelu s mask u None L HT HS I HL) as [y [E [Sy G]]].
  exists y. split; [exact E|]. split; [exact Sy|]. intros h t Hh Ht. rewrite get_inb by (rewrite Sy; cbn; auto). rewrite G by assumption. reflexivity.
Qed.
Theorem s4_scalar_error gelu s mask u : shape u = [] -> s4_forward gelu s mask u = Err IndexError.
Proof. intros HS. unfold s4_forward. destruct (s_transposed s); [cbn [bind]; rewrite HS; reflexivity|]. unfold transpose, ndim. rewrite HS. reflexivity. Qed.

(** the layers of the model, on one unbatched feature map *)
Lemma stack_unbatched gelu m mask mask' ls : forall k x L, (forall s, In s ls -> s_H s = m_d m /\ s_transposed s = true) -> shape x = [m_d m; L] -> (0 < L)%nat ->
  exists y, s4_stack gelu m mask mask' k ls x = Ok y /\ shape y = [m_d m; L] /\
    forall (X : nat -> nat -> R), (forall h t, (h < m_d m)%nat -> (t < L)%nat -> elt x [h; t] = X h t) ->
      forall h t, (h < m_d m)%nat -> (t < L)%nat -> elt y [h; t] = blocks gelu m (fun k => mask k 0%nat) (fun k => mask' k 0%nat) k ls X h t.
Proof.
  induction ls as [|s ls IH]; intros k x L WF HS HL.
  - exists x. split; [reflexivity|]. split; [exact HS|]. intros X HX h t Hh Ht. cbn [blocks]. apply HX; assumption.
  - destruct (WF s (or_introl eq_refl)) as [EH ET]. cbn [s4_stack].
    destruct (s4_unbatched gelu s (mask k) x L ET ltac:(rewrite EH; exact HS) HL) as [z [z' [Ez [Sz [_ [_ Gz]]]]]]. rewrite Ez. cbn [bind]. rewrite EH in Sz.
    set (zd := dropout1d (m_p m) (mask' k) z). assert (Szd : shape zd = [m_d m; L]) by (unfold zd, dropout1d; destruct (Rlt_dec 0 (m_p m)); exact Sz).
    destruct (bzip_22 Rplus zd x (m_d m) L Szd HS) as [zx [Ex [Sx Gx]]]. rewrite Ex. cbn [bind].
    destruct (tr2 zx (m_d m) L Sx) as [zt [Et [St Gt]]]. rewrite Et. cbn [bind].
    destruct (tr2 (layer_norm (m_lw m k) (m_lb m k) zt) L (m_d m)) as [x1 [E1 [S1 G1]]]; [exact St|]. rewrite E1. cbn [bind].
    destruct (IH (S k) x1 L) as [y [Ey [Sy Gy]]]; [intros s' Hs'; apply WF; right; exact Hs'|exact S1|exact HL|]. exists y. split; [exact Ey|]. split; [exact Sy|].
    intros X HX h t Hh Ht. cbn [blocks]. apply (Gy (block gelu m (mask k 0%nat) (mask' k 0%nat) k s X)); [|assumption|assumption].
    clear h t Hh Ht. intros h t Hh Ht. rewrite G1. unfold layer_norm. cbn [elt]. rewrite St. cbn [last removelast app]. unfold block. apply lnorm_ext; [|exact Hh].
    intros h' Hh'. rewrite Gt, Gx by assumption. f_equal; [|apply HX; assumption].
    assert (GZ : elt z [h'; t] = layer_out gelu s (mask k 0%nat) X h' t).
    { destruct (Gz h' t ltac:(rewrite EH; exact Hh') Ht) as [Gz0 _]. rewrite get_inb in Gz0 by (rewrite Sz; cbn; auto). injection Gz0 as Gz0. rewrite Gz0. apply (layer_ext _ _ _ _ _ _ _ L Ht). intros h'' k' Hh'' Hk'. apply HX; try assumption. rewrite <- EH. exact Hh''. }
    unfold zd, dropout1d. destruct (Rlt_dec 0 (m_p m)); cbn [elt nth]; rewrite GZ; [reflexivity|ring].
Qed.
(** the features the layers compute for an unbatched input *)
Definition features gelu m mask mask' (x : nat -> nat -> R) : nat -> nat -> R :=
  blocks gelu m (fun k => mask k 0%nat) (fun k => mask' k 0%nat) 0 (m_layers m) (encode m x).
Lemma model_unbatched gelu m mask mask' x L : well_formed m -> shape x = [m_in m; L] -> (0 < L)%nat ->
  exists z, s4model_forward gelu m mask mask' x = linear (m_d m) (m_out m) (m_dW m) (m_db m) z /\ shape z = [L] /\
    forall t, (t < L)%nat -> elt z [t] = rmean (m_d m) (fun h => features gelu m mask mask' (fun c t => elt x [c; t]) h t).
Proof.
  intros WF HS HL. unfold s4model_forward. destruct (tr2 x (m_in m) L HS) as [x1 [E1 [S1 G1]]]. rewrite E1. cbn [bind].
  unfold linear at 1. rewrite S1. cbn [last removelast app]. rewrite Nat.eqb_refl. cbn [bind].
  match goal with |- context [transpose (-1) (-2) ?T] => destruct (tr2 T L (m_d m) eq_refl) as [x2 [E2 [S2 G2]]] end. rewrite E2. cbn [bind].
  destruct (stack_unbatched gelu m mask mask' (m_layers m) 0 x2 L WF S2 HL) as [x3 [E3 [S3 G3]]]. rewrite E3. cbn [bind].
  destruct (tr2 x3 (m_d m) L S3) as [x4 [E4 [S4 G4]]]. rewrite E4. cbn [bind]. unfold mean1. rewrite S4. cbn [bind].
  eexists. split; [reflexivity|]. split; [reflexivity|]. intros t Ht. cbn [elt]. unfold rmean. f_equal. apply Rsum_ext. intros h Hh.
  rewrite G4. unfold features. apply G3; try assumption. intros h' t' Hh' Ht'. rewrite G2. cbn [elt last removelast app]. unfold encode. f_equal. apply Rsum_ext. intros c _. f_equal. apply G1.
Qed.
(** the model refuses an unbatched input ... unless its length happens to be d_model *)
Theorem s4model_unbatched_error gelu m mask mask' x L : well_formed m -> shape x = [m_in m; L] -> (0 < L)%nat -> L <> m_d m ->
  s4model_forward gelu m mask mask' x = Err RuntimeError.
Proof.
  intros WF HS HL HN. destruct (model_unbatched gelu m mask mask' x L WF HS HL) as [z [E [Sz _]]]. rewrite E. unfold linear. rewrite Sz. cbn [last].
  destruct (Nat.eqb_spec L (m_d m)); [contradiction|reflexivity].
Qed.
(** ... in which case it averages over the channels instead of over time and decodes the result *)
Theorem s4model_unbatched_silent gelu m mask mask' x : well_formed m -> shape x = [m_in m; m_d m] -> (0 < m_d m)%nat ->
  exists y, s4model_forward gelu m mask mask' x = Ok y /\ shape y = [m_out m] /\
    forall o, (o < m_out m)%nat ->
      get y [o] = Some (m_db m o + Rsum (m_d m) (fun t => m_dW m o t * rmean (m_d m) (fun h => features gelu m mask mask' (fun c t => elt x [c; t]) h t))).
Proof.
  intros WF HS HL. destruct (model_unbatched gelu m mask mask' x (m_d m) WF HS HL) as [z [E [Sz G]]]. rewrite E. unfold linear. rewrite Sz. cbn [last removelast app]. rewrite Nat.eqb_refl.
  eexists. split; [reflexivity|]. split; [reflexivity|]. intros o Ho. rewrite get_inb by (cbn; auto). cbn [elt last removelast app]. f_equal. f_equal. apply Rsum_ext. intros t Ht. rewrite G by exact Ht. reflexivity.
Qed.
Lemma blocks_snoc gelu m mask mask' s ls : forall k x, blocks gelu m mask mask' k (ls ++ [s]) x = block gelu m (mask (k + length ls)%nat) (mask' (k + length ls)%nat) (k + length ls) s (blocks gelu m mask mask' k ls x).
Proof.
  induction ls as [|a ls IH]; intros k x; cbn [app blocks length]; [rewrite Nat.add_0_r; reflexivity|]. rewrite IH. replace (S k + length ls)%nat with (k + S (length ls))%nat by lia. reflexivity.
Qed.
(** ... which, while the last normalisation has its initial weights and biases, is the decoder's bias whatever the input:
    the answer the caller wants, that of the batch holding this input, is not returned *)
Theorem s4model_unbatched_constant_refuted gelu m mask mask' x : well_formed m -> shape x = [m_in m; m_d m] -> (0 < m_d m)%nat ->
  m_layers m <> [] -> (forall h, m_lw m (length (m_layers m) - 1) h = 1) -> (forall h, m_lb m (length (m_layers m) - 1) h = 0) ->
  exists y, s4model_forward gelu m mask mask' x = Ok y /\ shape y = [m_out m] /\ forall o, (o < m_out m)%nat -> get y [o] = Some (m_db m o).
Proof.
  intros WF HS HL HN HW HB. destruct (s4model_unbatched_silent gelu m mask mask' x WF HS HL) as [y [E [Sy G]]]. exists y. split; [exact E|]. split; [exact Sy|].
  intros o Ho. rewrite G by exact Ho. f_equal. rewrite (Rsum_ext (m_d m) _ (fun _ => 0)); [rewrite Rsum_0 by reflexivity; ring|].
  intros t Ht. unfold features. destruct (exists_last HN) as [ls [s El]]. rewrite El in HW, HB |- *. rewrite app_length in HW, HB. cbn [length] in HW, HB. replace (length ls + 1 - 1)%nat with (0 + length ls)%nat in HW, HB by lia.
  rewrite blocks_snoc. rewrite block_normalised by assumption. ring.
Qed.
(** a model with a batch of one gives (1, d_output), and generally not the bias: without layers the difference is visible *)
Definition ex_enc : s4model := mks4m 1 1 2 [] 0 (fun _ _ => 1) (fun _ => 0) (fun _ _ => 1) (fun _ _ => 0) (fun _ h => INR h) (fun _ => 0).
Definition ex_in : tensor R := mk [1%nat; 2%nat] (fun i => INR (nth 1 i 0%nat)).
Example s4model_unbatched_ex gelu : exists y y', s4model_forward gelu ex_enc (fun _ _ _ => 1) (fun _ _ _ => 1) ex_in = Ok y /\ get y [0%nat] = Some 1 /\
  s4model_forward gelu ex_enc (fun _ _ _ => 1) (fun _ _ _ => 1) (mk [1%nat; 1%nat; 2%nat] (fun i => elt ex_in (tl i))) = Ok y' /\ get y' [0%nat; 0%nat] = Some (1 / 2).
Proof.
  assert (WF : well_formed ex_enc) by (intros s []).
  destruct (s4model_unbatched_silent gelu ex_enc (fun _ _ _ => 1) (fun _ _ _ => 1) ex_in WF eq_refl ltac:(cbn; lia)) as [y [E [_ G]]].
  destruct (s4model_spec gelu ex_enc (fun _ _ _ => 1) (fun _ _ _ => 1) (mk [1%nat; 1%nat; 2%nat] (fun i => elt ex_in (tl i))) 1 2 WF eq_refl ltac:(lia)) as [y' [E' [_ G']]].
  exists y, y'. split; [exact E|]. split; [|split; [exact E'|]].
  - rewrite G by (cbn; lia). f_equal. unfold features, rmean, ex_enc, ex_in. cbn [m_layers m_d m_db m_dW blocks]. unfold encode. cbn [m_in m_eb m_eW Rsum elt nth INR]. lra.
  - rewrite G' by (cbn; lia). f_equal. unfold decode, encode, rmean, ex_enc, ex_in. cbn [m_layers m_d m_db m_dW blocks m_in m_eb m_eW Rsum elt nth INR tl]. lra.
Qed.
Example s4model_unbatched_constant_ex gelu : exists y, s4model_forward gelu ex_model (fun _ _ _ => 1) (fun _ _ _ => 1) (mk [1%nat; 1%nat] (fun _ => 7)) = Ok y /\ get y [1%nat] = Some 0.
Proof.
  destruct (s4model_unbatched_constant_refuted gelu ex_model (fun _ _ _ => 1) (fun _ _ _ => 1) (mk [1%nat; 1%nat] (fun _ => 7))) as [y [E [_ G]]];
    [intros s [<-|[<-|[]]]; auto|reflexivity|cbn; lia|discriminate|reflexivity|reflexivity|]. exists y. split; [exact E|]. apply (G 1%nat). cbn. lia.
Qed.
