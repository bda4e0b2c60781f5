(** Property C69: the S4 sequence model. *)
From Coq Require Import Reals Lra.
From Coquelicot Require Import Coquelicot.
From Verif Require Import Base Tensor Rutil Dft S4_model S4_props.
Local Open Scope R_scope.

(** ** specification, for one batch element: features as functions of channel and time *)
Definition encode (m : s4model) (x : nat -> nat -> R) (h t : nat) : R := m_eb m h + Rsum (m_in m) (fun c => m_eW m h c * x c t).
(** residual S4D block with post-normalisation over channels at each time *)
Definition block (gelu : R -> R) (m : s4model) (mask mask' : nat -> R) (k : nat) (s : s4) (x : nat -> nat -> R) (h t : nat) : R :=
  lnorm (m_d m) (m_lw m k) (m_lb m k) (fun h' => (if Rlt_dec 0 (m_p m) then mask' h' else 1) * layer_out gelu s mask x h' t + x h' t) h.
Fixpoint blocks (gelu : R -> R) (m : s4model) (mask mask' : nat -> nat -> R) (k : nat) (ls : list s4) (x : nat -> nat -> R) : nat -> nat -> R :=
  match ls with [] => x | s :: ls => blocks gelu m mask mask' (S k) ls (block gelu m (mask k) (mask' k) k s x) end.
Definition decode (m : s4model) (x : nat -> nat -> R) (L o : nat) : R := m_db m o + Rsum (m_d m) (fun h => m_dW m o h * rmean L (fun t => x h t)).
Definition well_formed (m : s4model) : Prop := forall s, In s (m_layers m) -> s_H s = m_d m /\ s_transposed s = true.

Lemma lnorm_ext n wt bs f g i : (forall j, (j < n)%nat -> f j = g j) -> (i < n)%nat -> lnorm n wt bs f i = lnorm n wt bs g i.
Proof.
  intros H Hi. unfold lnorm. rewrite (H i Hi). assert (M : rmean n f = rmean n g) by (unfold rmean; f_equal; apply Rsum_ext; exact H).
  assert (V : rvar n f = rvar n g) by (unfold rvar, rmean at 1 3; f_equal; apply Rsum_ext; intros j Hj; rewrite M, (H j Hj); reflexivity). rewrite M, V. reflexivity.
Qed.
Lemma layer_ext gelu s m u v h t L : (t < L)%nat -> (forall h' k, (h' < s_H s)%nat -> (k < L)%nat -> u h' k = v h' k) -> layer_out gelu s m u h t = layer_out gelu s m v h t.
Proof. intros Ht H. apply layer_prefix. intros h' k Hh Hk. apply H; lia. Qed.
(** one block on a tensor *)
Lemma stack_spec gelu m mask mask' ls : forall k x B L, (forall s, In s ls -> s_H s = m_d m /\ s_transposed s = true) -> shape x = [B; m_d m; L] -> (0 < L)%nat ->
  exists y, s4_stack gelu m mask mask' k ls x = Ok y /\ shape y = [B; m_d m; L] /\
    forall (X : nat -> nat -> nat -> R), (forall p h t, (p < B)%nat -> (h < m_d m)%nat -> (t < L)%nat -> elt x [p; h; t] = X p h t) ->
      forall p h t, (p < B)%nat -> (h < m_d m)%nat -> (t < L)%nat -> elt y [p; h; t] = blocks gelu m (fun k => mask k p) (fun k => mask' k p) k ls (X p) h t.
Proof.
  induction ls as [|s ls IH]; intros k x B L WF HS HL.
  - exists x. split; [reflexivity|]. split; [exact HS|]. intros X HX p h t Hp Hh Ht. cbn [blocks]. apply HX; assumption.
  - destruct (WF s (or_introl eq_refl)) as [EH ET]. cbn [s4_stack].
    destruct (s4_forward_spec gelu s (mask k) x B L ET ltac:(rewrite EH; exact HS) HL) as [z [Ez [Sz Gz]]]. rewrite Ez. cbn [bind]. rewrite EH in Sz.
    set (zd := dropout1d (m_p m) (mask' k) z). assert (Szd : shape zd = [B; m_d m; L]) by (unfold zd, dropout1d; destruct (Rlt_dec 0 (m_p m)); exact Sz).
    destruct (bzip_33 Rplus zd x B (m_d m) L Szd HS) as [zx [Ex [Sx Gx]]]. rewrite Ex. cbn [bind].
    destruct (tr3 zx B (m_d m) L Sx) as [zt [Et [St Gt]]]. rewrite Et. cbn [bind].
    destruct (tr3 (layer_norm (m_lw m k) (m_lb m k) zt) B L (m_d m)) as [x1 [E1 [S1 G1]]]; [exact St|]. rewrite E1. cbn [bind].
    destruct (IH (S k) x1 B L) as [y [Ey [Sy Gy]]]; [intros s' Hs'; apply WF; right; exact Hs'|exact S1|exact HL|]. exists y. split; [exact Ey|]. split; [exact Sy|].
    intros X HX p h t Hp Hh Ht. cbn [blocks]. apply (Gy (fun p => block gelu m (mask k p) (mask' k p) k s (X p))); [|assumption|assumption|assumption].
    clear p h t Hp Hh Ht. intros p h t Hp Hh Ht. rewrite G1. unfold layer_norm. cbn [elt]. rewrite St. cbn [last removelast app]. unfold block. apply lnorm_ext; [|exact Hh].
    intros h' Hh'. rewrite Gt, Gx by assumption. f_equal; [|apply HX; assumption].
    assert (GZ : elt z [p; h'; t] = layer_out gelu s (mask k p) (X p) h' t).
    { specialize (Gz p h' t Hp ltac:(rewrite EH; exact Hh') Ht). rewrite get_inb in Gz by (rewrite Sz; cbn; auto). injection Gz as Gz. rewrite Gz. apply (layer_ext _ _ _ _ _ _ _ L Ht). intros h'' k' Hh'' Hk'. apply HX; try assumption. rewrite <- EH. exact Hh''. }
    unfold zd, dropout1d. destruct (Rlt_dec 0 (m_p m)); cbn [elt nth]; rewrite GZ; [reflexivity|ring].
Qed.
(** the model: (batch, d_input, length) to (batch, d_output); row p is a function of batch element p only *)
Theorem s4model_spec gelu m mask mask' x B L : well_formed m -> shape x = [B; m_in m; L] -> (0 < L)%nat ->
  exists y, s4model_forward gelu m mask mask' x = Ok y /\ shape y = [B; m_out m] /\
    forall p o, (p < B)%nat -> (o < m_out m)%nat ->
      get y [p; o] = Some (decode m (blocks gelu m (fun k => mask k p) (fun k => mask' k p) 0 (m_layers m) (encode m (fun c t => elt x [p; c; t]))) L o).
Proof.
  intros WF HS HL. unfold s4model_forward. destruct (tr3 x B (m_in m) L HS) as [x1 [E1 [S1 G1]]]. rewrite E1. cbn [bind].
  unfold linear at 1. rewrite S1. cbn [last removelast app]. rewrite Nat.eqb_refl. cbn [bind].
  match goal with |- context [transpose (-1) (-2) ?T] => destruct (tr3 T B L (m_d m) eq_refl) as [x2 [E2 [S2 G2]]] end. rewrite E2. cbn [bind].
  destruct (stack_spec gelu m mask mask' (m_layers m) 0 x2 B L WF S2 HL) as [x3 [E3 [S3 G3]]]. rewrite E3. cbn [bind].
  destruct (tr3 x3 B (m_d m) L S3) as [x4 [E4 [S4 G4]]]. rewrite E4. cbn [bind]. unfold mean1. rewrite S4. cbn [bind]. unfold linear. cbn [shape last]. rewrite Nat.eqb_refl. eexists. split; [reflexivity|]. cbn [removelast app shape]. split; [reflexivity|].
  intros p o Hp Ho. rewrite get_inb by (cbn; auto). cbn [elt last removelast app nth]. f_equal. unfold decode. f_equal. apply Rsum_ext. intros h Hh. f_equal. unfold rmean. f_equal. apply Rsum_ext. intros t Ht.
  rewrite G4. apply (G3 (fun p => encode m (fun c t => elt x [p; c; t]))); try assumption. intros p' h' t' Hp' Hh' Ht'. rewrite G2. cbn [elt last removelast app]. unfold encode. f_equal. apply Rsum_ext. intros c _. f_equal. apply G1.
Qed.
Theorem s4model_channel_error gelu m mask mask' x B c L : shape x = [B; c; L] -> c <> m_in m -> s4model_forward gelu m mask mask' x = Err RuntimeError.
Proof.
  intros HS HN. unfold s4model_forward. destruct (tr3 x B c L HS) as [x1 [E1 [S1 _]]]. rewrite E1. cbn [bind]. unfold linear at 1. rewrite S1. cbn [last]. destruct (Nat.eqb_spec c (m_in m)); [contradiction|reflexivity].
Qed.
(** without layers the model is linear in the time average of the input, so it does not see the order of the samples *)
Theorem s4model_no_layers m x L o : (0 < L)%nat -> decode m (encode m x) L o = m_db m o + Rsum (m_d m) (fun h => m_dW m o h * (m_eb m h + Rsum (m_in m) (fun c => m_eW m h c * rmean L (x c)))).
Proof.
  intros HL. assert (NZ : INR L <> 0) by (apply not_0_INR; lia). unfold decode, encode. f_equal. apply Rsum_ext. intros h _. f_equal. unfold rmean. rewrite Rsum_plus, Rsum_const.
  rewrite Rsum_swap. rewrite (Rsum_ext (m_in m) (fun i => Rsum L (fun i0 => m_eW m h i * x i i0)) (fun i => m_eW m h i * Rsum L (x i))) by (intros c _; rewrite Rsum_scal; reflexivity).
  rewrite (Rsum_ext (m_in m) (fun c => m_eW m h c * (Rsum L (x c) / INR L)) (fun c => / INR L * (m_eW m h c * Rsum L (x c)))) by (intros c _; unfold Rdiv; ring). rewrite Rsum_scal. set (q := Rsum (m_in m) _). field. exact NZ.
Qed.
(** after every block the features at each time have been normalised: for unit weights and zero biases their channel mean is 0 *)
Theorem block_normalised gelu m mask mask' k s x t : (0 < m_d m)%nat -> (forall h, m_lw m k h = 1) -> (forall h, m_lb m k h = 0) ->
  rmean (m_d m) (fun h => block gelu m mask mask' k s x h t) = 0.
Proof.
  intros Hd Hw Hb. unfold block, lnorm. set (f := fun h' => _ + x h' t). set (c := sqrt _). unfold rmean at 1. rewrite (Rsum_ext (m_d m) _ (fun h => / c * (f h - rmean (m_d m) f))).
  - rewrite Rsum_scal. rewrite (Rsum_minus (m_d m) f (fun _ => rmean (m_d m) f)), Rsum_const. unfold rmean. assert (INR (m_d m) <> 0) by (apply not_0_INR; lia). unfold Rdiv. rewrite (Rmult_comm (Rsum (m_d m) f)), <- Rmult_assoc, Rinv_r, Rmult_1_l by assumption. rewrite Rminus_diag_eq by reflexivity. ring.
  - intros h _. rewrite Hw, Hb. unfold Rdiv. change ((if Rlt_dec 0 (m_p m) then mask' h else 1) * layer_out gelu s mask x h t + x h t) with (f h). ring.
Qed.
(** construction: a model with layers is built exactly when the dropout is a number in [0, 1] and the timesteps are positive; without layers nothing is checked *)
Theorem s4model_create_spec di do d N n p dmin dmax rand cn D W b eW eb lw lb dW db :
  ((exists m, s4model_create di do d N n p dmin dmax rand cn D W b eW eb lw lb dW db = Ok m) <-> (n = 0%nat \/ ((exists x, p = PyNum (Some x) /\ 0 <= x <= 1) /\ 0 < dmin /\ 0 < dmax))) /\
  (forall m, s4model_create di do d N n p dmin dmax rand cn D W b eW eb lw lb dW db = Ok m -> well_formed m /\ List.length (m_layers m) = n /\ m_in m = di /\ m_out m = do /\ m_d m = d) /\
  (forall e, s4model_create di do d N n p dmin dmax rand cn D W b eW eb lw lb dW db = Err e -> e = ValueError).
Proof.
  unfold s4model_create. set (f := fun k => s4_create d N p true dmin dmax (rand k) (cn k) (D k) (W k) (b k)).
  assert (SQ : forall l, match sequence (map f l) with
     | Ok ls => List.length ls = List.length l /\ (forall s, In s ls -> exists k, f k = Ok s) | Err e => e = ValueError /\ (exists k, In k l /\ exists e', f k = Err e') end).
  { induction l as [|k l IH]; [cbn; split; [reflexivity|contradiction]|]. cbn [map sequence]. destruct (f k) as [s|e] eqn:Ek.
    - cbn [bind]. destruct (sequence (map f l)) as [ls|e]; cbn [bind].
      + destruct IH as [IL IA]. split; [cbn; f_equal; exact IL|]. intros s' [<-|Hs']; [exists k; exact Ek|apply IA; exact Hs'].
      + destruct IH as [-> [k' [Hk' Ee]]]. split; [reflexivity|]. exists k'. split; [right; exact Hk'|exact Ee].
    - cbn [bind]. split; [|exists k; split; [left; reflexivity|exists e; exact Ek]]. apply (proj2 (s4_create_spec d N p true dmin dmax (rand k) (cn k) (D k) (W k) (b k)) e Ek). }
  specialize (SQ (seq 0 n)). rewrite seq_length in SQ.
  assert (FE : forall k, (exists s, f k = Ok s) <-> ((exists x, p = PyNum (Some x) /\ 0 <= x <= 1) /\ 0 < dmin /\ 0 < dmax)) by (intros k; apply s4_create_spec).
  destruct (sequence (map f (seq 0 n))) as [ls|e]; cbn [bind].
  - destruct SQ as [SL SA]. split; [|split].
    + split; [|intros _; eexists; reflexivity]. intros _. destruct n as [|n]; [left; reflexivity|]. right. destruct ls as [|s ls]; [discriminate SL|]. destruct (SA s (or_introl eq_refl)) as [k Ek]. apply (FE k). exists s. exact Ek.
    + intros m E. injection E as <-. cbn [m_layers m_in m_out m_d]. split; [|auto]. intros s Hs. cbn [m_layers m_d] in *. destruct (SA s Hs) as [k Ek]. unfold f, s4_create in Ek. destruct p as [|[x|]|]; try discriminate.
      destruct (Rle_dec 0 x); [|discriminate]. destruct (Rle_dec x 1); [|discriminate]. destruct (Rlt_dec 0 dmax); [|discriminate]. destruct (Rlt_dec 0 dmin); [|discriminate]. injection Ek as <-. auto.
    + intros e E. discriminate.
  - destruct SQ as [-> [k [Hk [e' Ee]]]]. split; [|split; [intros m E; discriminate|intros e E; injection E as <-; reflexivity]]. split; [intros [m E]; discriminate|].
    intros [-> | H]; [cbn in Hk; contradiction|]. apply (FE k) in H. destruct H as [s Es]. congruence.
Qed.
(** a concrete layer and model: one channel, two modes *)
Definition ex_layer : s4 := mks4 1 1 true 0 (fun _ => 0) (fun _ _ => RtoC 1) (fun _ _ => 0) (fun _ _ => 1) (fun _ => 1) (fun _ _ => 1) (fun _ => 0).
Definition ex_model : s4model := mks4m 1 2 1 [ex_layer; ex_layer] 0 (fun _ _ => 1) (fun _ => 0) (fun _ _ => 1) (fun _ _ => 0) (fun _ _ => 1) (fun _ => 0).
Example s4model_ex gelu : exists y, s4model_forward gelu ex_model (fun _ _ _ => 1) (fun _ _ _ => 1) (mk [3%nat; 1%nat; 5%nat] (fun i => INR (nth 2 i 0%nat))) = Ok y /\ shape y = [3%nat; 2%nat].
Proof.
  destruct (s4model_spec gelu ex_model (fun _ _ _ => 1) (fun _ _ _ => 1) (mk [3%nat; 1%nat; 5%nat] (fun i => INR (nth 2 i 0%nat))) 3 5) as [y [E [S _]]]; [|reflexivity|lia|exists y; auto].
  intros s [<-|[<-|[]]]; auto.
Qed.
