(** Property C60: the S4D layer is a causal linear state-space model followed by pointwise operations. *)
From Coq Require Import Reals Lra.
From Coquelicot Require Import Coquelicot.
From Verif Require Import Base Tensor Rutil Dft S4_model.
Local Open Scope R_scope.

(** ** specification *)
(** causal convolution *)
Definition conv (K u : nat -> R) (t : nat) : R := Rsum (S t) (fun a => u a * K (t - a)%nat).
(** mode n of channel h: the continuous-time pole, its timestep, the discretised pole and input gain *)
Definition pole (s : s4) (h n : nat) : C := (- exp (s_logA s h n), s_Aim s h n).
Definition dt (s : s4) (h : nat) : R := exp (s_log_dt s h).
Definition Abar (s : s4) (h n : nat) : C := cexp (Cmult (pole s h n) (RtoC (dt s h))).
Definition Bbar (s : s4) (h n : nat) : C := Cdiv (Cminus (Abar s h n) (RtoC 1)) (pole s h n).
(** the documented kernel *)
Definition kernel_doc (s : s4) (h l : nat) : R := 2 * Re (Csum (s_half s) (fun n => Cmult (Cmult (s_C s h n) (Bbar s h n)) (Cpow (Abar s h n) l))).
(** stepping the recurrent model: state after reading u 0 .. u t from rest *)
Fixpoint state (a b : C) (u : nat -> R) (t : nat) : C :=
  match t with O => Cmult b (RtoC (u O)) | S t' => Cplus (Cmult a (state a b u t')) (Cmult b (RtoC (u (S t')))) end.
(** the layer: state-space output and skip, activation and channel dropout, then position-wise mixing *)
Definition ssm_out (s : s4) (h : nat) (u : nat -> R) (t : nat) : R :=
  2 * Re (Csum (s_half s) (fun n => Cmult (s_C s h n) (state (Abar s h n) (Bbar s h n) u t))).
Definition hidden (gelu : R -> R) (s : s4) (m : nat -> R) (u : nat -> nat -> R) (h t : nat) : R :=
  (if Rlt_dec 0 (s_p s) then m h else 1) * gelu (ssm_out s h (u h) t + u h t * s_D s h).
Definition mixed (gelu : R -> R) (s : s4) (m : nat -> R) (u : nat -> nat -> R) (o t : nat) : R :=
  s_b s o + Rsum (s_H s) (fun h => s_W s o h * hidden gelu s m u h t).
Definition layer_out (gelu : R -> R) (s : s4) (m : nat -> R) (u : nat -> nat -> R) (h t : nat) : R :=
  mixed gelu s m u h t * sigmoid (mixed gelu s m u (h + s_H s) t).

(** ** complex exponential *)
Lemma C_eq (a b : C) : Re a = Re b -> Im a = Im b -> a = b.
Proof. destruct a, b. cbn. intros -> ->. reflexivity. Qed.
Lemma cexp_plus a b : cexp (Cplus a b) = Cmult (cexp a) (cexp b).
Proof. apply C_eq; unfold cexp, Cmult, Cplus, Re, Im; cbn [fst snd]; rewrite ?exp_plus, ?cos_plus, ?sin_plus; ring. Qed.
Lemma cexp_0 : cexp (RtoC 0) = RtoC 1.
Proof. apply C_eq; unfold cexp, Re, Im; cbn; rewrite exp_0, ?cos_0, ?sin_0; ring. Qed.
Lemma cexp_mod z : Cmod (cexp z) = exp (Re z).
Proof.
  unfold Cmod, cexp. cbn [fst snd]. replace ((exp (Re z) * cos (Im z)) ^ 2 + (exp (Re z) * sin (Im z)) ^ 2) with (exp (Re z) ^ 2 * (Rsqr (sin (Im z)) + Rsqr (cos (Im z)))) by (unfold Rsqr; ring).
  rewrite sin2_cos2, Rmult_1_r. replace (exp (Re z) ^ 2) with (Rsqr (exp (Re z))) by (unfold Rsqr; ring). rewrite sqrt_Rsqr; [reflexivity|apply Rlt_le, exp_pos].
Qed.
Lemma cexp_pow z l : cexp (Cmult z (RtoC (INR l))) = Cpow (cexp z) l.
Proof.
  induction l as [|l IH]; [cbn [INR Cpow]; rewrite Cmult_0_r; apply cexp_0|]. rewrite S_INR. cbn [Cpow]. rewrite <- IH, <- cexp_plus. f_equal. rewrite RtoC_plus. ring.
Qed.
Lemma pole_nz s h n : pole s h n <> RtoC 0.
Proof. unfold pole. intros H. injection H as H _. pose proof (exp_pos (s_logA s h n)). lra. Qed.
(** the kernel computed is the documented one *)
Lemma kernel_elt s L h l : elt (s4_kernel s L) [h; l] = kernel_doc s h l.
Proof.
  unfold s4_kernel, kernel_doc. cbn [elt nth]. f_equal. f_equal. apply Csum_ext. intros n _. cbv zeta. rewrite cexp_pow. fold (dt s h). fold (pole s h n). fold (Abar s h n). unfold Bbar. unfold Cdiv. ring.
Qed.
(** ** convolution = recurrence *)
Lemma state_conv a b u t : state a b u t = Csum (S t) (fun k => Cmult (Cmult b (Cpow a (t - k)%nat)) (RtoC (u k))).
Proof.
  induction t as [|t IH]; [cbn [state Csum]; rewrite Nat.sub_diag; cbn [Cpow]; ring|].
  cbn [state]. rewrite IH. remember (S t) as n eqn:En. cbn [Csum]. rewrite Nat.sub_diag. cbn [Cpow]. rewrite <- Csum_scal. f_equal; [|ring].
  apply Csum_ext. intros k Hk. replace (n - k)%nat with (S (t - k)) by lia. cbn [Cpow]. ring.
Qed.
Lemma ssm_conv s h u t : ssm_out s h u t = conv (kernel_doc s h) u t.
Proof.
  unfold ssm_out, conv. rewrite (Csum_ext _ _ (fun n => Csum (S t) (fun k => Cmult (RtoC (u k)) (Cmult (Cmult (s_C s h n) (Bbar s h n)) (Cpow (Abar s h n) (t - k)%nat))))).
  2:{ intros n _. rewrite state_conv, <- Csum_scal. apply Csum_ext. intros. ring. }
  rewrite Csum_swap, Re_Csum, Rmult_comm, <- Rsum_scal_r. apply Rsum_ext. intros k _. rewrite Csum_scal, Re_scal. unfold kernel_doc. ring.
Qed.
(** ** FFT convolution of length 2L, truncated to L, is the causal convolution *)
Lemma cconv_causal L K u t : (t < L)%nat ->
  cconv (2 * L) (fun a => if (a <? L)%nat then u a else 0) (fun a => if (a <? L)%nat then K a else 0) t = conv K u t.
Proof.
  intros Ht. unfold cconv, conv. replace (2 * L)%nat with (S t + (2 * L - S t))%nat at 1 by lia. rewrite Rsum_app.
  rewrite (Rsum_0 (2 * L - S t)).
  - rewrite Rplus_0_r. apply Rsum_ext. intros a Ha. destruct (Nat.ltb_spec a L); [|lia]. f_equal. unfold croll.
    replace (Z.to_nat ((Z.of_nat t - Z.of_nat a) mod Z.of_nat (2 * L))) with (t - a)%nat by (rewrite Z.mod_small by lia; lia). destruct (Nat.ltb_spec (t - a) L); [reflexivity|lia].
  - intros a Ha. destruct (Nat.ltb_spec (S t + a) L); [|ring]. unfold croll.
    replace ((Z.of_nat t - Z.of_nat (S t + a)) mod Z.of_nat (2 * L))%Z with (Z.of_nat (2 * L + t - (S t + a))).
    + rewrite Nat2Z.id. destruct (Nat.ltb_spec (2 * L + t - (S t + a)) L); [lia|ring].
    + symmetry. rewrite <- (Z_mod_plus_full _ 1). rewrite Z.mod_small by lia. lia.
Qed.
(** ** tensors of three axes *)
Lemma tr3 {A} (t : tensor A) a b c : shape t = [a; b; c] -> exists r, transpose (-1) (-2) t = Ok r /\ shape r = [a; c; b] /\ forall i j k, elt r [i; j; k] = elt t [i; k; j].
Proof. intros H. unfold transpose, ndim. rewrite H. cbn. eexists. split; [reflexivity|]. split; [reflexivity|]. reflexivity. Qed.
Lemma sub11 n : (n - n = 0)%nat. Proof. lia. Qed.
Lemma bdim_same n : bdim n n = Ok n. Proof. unfold bdim. rewrite Nat.eqb_refl. reflexivity. Qed.
Lemma bpick (n i : nat) : (i < n)%nat -> (if (n =? 1)%nat then 0%nat else i) = i.
Proof. intros H. destruct (Nat.eqb_spec n 1); lia. Qed.
Lemma bzip_33 {X Y Z} (f : X -> Y -> Z) x y a b c : shape x = [a; b; c] -> shape y = [a; b; c] ->
  exists r, bzip f x y = Ok r /\ shape r = [a; b; c] /\ forall i j k, (i < a)%nat -> (j < b)%nat -> (k < c)%nat -> elt r [i; j; k] = f (elt x [i; j; k]) (elt y [i; j; k]).
Proof.
  intros Hx Hy. unfold bzip, bshape. rewrite Hx, Hy. cbn [rev app]. cbn [bshape_rev]. rewrite !bdim_same. cbn [bind rev app]. eexists. split; [reflexivity|]. split; [reflexivity|].
  intros i j k Hi Hj Hk. cbn [elt]. unfold bidx. cbn [length Nat.sub skipn zip_with]. rewrite !bpick by assumption. reflexivity.
Qed.
(** [a; b'; c] against [h; c], with b' = 1 or b' = h *)
Lemma bzip_32 {X Y Z} (f : X -> Y -> Z) x y a b h c c' : shape x = [a; b; c] -> shape y = [h; c'] -> (b = h \/ b = 1%nat) -> (c' = c \/ c' = 1%nat) ->
  exists r, bzip f x y = Ok r /\ shape r = [a; h; c] /\ forall i j k, (i < a)%nat -> (j < h)%nat -> (k < c)%nat ->
    elt r [i; j; k] = f (elt x [i; if (b =? 1)%nat then 0%nat else j; k]) (elt y [j; if (c' =? 1)%nat then 0%nat else k]).
Proof.
  intros Hx Hy Hb Hc. unfold bzip, bshape. rewrite Hx, Hy. cbn [rev app]. cbn [bshape_rev].
  assert (B1 : bdim b h = Ok h). { destruct Hb as [-> | ->]; [apply bdim_same|apply bdim_1_l]. }
  assert (B2 : bdim c c' = Ok c). { destruct Hc as [-> | ->]; [apply bdim_same|apply bdim_1_r]. }
  rewrite B1, B2. cbn [bind rev app]. eexists. split; [reflexivity|]. split; [reflexivity|].
  intros i j k Hi Hj Hk. cbn [elt]. unfold bidx. cbn [length Nat.sub skipn zip_with]. rewrite (bpick a i), (bpick h j), (bpick c k) by assumption. reflexivity.
Qed.
(** ** the layer on transposed input; an input with a single channel is shared by all channels *)
Lemma s4_core gelu s mask u B c L : s_transposed s = true -> shape u = [B; c; L] -> (c = s_H s \/ c = 1%nat) -> (0 < L)%nat ->
  exists y, s4_forward gelu s mask u = Ok y /\ shape y = [B; s_H s; L] /\
    forall p h t, (p < B)%nat -> (h < s_H s)%nat -> (t < L)%nat ->
      elt y [p; h; t] = layer_out gelu s (mask p) (fun h' t' => elt u [p; if (c =? 1)%nat then 0%nat else h'; t']) h t.
Proof.
  intros HT HS Hc HL. unfold s4_forward. rewrite HT. cbn [bind]. rewrite HS. cbn [last]. unfold rfft_t at 1. destruct (Nat.eqb_spec (2 * L) 0); [lia|]. cbn [bind].
  unfold rfft_t at 1. destruct (Nat.eqb_spec (2 * L) 0); [lia|]. cbn [bind]. rewrite HS. cbn [last removelast app]. unfold s4_kernel at 1. cbn [shape removelast app last].
  match goal with |- context [bzip Cmult ?U ?K] => destruct (bzip_32 Cmult U K B c (s_H s) (rbins (2 * L)) (rbins (2 * L)) eq_refl eq_refl Hc (or_introl eq_refl)) as [yf [E1 [S1 G1]]] end.
  rewrite E1. cbn [bind].
  match goal with |- context [bzip Rmult u ?D] => destruct (bzip_32 Rmult u D B c (s_H s) L 1 HS eq_refl Hc (or_intror eq_refl)) as [ud [E2 [S2 G2]]] end.
  rewrite E2. cbn [bind].
  assert (S3 : shape (first_last L (irfft_t (2 * L) yf)) = [B; s_H s; L]). { unfold first_last, irfft_t. cbn [shape]. rewrite S1. cbn [removelast app last]. repeat f_equal. lia. }
  destruct (bzip_33 Rplus _ ud B (s_H s) L S3 S2) as [y [E4 [S4 G4]]]. rewrite E4. cbn [bind].
  set (d := dropout1d (s_p s) mask (S4_model.tmap gelu y)).
  assert (Sd : shape d = [B; s_H s; L]) by (unfold d, dropout1d; destruct (Rlt_dec 0 (s_p s)); exact S4).
  unfold conv_1x1. rewrite Sd, Nat.eqb_refl. cbn [bind]. eexists. split; [reflexivity|]. unfold glu. cbn [shape]. replace (2 * s_H s / 2)%nat with (s_H s) by (symmetry; rewrite Nat.mul_comm; apply Nat.div_mul; lia). split; [reflexivity|].
  intros p h t Hp Hh Ht. cbn [elt].
  set (uu := fun h' t' => elt u [p; if (c =? 1)%nat then 0%nat else h'; t']).
  assert (GD : forall h', (h' < s_H s)%nat -> elt d [p; h'; t] = hidden gelu s (mask p) uu h' t).
  { intros h' Hh'. unfold hidden. assert (GY : elt (S4_model.tmap gelu y) [p; h'; t] = gelu (ssm_out s h' (uu h') t + uu h' t * s_D s h')).
    { unfold S4_model.tmap. cbn [elt]. f_equal. rewrite G4 by assumption. rewrite G2 by assumption. cbn [elt nth Nat.eqb]. f_equal.
      unfold first_last, irfft_t. cbn [elt removelast last app].
      rewrite (irfft_ext (2 * L) _ (fun k => Cmult (rfft (2 * L) (fun a => if (a <? L)%nat then uu h' a else 0) k) (rfft (2 * L) (fun a => if (a <? L)%nat then kernel_doc s h' a else 0) k))).
      - rewrite irfft_mult by lia. rewrite cconv_causal by assumption. symmetry. apply ssm_conv.
      - intros k Hk. rewrite (G1 p h' k Hp Hh' Hk). cbn [elt removelast last app].
        replace (if (rbins (2 * L) =? 1)%nat then 0%nat else k) with k by (symmetry; apply bpick; exact Hk).
        f_equal. apply rfft_ext. intros a _.
        change (last (shape (s4_kernel s L)) 0%nat) with L. destruct (a <? L)%nat; [apply kernel_elt|reflexivity]. }
    unfold d, dropout1d. destruct (Rlt_dec 0 (s_p s)); cbn [elt nth]; rewrite GY; [reflexivity|ring]. }
  unfold layer_out, mixed. f_equal; [|f_equal]; f_equal; apply Rsum_ext; intros h' Hh'; rewrite GD by assumption; reflexivity.
Qed.

(** ** C60: the theorems *)
(** a (batch, d_model, length) input: output of the same shape; each entry is the recurrent state-space model stepped from rest,
    plus the skip term, then activation, dropout of whole channels and position-wise mixing *)
Theorem s4_forward_spec gelu s mask u B L : s_transposed s = true -> shape u = [B; s_H s; L] -> (0 < L)%nat ->
  exists y, s4_forward gelu s mask u = Ok y /\ shape y = [B; s_H s; L] /\
    forall p h t, (p < B)%nat -> (h < s_H s)%nat -> (t < L)%nat ->
      get y [p; h; t] = Some (layer_out gelu s (mask p) (fun h' t' => elt u [p; h'; t']) h t).
Proof.
  intros HT HS HL. destruct (s4_core gelu s mask u B (s_H s) L HT HS (or_introl eq_refl) HL) as [y [E [Sy G]]]. exists y. split; [exact E|]. split; [exact Sy|].
  intros p h t Hp Hh Ht. rewrite get_inb by (rewrite Sy; cbn; auto). f_equal. rewrite G by assumption. unfold layer_out, mixed.
  assert (K : forall o, Rsum (s_H s) (fun h' => s_W s o h' * hidden gelu s (mask p) (fun h'0 t' => elt u [p; if (s_H s =? 1)%nat then 0%nat else h'0; t']) h' t) =
      Rsum (s_H s) (fun h' => s_W s o h' * hidden gelu s (mask p) (fun h'0 t' => elt u [p; h'0; t']) h' t)).
  { intros o. apply Rsum_ext. intros h' Hh'. f_equal. unfold hidden. rewrite (bpick (s_H s) h') by exact Hh'. reflexivity. }
  rewrite !K. reflexivity.
Qed.
(** with transposed = False both input and output are (batch, length, d_model) *)
Theorem s4_forward_untransposed gelu s mask u B L : s_transposed s = false -> shape u = [B; L; s_H s] -> (0 < L)%nat ->
  exists y, s4_forward gelu s mask u = Ok y /\ shape y = [B; L; s_H s] /\
    forall p h t, (p < B)%nat -> (h < s_H s)%nat -> (t < L)%nat ->
      get y [p; t; h] = Some (layer_out gelu s (mask p) (fun h' t' => elt u [p; t'; h']) h t).
Proof.
  intros HT HS HL. destruct (tr3 u B L (s_H s) HS) as [v [Ev [Sv Gv]]].
  set (s' := mks4 (s_H s) (s_half s) true (s_p s) (s_log_dt s) (s_C s) (s_logA s) (s_Aim s) (s_D s) (s_W s) (s_b s)).
  destruct (s4_forward_spec gelu s' mask v B L eq_refl Sv HL) as [y [E [Sy G]]]. destruct (tr3 y B (s_H s) L Sy) as [z [Ez [Sz Gz]]].
  assert (EF : s4_forward gelu s mask u = Ok z).
  { unfold s4_forward in E |- *. rewrite HT, Ev. cbn [bind]. cbn [s_transposed s' bind s_H s_p s_D s_W s_b] in E. rewrite Sv in *. cbn [bind last] in *. change (s4_kernel s' L) with (s4_kernel s L) in E.
    destruct (rfft_t _ (s4_kernel s _)) as [k_f|]; [|discriminate]. cbn [bind] in *. destruct (rfft_t _ v) as [u_f|]; [|discriminate]. cbn [bind] in *.
    destruct (bzip Cmult u_f k_f) as [yf|]; [|discriminate]. cbn [bind] in *. destruct (bzip Rmult v _) as [ud|]; [|discriminate]. cbn [bind] in *.
    destruct (bzip Rplus _ ud) as [yy|]; [|discriminate]. cbn [bind] in *. destruct (conv_1x1 _ _ _ _) as [zz|]; [|discriminate]. cbn [bind] in *. injection E as E. rewrite E. exact Ez. }
  exists z. split; [exact EF|]. split; [exact Sz|]. intros p h t Hp Hh Ht. rewrite get_inb by (rewrite Sz; cbn; auto). rewrite Gz. specialize (G p h t Hp Hh Ht). rewrite get_inb in G by (rewrite Sy; cbn; auto). rewrite G.
  assert (Ev' : (fun h' t' => elt v [p; h'; t']) = (fun h' t' => elt u [p; t'; h'])) by (apply FunctionalExtensionality.functional_extensionality; intros h'; apply FunctionalExtensionality.functional_extensionality; intros t'; apply Gv).
  rewrite Ev'. reflexivity.
Qed.
(** the state update is the exact solution of x' = A x + u over one timestep of constant input (zero-order hold) *)
Definition zoh (A x0 : C) (u : R) (tau : R) : C := Cplus (Cmult (cexp (Cmult A (RtoC tau))) x0) (Cmult (Cdiv (Cminus (cexp (Cmult A (RtoC tau))) (RtoC 1)) A) (RtoC u)).
Theorem s4_zero_order_hold s h n x0 u : let A := pole s h n in
  zoh A x0 u 0 = x0 /\ zoh A x0 u (dt s h) = Cplus (Cmult (Abar s h n) x0) (Cmult (Bbar s h n) (RtoC u)) /\
  forall tau, is_derive (fun t => Re (zoh A x0 u t)) tau (Re (Cplus (Cmult A (zoh A x0 u tau)) (RtoC u))) /\ is_derive (fun t => Im (zoh A x0 u t)) tau (Im (Cplus (Cmult A (zoh A x0 u tau)) (RtoC u))).
Proof.
  intros A. pose proof (pole_nz s h n) as NZ. fold A in NZ. split; [|split].
  - unfold zoh. rewrite Cmult_0_r, cexp_0. unfold Cdiv, Cminus. ring.
  - reflexivity.
  - intros tau. assert (EQ : Cplus (Cmult A (zoh A x0 u tau)) (RtoC u) = Cmult (cexp (Cmult A (RtoC tau))) (Cplus (Cmult A x0) (RtoC u))). { unfold zoh. field. exact NZ. }
    rewrite EQ. assert (EZ : forall t, zoh A x0 u t = Cplus (Cmult (cexp (Cmult A (RtoC t))) (Cplus x0 (Cdiv (RtoC u) A))) (Copp (Cdiv (RtoC u) A))). { intros t. unfold zoh. field. exact NZ. }
    set (k := Cplus x0 (Cdiv (RtoC u) A)) in *. set (c := Copp (Cdiv (RtoC u) A)) in *. assert (EK : Cplus (Cmult A x0) (RtoC u) = Cmult A k) by (unfold k; field; exact NZ). rewrite EK.
    destruct A as [ar ai]. destruct k as [kr ki]. destruct c as [cr ci].
    assert (RE : forall t, cexp (Cmult (ar, ai) (RtoC t)) = (exp (ar * t) * cos (ai * t), exp (ar * t) * sin (ai * t))) by (intros t; unfold cexp, Cmult, RtoC, Re, Im; cbn [fst snd]; rewrite !Rmult_0_r, Rminus_0_r, Rplus_0_l; reflexivity).
    split.
    + assert (HD : forall t : R, exp (ar * t) * cos (ai * t) * kr - exp (ar * t) * sin (ai * t) * ki + cr = Re (zoh (ar, ai) x0 u t)) by (intros t; rewrite EZ, RE; unfold Re, Cmult, Cplus; cbn [fst snd]; ring).
      apply (is_derive_ext _ _ _ _ HD).
      rewrite RE. auto_derive; [exact I|]. unfold Re, Cmult. cbn [fst snd]. ring.
    + assert (HD : forall t : R, exp (ar * t) * cos (ai * t) * ki + exp (ar * t) * sin (ai * t) * kr + ci = Im (zoh (ar, ai) x0 u t)) by (intros t; rewrite EZ, RE; unfold Im, Cmult, Cplus; cbn [fst snd]; ring).
      apply (is_derive_ext _ _ _ _ HD).
      rewrite RE. auto_derive; [exact I|]. unfold Im, Cmult. cbn [fst snd]. ring.
Qed.
(** causality: the output up to time t depends on the input up to time t only; entries of one batch element depend on that element only *)
Lemma state_prefix a b u v t : (forall k, (k <= t)%nat -> u k = v k) -> state a b u t = state a b v t.
Proof. induction t as [|t IH]; intros H; cbn [state]; [rewrite (H 0%nat) by lia; reflexivity|]. rewrite IH by (intros; apply H; lia). rewrite (H (S t)) by lia. reflexivity. Qed.
Lemma layer_prefix gelu s m u v h t : (forall h' k, (h' < s_H s)%nat -> (k <= t)%nat -> u h' k = v h' k) -> layer_out gelu s m u h t = layer_out gelu s m v h t.
Proof.
  intros H. assert (M : forall o, mixed gelu s m u o t = mixed gelu s m v o t).
  { intros o. unfold mixed. f_equal. apply Rsum_ext. intros h' Hh'. f_equal. unfold hidden, ssm_out. rewrite (H h' t Hh') by lia. do 6 f_equal. apply FunctionalExtensionality.functional_extensionality. intros n. f_equal. apply state_prefix. intros k Hk. apply H; assumption. }
  unfold layer_out. rewrite !M. reflexivity.
Qed.
Theorem s4_causal gelu s mask u v B L M t p h y z : s_transposed s = true -> shape u = [B; s_H s; L] -> shape v = [B; s_H s; M] -> (t < L)%nat -> (t < M)%nat -> (p < B)%nat -> (h < s_H s)%nat ->
  (forall h' k, (h' < s_H s)%nat -> (k <= t)%nat -> get u [p; h'; k] = get v [p; h'; k]) ->
  s4_forward gelu s mask u = Ok y -> s4_forward gelu s mask v = Ok z -> get y [p; h; t] = get z [p; h; t].
Proof.
  intros HT HU HV L1 L2 Hp Hh H Ey Ez. destruct (s4_forward_spec gelu s mask u B L HT HU ltac:(lia)) as [y' [E1 [_ G1]]]. destruct (s4_forward_spec gelu s mask v B M HT HV ltac:(lia)) as [z' [E2 [_ G2]]].
  rewrite Ey in E1. injection E1 as <-. rewrite Ez in E2. injection E2 as <-. rewrite G1, G2 by assumption. f_equal. apply layer_prefix. intros h' k Hh' Hk. specialize (H h' k Hh' Hk).
  rewrite !get_inb in H by (rewrite ?HU, ?HV; cbn; repeat split; auto; lia). injection H as H. exact H.
Qed.
(** every mode is stable whatever the learned values: the pole is inside the unit circle and the kernel decays at least geometrically *)
Theorem s4_stable s h n : Cmod (Abar s h n) = exp (- (exp (s_logA s h n) * dt s h)) /\ Cmod (Abar s h n) < 1.
Proof.
  unfold Abar. rewrite cexp_mod. assert (E : Re (Cmult (pole s h n) (RtoC (dt s h))) = - (exp (s_logA s h n) * dt s h)) by (unfold pole, Re, Cmult, RtoC; cbn [fst snd]; ring).
  rewrite E. split; [reflexivity|]. rewrite <- exp_0. apply exp_increasing. assert (0 < exp (s_logA s h n) * dt s h) by (apply Rmult_lt_0_compat; apply exp_pos). lra.
Qed.
Lemma Cpow_mod z l : Cmod (Cpow z l) = Cmod z ^ l.
Proof. induction l as [|l IH]; cbn [Cpow pow]; [apply Cmod_1|]. rewrite Cmod_mult, IH. reflexivity. Qed.
Theorem s4_kernel_decay s h l : Rabs (kernel_doc s h l) <= 2 * Rsum (s_half s) (fun n => Cmod (s_C s h n) * Cmod (Bbar s h n) * Cmod (Abar s h n) ^ l).
Proof.
  unfold kernel_doc. rewrite Rabs_mult, (Rabs_right 2) by lra. apply Rmult_le_compat_l; [lra|]. eapply Rle_trans; [apply Rmax_l|]. eapply Rle_trans; [apply Rmax_Cmod|].
  induction (s_half s) as [|k IH]; cbn [Csum Rsum]; [rewrite Cmod_0; lra|]. eapply Rle_trans; [apply Cmod_triangle|]. rewrite !Cmod_mult, Cpow_mod. lra.
Qed.
(** ** construction *)
Theorem s4_create_spec d N p tr dmin dmax rand cn D W b :
  ((exists s, s4_create d N p tr dmin dmax rand cn D W b = Ok s) <-> (exists x, p = PyNum (Some x) /\ 0 <= x <= 1) /\ 0 < dmin /\ 0 < dmax) /\
  (forall e, s4_create d N p tr dmin dmax rand cn D W b = Err e -> e = ValueError).
Proof.
  unfold s4_create. split.
  - split.
    + intros [s E]. destruct p as [|[x|]|]; try discriminate. destruct (Rle_dec 0 x); [|discriminate]. destruct (Rle_dec x 1); [|discriminate]. destruct (Rlt_dec 0 dmax); [|discriminate]. destruct (Rlt_dec 0 dmin); [|discriminate]. split; [exists x; split; [reflexivity|split; assumption]|split; assumption].
    + intros [[q0 [Hp [H1 H2]]] [H3 H4]]. rewrite Hp. destruct (Rle_dec 0 q0); [|lra]. destruct (Rle_dec q0 1); [|lra]. destruct (Rlt_dec 0 dmax); [|lra]. destruct (Rlt_dec 0 dmin); [|lra]. eauto.
  - intros e. destruct p as [|[x|]|]; try congruence. destruct (Rle_dec 0 x); [|congruence]. destruct (Rle_dec x 1); [|congruence]. destruct (Rlt_dec 0 dmax); [|congruence]. destruct (Rlt_dec 0 dmin); congruence.
Qed.
(** a fresh layer: timesteps in [dt_min, dt_max), poles -1/2 + i pi n, N/2 modes (an odd N silently loses a state) *)
Theorem s4_init d N p tr dmin dmax rand cn D W b s h n : s4_create d N p tr dmin dmax rand cn D W b = Ok s -> 0 <= rand h < 1 -> dmin < dmax ->
  dmin <= dt s h < dmax /\ pole s h n = (- (1 / 2), PI * INR n) /\ s_half s = (N / 2)%nat /\ s_H s = d /\ s_transposed s = tr.
Proof.
  intros E Hr Hd. unfold s4_create in E. destruct p as [|[x|]|]; try discriminate. destruct (Rle_dec 0 x); [|discriminate]. destruct (Rle_dec x 1); [|discriminate]. destruct (Rlt_dec 0 dmax) as [P|]; [|discriminate]. destruct (Rlt_dec 0 dmin) as [Q|]; [|discriminate].
  injection E as <-. unfold dt, pole. cbn [s_log_dt s_logA s_Aim s_half s_H s_transposed]. assert (LL : ln dmin < ln dmax) by (apply ln_increasing; assumption).
  assert (X1 : ln dmin <= rand h * (ln dmax - ln dmin) + ln dmin < ln dmax) by nra.
  repeat split.
  - rewrite <- (exp_ln dmin) at 1 by exact Q. destruct (proj1 X1) as [lt|eq]; [left; apply exp_increasing; exact lt|right; f_equal; exact eq].
  - apply Rlt_le_trans with (exp (ln dmax)); [apply exp_increasing, X1|rewrite exp_ln by exact P; apply Rle_refl].
  - f_equal. rewrite Rmult_1_r, exp_ln by lra. lra.
Qed.
(** ** mismatched channel counts: a single input channel is silently shared by all channels, anything else raises *)
Theorem s4_single_channel gelu s mask u B L : s_transposed s = true -> shape u = [B; 1%nat; L] -> (0 < L)%nat ->
  exists y, s4_forward gelu s mask u = Ok y /\ shape y = [B; s_H s; L] /\
    forall p h t, (p < B)%nat -> (h < s_H s)%nat -> (t < L)%nat -> get y [p; h; t] = Some (layer_out gelu s (mask p) (fun _ t' => elt u [p; 0%nat; t']) h t).
Proof.
  intros HT HS HL. destruct (s4_core gelu s mask u B 1 L HT HS (or_intror eq_refl) HL) as [y [E [Sy G]]]. exists y. split; [exact E|]. split; [exact Sy|].
  intros p h t Hp Hh Ht. rewrite get_inb by (rewrite Sy; cbn; auto). rewrite G by assumption. reflexivity.
Qed.
Theorem s4_channel_error gelu s mask u B c L : s_transposed s = true -> shape u = [B; c; L] -> c <> s_H s -> c <> 1%nat -> s4_forward gelu s mask u = Err RuntimeError.
Proof.
  intros HT HS N1 N2. unfold s4_forward. rewrite HT. cbn [bind]. rewrite HS. cbn [last bind]. unfold rfft_t. destruct (Nat.eqb_spec (2 * L) 0); [reflexivity|]. cbn [bind]. rewrite HS. cbn [removelast app last shape s4_kernel].
  unfold bzip at 1, bshape. cbn [shape rev app bshape_rev]. rewrite bdim_same. cbn [bind]. unfold bdim at 1. destruct (Nat.eqb_spec c (s_H s)); [contradiction|]. destruct (Nat.eqb_spec c 1); [contradiction|]. destruct (Nat.eqb_spec (s_H s) 1) as [E1|]; [|reflexivity].
  cbn [bind rev app]. rewrite E1. unfold bzip at 1, bshape. rewrite HS. cbn [shape rev app bshape_rev]. rewrite bdim_1_r. rewrite bdim_1_r. cbn [bind rev app].
  unfold bzip, bshape. unfold first_last, irfft_t. cbn [shape removelast app last rev bshape_rev]. replace (Nat.min L (2 * L)) with L by lia. rewrite !bdim_same. cbn [bind rev app].
  assert (CE : forall t : tensor R, shape t = [B; c; L] -> conv_1x1 1 (s_W s) (s_b s) t = Err RuntimeError) by (intros t Et; unfold conv_1x1; rewrite Et; destruct (Nat.eqb_spec c 1); [contradiction|reflexivity]).
  rewrite CE; [reflexivity|]. unfold dropout1d. destruct (Rlt_dec 0 (s_p s)); reflexivity.
Qed.
Theorem s4_empty gelu s mask u B c : s_transposed s = true -> shape u = [B; c; 0%nat] -> s4_forward gelu s mask u = Err RuntimeError.
Proof. intros HT HS. unfold s4_forward. rewrite HT. cbn [bind]. rewrite HS. reflexivity. Qed.
