(** Property C115: what part of a batch each result depends on.  [local]: for a transform that treats elements of shape [inner]
    separately, the result for an element is determined by that element, whatever the other elements of the batch, the number and
    arrangement of the batch axes and the position in the batch.  [causal]: sample t of the result is determined by the samples up to t
    of the same element, whatever the length of the recording. *)
From Coq Require Import String FunctionalExtensionality.
From Coquelicot Require Import Coquelicot.
From Verif Require Import Base Tensor Rutil Slicing_model Trans_model Integ_props Iir_model Iir_props Decim_props Het_props Norm_model Norm_props Dft S4_model S4_props S4m_props
  Spectral_model Spectral_props Psd_props Fastpsd_props Whiten_props Gw_model Snr_props Fit_model Fit_props Scaler_props WhitenMod_props Units_props Augcomm_props Linsolve Spline_model Spline_props Spline2_props Spline3_props Sw_props Sw2_props Mspec_model Mspec_props Stft_model.
From Verif Require Gen_main Qscan_props.
Local Open Scope R_scope.

(** ** specification *)
Section Def.
Context {A B D : Type}.
(** [bat]: the batch shapes that are accepted *)
Definition local (bat : list nat -> Prop) (inner outer : list nat) (op : tensor A -> res (tensor B)) : Prop :=
  forall X Y bX bY, bat bX -> bat bY -> shape X = bX ++ inner -> shape Y = bY ++ inner ->
  exists X' Y', op X = Ok X' /\ op Y = Ok Y' /\ shape X' = bX ++ outer /\ shape Y' = bY ++ outer /\
    forall p q, inb p bX -> inb q bY -> (forall i, inb i inner -> elt X (p ++ i) = elt Y (q ++ i)) ->
      forall j, inb j outer -> elt X' (p ++ j) = elt Y' (q ++ j).
(** elements of shape [chan ++ [N]], for every N that [len] accepts *)
Definition causal (bat : list nat -> Prop) (chan : list nat) (len : nat -> Prop) (op : tensor A -> res (tensor B)) : Prop :=
  forall X Y bX bY N M, bat bX -> bat bY -> len N -> len M -> shape X = bX ++ chan ++ [N] -> shape Y = bY ++ chan ++ [M] ->
  exists X' Y', op X = Ok X' /\ op Y = Ok Y' /\ shape X' = shape X /\ shape Y' = shape Y /\
    forall p q t, inb p bX -> inb q bY -> (t < N)%nat -> (t < M)%nat ->
      (forall c s, inb c chan -> (s <= t)%nat -> elt X (p ++ c ++ [s]) = elt Y (q ++ c ++ [s])) ->
      forall c, inb c chan -> elt X' (p ++ c ++ [t]) = elt Y' (q ++ c ++ [t]).
End Def.
Definition any (_ : list nat) : Prop := True.
(** one transform after another *)
Definition andthen {A B D} (f : tensor A -> res (tensor B)) (g : tensor B -> res (tensor D)) (x : tensor A) : res (tensor D) := let* y := f x in g y.

(** ** consequences *)
Theorem local_pipeline {A B D} bat inner mid outer (f : tensor A -> res (tensor B)) (g : tensor B -> res (tensor D)) :
  local bat inner mid f -> local bat mid outer g -> local bat inner outer (andthen f g).
Proof.
  intros F G X Y bX bY HX HY SX SY. destruct (F X Y bX bY HX HY SX SY) as (X1 & Y1 & E1 & E2 & S1 & S2 & V).
  destruct (G X1 Y1 bX bY HX HY S1 S2) as (X2 & Y2 & E3 & E4 & S3 & S4 & W). exists X2, Y2. unfold andthen. rewrite E1, E2. cbn [bind].
  repeat (split; [assumption|]). intros p q Hp Hq H. apply W; try assumption. apply V; assumption.
Qed.
Theorem causal_pipeline {A B D} bat chan len (f : tensor A -> res (tensor B)) (g : tensor B -> res (tensor D)) :
  causal bat chan len f -> causal bat chan len g -> causal bat chan len (andthen f g).
Proof.
  intros F G X Y bX bY N M HX HY LN LM SX SY. destruct (F X Y bX bY N M HX HY LN LM SX SY) as (X1 & Y1 & E1 & E2 & S1 & S2 & V).
  rewrite SX in S1. rewrite SY in S2. destruct (G X1 Y1 bX bY N M HX HY LN LM S1 S2) as (X2 & Y2 & E3 & E4 & S3 & S4 & W). exists X2, Y2. unfold andthen. rewrite E1, E2. cbn [bind].
  rewrite SX, SY, S3, S4. repeat (split; [assumption|]). intros p q t Hp Hq H1 H2 H. apply W; try assumption. intros c s Hc Hs. apply (V p q s); try assumption; try lia.
  intros c' s' Hc' Hs'. apply H; [assumption|lia].
Qed.
(** Rearranging the batch (selecting, repeating, permuting elements, concatenating batches, changing the batch axes) before or after
    gives the same: if element q of Y is element [sel q] of X, for every q, then so it is with the results. *)
Theorem local_select {A B} bat inner outer (op : tensor A -> res (tensor B)) X Y bX bY sel : local bat inner outer op -> bat bX -> bat bY ->
  shape X = bX ++ inner -> shape Y = bY ++ inner -> (forall q, inb q bY -> inb (sel q) bX) ->
  (forall q i, inb q bY -> inb i inner -> elt Y (q ++ i) = elt X (sel q ++ i)) ->
  exists X' Y', op X = Ok X' /\ op Y = Ok Y' /\ shape X' = bX ++ outer /\ shape Y' = bY ++ outer /\
    forall q j, inb q bY -> inb j outer -> elt Y' (q ++ j) = elt X' (sel q ++ j).
Proof.
  intros L HX HY SX SY HS HE. destruct (L X Y bX bY HX HY SX SY) as (X' & Y' & E1 & E2 & S1 & S2 & V). exists X', Y'. repeat (split; [assumption|]).
  intros q j Hq Hj. symmetry. apply V; auto. intros i Hi. symmetry. auto.
Qed.
(** a causal transform of a longer recording is that of the shorter one, continued *)
Theorem causal_extends {A B} bat chan len (op : tensor A -> res (tensor B)) X Y b N M : causal bat chan len op -> bat b -> len N -> len M -> (N <= M)%nat ->
  shape X = b ++ chan ++ [N] -> shape Y = b ++ chan ++ [M] ->
  (forall p c s, inb p b -> inb c chan -> (s < N)%nat -> elt Y (p ++ c ++ [s]) = elt X (p ++ c ++ [s])) ->
  exists X' Y', op X = Ok X' /\ op Y = Ok Y' /\ shape X' = shape X /\ shape Y' = shape Y /\
    forall p c s, inb p b -> inb c chan -> (s < N)%nat -> elt Y' (p ++ c ++ [s]) = elt X' (p ++ c ++ [s]).
Proof.
  intros L Hb HN HM LE SX SY H. destruct (L X Y b b N M Hb Hb HN HM SX SY) as (X' & Y' & E1 & E2 & S1 & S2 & V). exists X', Y'. repeat (split; [assumption|]).
  intros p c s Hp Hc Hs. symmetry. apply V; try assumption; try lia. intros c' s' Hc' Hs'. symmetry. apply H; try assumption; lia.
Qed.
(** series by series is element by element *)
Theorem local_lift {A B} bat chan inner outer (op : tensor A -> res (tensor B)) : local bat inner outer op ->
  local (fun b => bat (b ++ chan)) (chan ++ inner) (chan ++ outer) op.
Proof.
  intros L X Y bX bY HX HY SX SY. rewrite app_assoc in SX, SY. destruct (L X Y _ _ HX HY SX SY) as (X' & Y' & E1 & E2 & S1 & S2 & V). exists X', Y'.
  rewrite !app_assoc. repeat (split; [assumption|]). intros p q Hp Hq H j Hj.
  assert (Hl := inb_length _ _ Hj). rewrite app_length in Hl. rewrite <- (firstn_skipn (List.length chan) j) in *. set (c := firstn (List.length chan) j) in *. set (j' := skipn (List.length chan) j) in *.
  destruct (inb_app_inv c chan j' outer) as [Hc Hj']; [|exact Hj|]. { subst c. rewrite firstn_length. rewrite app_length in Hl. subst j'. rewrite skipn_length in Hl. rewrite firstn_length in Hl. lia. }
  rewrite !app_assoc. apply V; try (apply inb_app; assumption); try assumption.
  intros i Hi. rewrite <- !app_assoc. apply H. apply inb_app; assumption.
Qed.

(** ** the transforms of single series *)
Ltac two H H' := destruct H as (?X' & ?E1 & ?S1 & ?V1); destruct H' as (?Y' & ?E2 & ?S2 & ?V2).
Lemma one_inb (l : list nat) N : inb l [N] -> exists t, l = [t] /\ (t < N)%nat.
Proof. intros H. assert (L := inb_length _ _ H). destruct l as [|t [|? ?]]; try discriminate L. exists t. cbn in H. tauto. Qed.
Lemma in1 t N : (t < N)%nat -> inb [t] [N].
Proof. cbn. auto. Qed.

Theorem tophat_local W N : (0 < N)%nat -> (0 < W)%nat -> local any [N] [N] (tophat W).
Proof.
  intros HN HW X Y bX bY _ _ SX SY. destruct (tophat_spec W X bX N SX HN HW) as (X' & E1 & S1 & V1). destruct (tophat_spec W Y bY N SY HN HW) as (Y' & E2 & S2 & V2).
  rewrite SX in S1. rewrite SY in S2. exists X', Y'. repeat (split; [assumption|]). intros p q Hp Hq H j Hj. destruct (one_inb _ _ Hj) as (t & -> & Ht).
  specialize (V1 p t Hp Ht). specialize (V2 q t Hq Ht). rewrite get_inb in V1 by (rewrite S1; apply inb_app, Hj; exact Hp). rewrite get_inb in V2 by (rewrite S2; apply inb_app, Hj; exact Hq).
  injection V1 as ->. injection V2 as ->. f_equal. apply Rsum_ext. intros k _. destruct (Nat.leb_spec k t); [|reflexivity]. apply H, in1. lia.
Qed.
Theorem tophat_is_causal W : (0 < W)%nat -> causal any [] (fun n => (0 < n)%nat) (tophat W).
Proof.
  intros HW X Y bX bY N M _ _ HN HM SX SY. destruct (tophat_spec W X bX N SX HN HW) as (X' & E1 & S1 & V1). destruct (tophat_spec W Y bY M SY HM HW) as (Y' & E2 & S2 & V2).
  exists X', Y'. repeat (split; [assumption|]). intros p q t Hp Hq H1 H2 H c Hc. destruct c; [|destruct Hc]. cbn [app] in *.
  specialize (V1 p t Hp H1). specialize (V2 q t Hq H2). rewrite get_inb in V1 by (rewrite S1, SX; apply inb_app, in1; assumption). rewrite get_inb in V2 by (rewrite S2, SY; apply inb_app, in1; assumption).
  injection V1 as ->. injection V2 as ->. f_equal. apply Rsum_ext. intros k _. destruct (Nat.leb_spec k t); [|reflexivity]. apply (H [] (t - k)%nat I). lia.
Qed.

Lemma leak_ext m y0 x y t : (forall s, (s <= t)%nat -> x s = y s) -> leak m y0 x t = leak m y0 y t.
Proof. revert x y. induction t as [|t IH]; intros x y H; cbn [leak]; rewrite (H _ (Nat.le_refl _)); [reflexivity|]. rewrite (IH x y) by (intros s Hs; apply H; lia). reflexivity. Qed.
Theorem leaky_local m N : (0 < N)%nat -> local any [N] [N] (leaky_forward m).
Proof.
  intros HN X Y bX bY _ _ SX SY. destruct (leaky_spec m X bX N SX HN) as (X' & E1 & S1 & V1). destruct (leaky_spec m Y bY N SY HN) as (Y' & E2 & S2 & V2).
  rewrite SX in S1. rewrite SY in S2. exists X', Y'. repeat (split; [assumption|]). intros p q Hp Hq H j Hj. destruct (one_inb _ _ Hj) as (t & -> & Ht).
  specialize (V1 p t Hp Ht). specialize (V2 q t Hq Ht). rewrite get_inb in V1 by (rewrite S1; apply inb_app, Hj; exact Hp). rewrite get_inb in V2 by (rewrite S2; apply inb_app, Hj; exact Hq).
  injection V1 as ->. injection V2 as ->. apply leak_ext. intros s Hs. apply H, in1. lia.
Qed.
Theorem leaky_is_causal m : causal any [] (fun n => (0 < n)%nat) (leaky_forward m).
Proof.
  intros X Y bX bY N M _ _ HN HM SX SY. destruct (leaky_spec m X bX N SX HN) as (X' & E1 & S1 & V1). destruct (leaky_spec m Y bY M SY HM) as (Y' & E2 & S2 & V2).
  exists X', Y'. repeat (split; [assumption|]). intros p q t Hp Hq H1 H2 H c Hc. destruct c; [|destruct Hc]. cbn [app] in *.
  specialize (V1 p t Hp H1). specialize (V2 q t Hq H2). rewrite get_inb in V1 by (rewrite S1, SX; apply inb_app, in1; assumption). rewrite get_inb in V2 by (rewrite S2, SY; apply inb_app, in1; assumption).
  injection V1 as ->. injection V2 as ->. apply leak_ext. intros s Hs. apply (H [] s I Hs).
Qed.

Theorem iir_local a b N : List.length a = List.length b -> local any [N] [N] (iir_forward a b).
Proof.
  intros HL X Y bX bY _ _ SX SY. destruct (proj1 (iir_forward_spec a b X) HL) as (X' & E1 & S1 & V1). destruct (proj1 (iir_forward_spec a b Y) HL) as (Y' & E2 & S2 & V2).
  rewrite SX, last_last in *. rewrite SY, last_last in *. exists X', Y'. repeat (split; [assumption|]). intros p q Hp Hq H j Hj. destruct (one_inb _ _ Hj) as (t & -> & Ht).
  rewrite V1, V2 by (apply inb_app; assumption). apply Gen_main.filtfilt_ext; [|exact Ht]. intros s Hs. apply H, in1, Hs.
Qed.
(** the filter runs forward and backward: it is not causal *)
Theorem iir_causal_refuted : ~ causal any [] (fun n => (0 < n)%nat) (iir_forward [1; - (1 / 2)] [1; 0]).
Proof.
  intros L. set (X := mk [2%nat] (fun i => match i with [0%nat] => 1 | _ => 0 end)). set (Y := mk [2%nat] (fun _ => 1)).
  destruct (L X Y [] [] 2%nat 2%nat I I (Nat.lt_0_succ 1) (Nat.lt_0_succ 1) eq_refl eq_refl) as (X' & Y' & E1 & E2 & S1 & S2 & V).
  specialize (V [] [] 0%nat I I (Nat.lt_0_succ 1) (Nat.lt_0_succ 1)). cbn [app] in V.
  assert (K : elt X' [0%nat] = elt Y' [0%nat]). { refine (V _ [] I). intros c s Hc Hs. destruct c; [|destruct Hc]. replace s with 0%nat by lia. reflexivity. }
  unfold iir_forward in E1, E2. cbn [List.length Nat.eqb] in E1, E2. injection E1 as <-. injection E2 as <-. cbn [elt shape X Y last removelast app] in K.
  unfold filtfilt, flip, lfilter in K. cbn -[Rdiv Rmult Rplus Rminus Ropp IZR Nat.leb] in K. change (0 <=? 0)%nat with true in K. change (0 <=? 1)%nat with true in K. change (1 <=? 0)%nat with false in K. change (1 <=? 1)%nat with true in K. cbn -[Rdiv Rmult Rplus Rminus Ropp IZR] in K. lra.
Qed.

(** Decimator (split = False): every schedule of C41's exact statement, on series of any type *)
Definition dec_cat {A} (m : decimator) (x : tensor A) : res (tensor A) := let* r := dec_forward m x in match r with inl y => Ok y | inr _ => Err TypeError end.
Theorem decimator_local {A} sr r l g gs T m : Forall2 (row_for sr) (r :: l) (g :: gs) -> two_samples (g :: gs) -> contiguous (g :: gs) -> s_first g = 0%nat -> T = s_stop (last (g :: gs) g) ->
  dec_create (Z.of_nat sr) (r :: l) false = Ok m -> @local A A any [T] [List.length (concat (map seg_picks (g :: gs)))] (dec_cat m).
Proof.
  intros F T2 C F0 HT E X Y bX bY _ _ SX SY.
  destruct (decimator_concat sr r l g gs X bX T F T2 C F0 HT SX) as (m1 & X' & Em & E1 & V1). rewrite E in Em. injection Em as <-.
  destruct (decimator_concat sr r l g gs Y bY T F T2 C F0 HT SY) as (m1 & Y' & Em & E2 & V2). rewrite E in Em. injection Em as <-. cbv zeta in V1, V2. destruct V1 as [S1 V1], V2 as [S2 V2].
  exists X', Y'. unfold dec_cat. rewrite E1, E2. cbn [bind]. repeat (split; [reflexivity || assumption|]). intros p q Hp Hq H j Hj. destruct (one_inb _ _ Hj) as (k & -> & Hk).
  specialize (V1 p k Hp Hk). specialize (V2 q k Hq Hk). rewrite (get_inb X') in V1 by (rewrite S1; apply inb_app, Hj; exact Hp). rewrite (get_inb Y') in V2 by (rewrite S2; apply inb_app, Hj; exact Hq).
  set (idx := nth k _ 0%nat) in *. unfold get in V1, V2.
  destruct (inbb (p ++ [idx]) (shape X)) eqn:I1; [|discriminate]. destruct (inbb (q ++ [idx]) (shape Y)) eqn:I2; [|discriminate]. injection V1 as ->. injection V2 as ->.
  apply H. apply inbb_inb in I1. rewrite SX in I1. apply inb_app_inv in I1; [tauto|apply inb_length, Hp].
Qed.

(** ** channels together *)
Definition one_axis (b : list nat) : Prop := exists B, b = [B].
Definition one_axis_pos (b : list nat) : Prop := exists B, b = [B] /\ (0 < B)%nat.
Definition two_axes (b : list nat) : Prop := exists B c, b = [B; c].
Lemma two_inb (l : list nat) C N : inb l [C; N] -> exists c t, l = [c; t] /\ (c < C)%nat /\ (t < N)%nat.
Proof. intros H. assert (L := inb_length _ _ H). destruct l as [|c [|t [|? ?]]]; try discriminate L. exists c, t. cbn in H. tauto. Qed.

(** GroupNorm1D with any learned weight and bias *)
Theorem gnorm_local C groups eps m0 m w bias T : gnorm_create C groups eps = Ok m0 -> m = gnorm_params m0 w bias -> (0 < C)%nat -> 0 < eps ->
  shape w = [C; 1%nat] -> shape bias = [C; 1%nat] -> (0 < T)%nat -> local one_axis [C; T] [C; T] (gnorm_forward m).
Proof.
  intros Hc Hm HC He Hw Hb HT X Y bX bY [B ->] [B' ->] SX SY. cbn [app] in *.
  assert (HP : (0 < gn_cpg m)%nat /\ (C = gn_groups m * gn_cpg m)%nat).
  { revert Hc. rewrite Hm. unfold gnorm_create. set (g := match groups with Some (S g) => S g | _ => C end).
    destruct (Nat.eqb_spec g 0); [discriminate|]. destruct (Nat.eqb_spec (C mod g) 0) as [E|E]; cbn [negb]; [|discriminate].
    intros H. injection H as <-. cbn. pose proof (Nat.div_mod C g ltac:(lia)) as D. rewrite E in D. split; [destruct (C / g)%nat; lia|lia]. }
  assert (VP : forall x i c, group_var x (gn_cpg m) T i (c / gn_cpg m) + eps > 0).
  { intros x i c. assert (0 <= group_var x (gn_cpg m) T i (c / gn_cpg m)); [|lra]. unfold group_var. apply Rmult_le_pos.
    - apply Rsum_nonneg. intros. apply Rsum_nonneg. intros. apply pow2_ge_0.
    - left. apply Rinv_0_lt_compat, Rmult_lt_0_compat; apply lt_0_INR; lia. }
  destruct (groupnorm1d_textbook C groups eps m0 m w bias X B T Hc Hm HC Hw Hb SX HT ltac:(auto)) as (X' & E1 & S1 & V1).
  destruct (groupnorm1d_textbook C groups eps m0 m w bias Y B' T Hc Hm HC Hw Hb SY HT ltac:(auto)) as (Y' & E2 & S2 & V2).
  exists X', Y'. repeat (split; [assumption|]). intros p q Hp Hq H j Hj. destruct (one_inb _ _ Hp) as (b & -> & Hb1). destruct (one_inb _ _ Hq) as (b' & -> & Hb2).
  destruct (two_inb _ _ _ Hj) as (c & t & -> & Hcc & Ht). cbn [app] in *. rewrite V1, V2 by assumption.
  assert (CH : forall c0, (c0 < gn_cpg m)%nat -> (c / gn_cpg m * gn_cpg m + c0 < C)%nat).
  { intros c0 H0. destruct HP as [HP HP2]. rewrite HP2. assert (c / gn_cpg m < gn_groups m)%nat by (apply Nat.div_lt_upper_bound; lia). nia. }
  assert (EM : group_mean X (gn_cpg m) T b (c / gn_cpg m) = group_mean Y (gn_cpg m) T b' (c / gn_cpg m)).
  { unfold group_mean. f_equal. apply Rsum_ext. intros k Hk. apply Rsum_ext. intros u Hu. apply (H [_; u]). cbn. auto. }
  assert (EV : group_var X (gn_cpg m) T b (c / gn_cpg m) = group_var Y (gn_cpg m) T b' (c / gn_cpg m)).
  { unfold group_var. rewrite EM. f_equal. apply Rsum_ext. intros k Hk. apply Rsum_ext. intros u Hu. do 2 f_equal. apply (H [_; u]). cbn. auto. }
  rewrite EM, EV. rewrite (H [c; t]) by (cbn; auto). reflexivity.
Qed.

(** Heterodyne: both returned series *)
Definition het_time (m : heterodyne) (x : tensor R) : res (tensor R) := let* (y, _) := het_both m x in Ok y.
Definition het_freq (m : heterodyne) (x : tensor R) : res (tensor Complex.C) := let* (_, Y) := het_both m x in Ok Y.
Lemma rfft_in n x y k : (forall t, (t < n)%nat -> x t = y t) -> rfft n x k = rfft n y k.
Proof. intros H. apply rfft_ext, H. Qed.
Theorem heterodyne_local m M T : (2 <= T)%nat -> shape (ht_phase m) = [M; rbins T] ->
  local two_axes [T] [M; rbins T] (het_freq m) /\ local two_axes [T] [M; 2 * (rbins T - 1)]%nat (het_time m).
Proof.
  intros HT SP. assert (K : forall X Y bX bY, two_axes bX -> two_axes bY -> shape X = bX ++ [T] -> shape Y = bY ++ [T] -> exists y Y1 y' Y1', het_both m X = Ok (y, Y1) /\ het_both m Y = Ok (y', Y1') /\
     shape Y1 = bX ++ [M; rbins T] /\ shape Y1' = bY ++ [M; rbins T] /\ shape y = bX ++ [M; 2 * (rbins T - 1)]%nat /\ shape y' = bY ++ [M; 2 * (rbins T - 1)]%nat /\
     forall p q, inb p bX -> inb q bY -> (forall i, inb i [T] -> elt X (p ++ i) = elt Y (q ++ i)) ->
       (forall j, inb j [M; rbins T] -> elt Y1 (p ++ j) = elt Y1' (q ++ j)) /\ forall j, inb j [M; 2 * (rbins T - 1)]%nat -> elt y (p ++ j) = elt y' (q ++ j)).
  { intros X Y bX bY (B & c & ->) (B' & c' & ->) SX SY. cbn [app] in SX, SY.
    destruct (het_both_spec m X B c M T SX HT SP) as (y & Y1 & E1 & S1 & s1 & V1 & v1). destruct (het_both_spec m Y B' c' M T SY HT SP) as (y' & Y1' & E2 & S2 & s2 & V2 & v2).
    exists y, Y1, y', Y1'. repeat (split; [assumption|]). intros p q Hp Hq H. destruct (two_inb _ _ _ Hp) as (b & d & -> & Hb & Hd). destruct (two_inb _ _ _ Hq) as (b' & d' & -> & Hb' & Hd').
    assert (F : forall j, inb j [M; rbins T] -> elt Y1 ([b; d] ++ j) = elt Y1' ([b'; d'] ++ j)).
    { intros j Hj. destruct (two_inb _ _ _ Hj) as (k & f & -> & Hk & Hf). cbn [app] in *. rewrite V1, V2 by assumption. destruct (f =? 0)%nat; [reflexivity|]. do 2 f_equal.
      apply rfft_in. intros t Ht. apply (H [t]), in1, Ht. }
    split; [exact F|]. intros j Hj. destruct (two_inb _ _ _ Hj) as (k & t & -> & Hk & Ht). cbn [app] in *. rewrite v1, v2. f_equal. apply irfft_ext. intros f Hf. apply (F [k; f]).
    cbn. split; [exact Hk|]. split; [|exact I]. unfold rbins in *. assert (1 <= T / 2)%nat by (apply Nat.div_le_lower_bound; lia). replace (2 * (T / 2 + 1 - 1))%nat with (T / 2 * 2)%nat in Hf by lia. rewrite ?Nat.div_mul in Hf by lia. lia. }
  split; intros X Y bX bY HX HY SX SY; destruct (K X Y bX bY HX HY SX SY) as (y & Y1 & y' & Y1' & E1 & E2 & S1 & S2 & s1 & s2 & V).
  - exists Y1, Y1'. unfold het_freq. rewrite E1, E2. repeat (split; [reflexivity || assumption|]). intros p q Hp Hq H. apply V; assumption.
  - exists y, y'. unfold het_time. rewrite E1, E2. repeat (split; [reflexivity || assumption|]). intros p q Hp Hq H. apply V; assumption.
Qed.

(** S4D (no dropout: eval mode, or dropout = 0) *)
Definition no_dropout (mask : nat -> nat -> R) : Prop := forall p h, mask p h = 1.
Lemma no_dropout_eq mask p q : no_dropout mask -> mask p = mask q.
Proof. intros H. apply functional_extensionality. intros h. rewrite !H. reflexivity. Qed.
Lemma three_inb (l : list nat) B C N : inb l [B; C; N] -> exists b c t, l = [b; c; t] /\ (b < B)%nat /\ (c < C)%nat /\ (t < N)%nat.
Proof. intros H. assert (L := inb_length _ _ H). destruct l as [|b [|c [|t [|? ?]]]]; try discriminate L. exists b, c, t. cbn in H. tauto. Qed.
Theorem s4_local gelu s mask L : s_transposed s = true -> no_dropout mask -> (0 < L)%nat -> local one_axis [s_H s; L] [s_H s; L] (s4_forward gelu s mask).
Proof.
  intros HT HM HL X Y bX bY [B ->] [B' ->] SX SY. destruct (s4_forward_spec gelu s mask X B L HT SX HL) as (X' & E1 & S1 & V1). destruct (s4_forward_spec gelu s mask Y B' L HT SY HL) as (Y' & E2 & S2 & V2).
  exists X', Y'. repeat (split; [assumption|]). intros p q Hp Hq H j Hj. destruct (one_inb _ _ Hp) as (b & -> & Hb). destruct (one_inb _ _ Hq) as (b' & -> & Hb'). destruct (two_inb _ _ _ Hj) as (h & t & -> & Hh & Ht). cbn [app] in *.
  specialize (V1 b h t Hb Hh Ht). specialize (V2 b' h t Hb' Hh Ht). rewrite get_inb in V1 by (rewrite S1; cbn; auto). rewrite get_inb in V2 by (rewrite S2; cbn; auto). injection V1 as ->. injection V2 as ->.
  rewrite (no_dropout_eq mask b b' HM). apply (layer_ext _ _ _ _ _ _ _ L Ht). intros h' k Hh' Hk. apply (H [h'; k]). cbn. auto.
Qed.
Theorem s4_local_untransposed gelu s mask L : s_transposed s = false -> no_dropout mask -> (0 < L)%nat -> local one_axis [L; s_H s] [L; s_H s] (s4_forward gelu s mask).
Proof.
  intros HT HM HL X Y bX bY [B ->] [B' ->] SX SY. destruct (s4_forward_untransposed gelu s mask X B L HT SX HL) as (X' & E1 & S1 & V1). destruct (s4_forward_untransposed gelu s mask Y B' L HT SY HL) as (Y' & E2 & S2 & V2).
  exists X', Y'. repeat (split; [assumption|]). intros p q Hp Hq H j Hj. destruct (one_inb _ _ Hp) as (b & -> & Hb). destruct (one_inb _ _ Hq) as (b' & -> & Hb'). destruct (two_inb _ _ _ Hj) as (t & h & -> & Ht & Hh). cbn [app] in *.
  specialize (V1 b h t Hb Hh Ht). specialize (V2 b' h t Hb' Hh Ht). rewrite get_inb in V1 by (rewrite S1; cbn; auto). rewrite get_inb in V2 by (rewrite S2; cbn; auto). injection V1 as ->. injection V2 as ->.
  rewrite (no_dropout_eq mask b b' HM). apply (layer_ext _ _ _ _ _ _ _ L Ht). intros h' k Hh' Hk. apply (H [k; h']). cbn. auto.
Qed.
Theorem s4_is_causal gelu s mask : s_transposed s = true -> no_dropout mask -> causal one_axis [s_H s] (fun L => (0 < L)%nat) (s4_forward gelu s mask).
Proof.
  intros HT HM X Y bX bY N M [B ->] [B' ->] HN HM' SX SY. cbn [app] in SX, SY. destruct (s4_forward_spec gelu s mask X B N HT SX HN) as (X' & E1 & S1 & V1). destruct (s4_forward_spec gelu s mask Y B' M HT SY HM') as (Y' & E2 & S2 & V2).
  exists X', Y'. rewrite SX, SY. repeat (split; [assumption|]). intros p q t Hp Hq H1 H2 H c Hc. destruct (one_inb _ _ Hp) as (b & -> & Hb). destruct (one_inb _ _ Hq) as (b' & -> & Hb'). destruct (one_inb _ _ Hc) as (h & -> & Hh). cbn [app] in *.
  specialize (V1 b h t Hb Hh H1). specialize (V2 b' h t Hb' Hh H2). rewrite get_inb in V1 by (rewrite S1; cbn; auto). rewrite get_inb in V2 by (rewrite S2; cbn; auto). injection V1 as ->. injection V2 as ->.
  rewrite (no_dropout_eq mask b b' HM). apply layer_prefix. intros h' k Hh' Hk. apply (H [h'] k); [apply in1, Hh'|exact Hk].
Qed.

(** S4Model *)
Lemma blocks_ext gelu m mask mask' ls L : forall k x y, (forall s, List.In s ls -> s_H s = m_d m /\ s_transposed s = true) ->
  (forall h t, (h < m_d m)%nat -> (t < L)%nat -> x h t = y h t) -> forall h t, (h < m_d m)%nat -> (t < L)%nat -> blocks gelu m mask mask' k ls x h t = blocks gelu m mask mask' k ls y h t.
Proof.
  induction ls as [|s ls IH]; intros k x y WF H; cbn [blocks]; [exact H|]. apply IH; [intros s' Hs'; apply WF; right; exact Hs'|].
  intros h t Hh Ht. unfold block. apply lnorm_ext; [|exact Hh]. intros h' Hh'. rewrite (H h' t Hh' Ht). do 2 f_equal. apply (layer_ext _ _ _ _ _ _ _ L Ht).
  intros h'' k' Hh'' Hk'. apply H; [|exact Hk']. rewrite <- (proj1 (WF s (or_introl eq_refl))). exact Hh''.
Qed.
Theorem s4model_local gelu m mask mask' L : well_formed m -> (forall k, no_dropout (mask k)) -> (forall k, no_dropout (mask' k)) -> (0 < L)%nat ->
  local one_axis [m_in m; L] [m_out m] (s4model_forward gelu m mask mask').
Proof.
  intros WF HM HM' HL X Y bX bY [B ->] [B' ->] SX SY. destruct (s4model_spec gelu m mask mask' X B L WF SX HL) as (X' & E1 & S1 & V1). destruct (s4model_spec gelu m mask mask' Y B' L WF SY HL) as (Y' & E2 & S2 & V2).
  exists X', Y'. repeat (split; [assumption|]). intros p q Hp Hq H j Hj. destruct (one_inb _ _ Hp) as (b & -> & Hb). destruct (one_inb _ _ Hq) as (b' & -> & Hb'). destruct (one_inb _ _ Hj) as (o & -> & Ho). cbn [app] in *.
  specialize (V1 b o Hb Ho). specialize (V2 b' o Hb' Ho). rewrite get_inb in V1 by (rewrite S1; cbn; auto). rewrite get_inb in V2 by (rewrite S2; cbn; auto). injection V1 as ->. injection V2 as ->.
  replace (fun k => mask k b) with (fun k => mask k b') by (apply functional_extensionality; intros k; apply no_dropout_eq, HM).
  replace (fun k => mask' k b) with (fun k => mask' k b') by (apply functional_extensionality; intros k; apply no_dropout_eq, HM').
  unfold decode. f_equal. apply Rsum_ext. intros h Hh. f_equal. unfold rmean. f_equal. apply Rsum_ext. intros t Ht. apply (blocks_ext _ _ _ _ _ L); [exact WF| |exact Hh|exact Ht].
  intros h' t' Hh' Ht'. unfold encode. f_equal. apply Rsum_ext. intros c Hc. f_equal. apply (H [c; t']). cbn. auto.
Qed.

(** ChannelWiseScaler, fitted: forward and reverse *)
Theorem scaler_local (st : fit R) C m s T rev : holds st C m s -> local any [C; T] [C; T] (fun X => scaler_forward st X rev).
Proof.
  intros HS X Y bX bY _ _ SX SY. destruct (scaler_forward_values st C m s X bX T HS SX) as [A1 A2]. destruct (scaler_forward_values st C m s Y bY T HS SY) as [B1 B2]. rewrite SX in A1, A2. rewrite SY in B1, B2. destruct rev.
  - destruct A2 as (X' & E1 & S1 & V1), B2 as (Y' & E2 & S2 & V2). exists X', Y'. repeat (split; [assumption|]). intros p q Hp Hq H j Hj. destruct (two_inb _ _ _ Hj) as (c & t & -> & Hc & Ht). rewrite V1, V2, H by assumption. reflexivity.
  - destruct A1 as (X' & E1 & S1 & V1), B1 as (Y' & E2 & S2 & V2). exists X', Y'. repeat (split; [assumption|]). intros p q Hp Hq H j Hj. destruct (two_inb _ _ _ Hj) as (c & t & -> & Hc & Ht). rewrite V1, V2, H by assumption. reflexivity.
Qed.

(** spectral_density and fast_spectral_density *)
Definition up_to_two (b : list nat) : Prop := (List.length b <= 2)%nat /\ List.Forall (fun n => (0 < n)%nat) b.
Theorem spectral_density_local n stride window scale average T : (0 < n <= T)%nat -> (0 < stride)%nat -> shape window = [n] ->
  local up_to_two [T] [rbins n] (fun x => spectral_density x n stride window scale average).
Proof.
  intros HT Hs Sw X Y bX bY [HX PX] [HY PY] SX SY. destruct (spectral_density_spec X bX T n stride window scale average SX HX PX HT Hs Sw) as (X' & E1 & S1 & V1).
  destruct (spectral_density_spec Y bY T n stride window scale average SY HY PY HT Hs Sw) as (Y' & E2 & S2 & V2).
  exists X', Y'. repeat (split; [assumption|]). intros p q Hp Hq H j Hj. destruct (one_inb _ _ Hj) as (f & -> & Hf).
  specialize (V1 p f Hp Hf). specialize (V2 q f Hq Hf). rewrite get_inb in V1 by (rewrite S1; apply inb_app, Hj; exact Hp). rewrite get_inb in V2 by (rewrite S2; apply inb_app, Hj; exact Hq). injection V1 as ->. injection V2 as ->.
  apply welch_ext; try assumption. intros t Ht. apply H, in1, Ht.
Qed.
Theorem fast_spectral_density_local n stride window scale average T : (0 < n <= T)%nat -> (0 < stride)%nat -> shape window = [n] ->
  local up_to_two [T] [rbins n] (fun x => fast_spectral_density x n stride window scale average None).
Proof.
  intros HT Hs Sw X Y bX bY [HX PX] [HY PY] SX SY. destruct (fast_spectral_density_spec X None bX T n stride window scale average SX HX PX HT Hs Sw I) as (X' & E1 & S1 & V1).
  destruct (fast_spectral_density_spec Y None bY T n stride window scale average SY HY PY HT Hs Sw I) as (Y' & E2 & S2 & V2).
  exists X', Y'. repeat (split; [assumption|]). intros p q Hp Hq H j Hj. destruct (one_inb _ _ Hj) as (f & -> & Hf).
  specialize (V1 p f Hp Hf). specialize (V2 q f Hq Hf). rewrite get_inb in V1 by (rewrite S1; apply inb_app, Hj; exact Hp). rewrite get_inb in V2 by (rewrite S2; apply inb_app, Hj; exact Hq). injection V1 as ->. injection V2 as ->.
  apply fast_csd_ext; try assumption; intros t Ht; apply H, in1, Ht.
Qed.

(** whiten with a PSD without batch axis, whatever the conditioning; Whiten; FixedWhiten once fitted *)
Lemma filters_local op sr ch N off M (Hs : nat -> (nat -> R) -> Prop) : (forall B, (0 < B)%nat -> filters op sr B ch N off M (fun _ c => Hs c)) -> local one_axis_pos [ch; N] [ch; M] op.
Proof.
  intros F X Y bX bY (B & -> & HB) (B' & -> & HB') SX SY. destruct (F B HB) as [Hex F1]. destruct (F B' HB') as [_ F2]. destruct (F1 X SX) as (X' & E1 & S1 & V1). destruct (F2 Y SY) as (Y' & E2 & S2 & V2).
  exists X', Y'. repeat (split; [assumption|]). intros p q Hp Hq H j Hj. destruct (one_inb _ _ Hp) as (b & -> & Hb). destruct (one_inb _ _ Hq) as (b' & -> & Hb'). destruct (two_inb _ _ _ Hj) as (c & t & -> & Hc & Ht). cbn [app] in *.
  destruct (Hex b c Hb Hc) as [h Hh]. rewrite (V1 b c h t Hb Hc Ht Hh), (V2 b' c h t Hb' Hc Ht Hh). apply filtered_ext. intros u Hu. apply (H [c; u]). cbn. auto.
Qed.
Theorem whiten_local fmax psd ch N fd sr pad wl W hp lp (crop : bool) : (ndim psd <= 2)%nat -> (forall B, (0 < B)%nat -> psd_ok psd B ch) -> 0 < sr -> fd_ok fd sr pad wl W -> (1 <= pad)%nat -> (2 * pad < N)%nat ->
  freq_ok hp -> freq_ok lp -> local one_axis_pos [ch; N] [ch; if crop then N - 2 * pad else N]%nat (fun X => whiten fmax X psd fd sr hp lp crop).
Proof.
  intros Hd HP Hsr Hfd Hpad HN Hh Hl. apply (filters_local _ sr ch N (if crop then pad else 0) _ (fun c => gain N pad wl W sr hp lp (eff_psd psd (rbins N) 0 c))). intros B HB.
  destruct (whiten_filters fmax psd B ch N fd sr pad wl W hp lp crop (HP B HB) Hsr Hfd Hpad HN Hh Hl) as [F1 F2]. split.
  - intros b c Hb Hc. destruct (F1 b c Hb Hc) as [h Hh']. exists h. revert Hh'. apply gain_ext. intros k. apply eff_psd_batch, Hd.
  - intros X SX. destruct (F2 X SX) as (r & E & S1 & V). exists r. split; [exact E|]. split; [exact S1|]. intros b c h t Hb Hc Ht Hg. apply V; try assumption. revert Hg. apply gain_ext. intros k. apply eff_psd_batch, Hd.
Qed.
Theorem whiten_module_local fmax fdur sr hp lp psd (crop : bool) ch N size : (ndim psd <= 2)%nat -> (forall B, (0 < B)%nat -> psd_ok psd B ch) -> 0 < sr -> INR size <= fdur * sr < INR size + 1 -> (2 <= size)%nat -> (2 * (size / 2) < N)%nat ->
  freq_ok hp -> freq_ok lp -> local one_axis_pos [ch; N] [ch; if crop then N - 2 * (size / 2) else N]%nat (fun X => whiten_module fmax fdur sr hp lp X psd crop).
Proof.
  intros Hd HP Hsr Hs H2 HN Hh Hl. apply (filters_local _ sr ch N (if crop then size / 2 else 0)%nat _ (fun c => gain N (size / 2) size (hann size) sr hp lp (eff_psd psd (rbins N) 0 c))). intros B HB.
  destruct (whiten_module_filters fmax fdur sr hp lp psd crop B ch N size (HP B HB) Hsr Hs H2 HN Hh Hl) as [F1 F2]. split.
  - intros b c Hb Hc. destruct (F1 b c Hb Hc) as [h Hh']. exists h. revert Hh'. apply gain_ext. intros k. apply eff_psd_batch, Hd.
  - intros X SX. destruct (F2 X SX) as (r & E & S1 & V). exists r. split; [exact E|]. split; [exact S1|]. intros b c h t Hb Hc Ht Hg. apply V; try assumption. revert Hg. apply gain_ext. intros k. apply eff_psd_batch, Hd.
Qed.

(** SplineInterpolate1D on four-dimensional input, after any history of calls *)
Definition three_axes (b : list nat) : Prop := List.length b = 3%nat.
Theorem spline_local x k s x0 m h xo xs : spline1_create x k s x0 = Ok m -> (1 <= k)%nat -> increasing x -> 0 <= s -> (xo <> None \/ x0 <> None) ->
  call_grid (grid_after (List.length x) x0 h) xo = Some xs ->
  local three_axes [List.length x] [List.length xs] (fun Z => fst (spline1_forward (calls1 m h) Z xo)).
Proof.
  intros E Hk HI Hs Hg G X Y bX bY HX HY SX SY.
  assert (K : forall Z b, three_axes b -> shape Z = b ++ [List.length x] -> exists Z', fst (spline1_forward (calls1 m h) Z xo) = Ok Z' /\ shape Z' = b ++ [List.length xs] /\
     forall p o, inb p b -> (o < List.length xs)%nat -> exists u, fit1 x k s (fun j => elt Z (p ++ [j])) = Some u /\ elt Z' (p ++ [o]) = spline_at x k u (at_ xs o)).
  { intros Z b Hb SZ. destruct b as [|a [|c [|d [|? ?]]]]; try discriminate Hb. cbn [app] in SZ.
    assert (A : accepted1 (List.length x) Z = true). { unfold accepted1, ndim. rewrite SZ. cbn [List.length last]. rewrite Nat.eqb_refl. reflexivity. }
    destruct (spline1_total x k s x0 m h Z xo xs E Hk HI Hs Hg A G) as (a' & c' & d' & Z' & S4 & EZ & SZ' & V). unfold shape4, ndim in S4. rewrite SZ in S4. cbn [List.length Nat.sub repeat app] in S4. injection S4 as <- <- <-.
    exists Z'. split; [exact EZ|]. split; [exact SZ'|]. intros p o Hp Ho. destruct (three_inb _ _ _ _ Hp) as (e & f & g & -> & H1 & H2 & H3). cbn [app].
    assert (IN : inb [e; f; g; o] (shape Z')) by (rewrite SZ'; cbn; auto). destruct (V e f g o IN) as (u & Eu & Gu). rewrite get_inb in Gu by exact IN. injection Gu as Gu. exists u. split; [|exact Gu].
    rewrite <- Eu. f_equal. apply functional_extensionality. intros j. unfold data4, ndim. rewrite SZ. reflexivity. }
  destruct (K X bX HX SX) as (X' & E1 & S1 & V1). destruct (K Y bY HY SY) as (Y' & E2 & S2 & V2). exists X', Y'. repeat (split; [assumption|]). intros p q Hp Hq H j Hj. destruct (one_inb _ _ Hj) as (o & -> & Ho).
  destruct (V1 p o Hp Ho) as (u & Eu & ->). destruct (V2 q o Hq Ho) as (v & Ev & ->).
  assert (EQ : fit1 x k s (fun j => elt X (p ++ [j])) = fit1 x k s (fun j => elt Y (q ++ [j]))).
  { unfold fit1. cbv zeta. f_equal. apply functional_extensionality. intros i. apply Rsum_ext. intros j Hj'. f_equal. apply H, in1, Hj'. }
  rewrite EQ, Ev in Eu. injection Eu as <-. reflexivity.
Qed.

(** MultiResolutionSpectrogram with spectrograms that read nothing outside the series *)
Theorem mrs_local m n : Mspec_props.built m n -> (forall t, List.In t (mr_specs m) -> (0 < sp_nf t)%nat /\ (0 < sp_nt t n)%nat) -> INR n = mr_size m ->
  (forall t, List.In t (mr_specs m) -> forall x y f u, (forall i, (i < n)%nat -> x i = y i) -> sp_row t n x f u = sp_row t n y f u) ->
  local any [n] [mr_nf m; mr_nt m] (mrs_forward m).
Proof.
  intros HB HP HN HR X Y bX bY _ _ SX SY. destruct (mrs_forward_spec m X bX n HB HP SX HN) as (X' & E1 & S1 & V1). destruct (mrs_forward_spec m Y bY n HB HP SY HN) as (Y' & E2 & S2 & V2).
  exists X', Y'. repeat (split; [assumption|]). intros p q Hp Hq H j Hj. destruct (two_inb _ _ _ Hj) as (f & u & -> & Hf & Hu).
  destruct (V1 p f u Hp Hf Hu) as (v1 & G1 & M1). destruct (V2 q f u Hq Hf Hu) as (v2 & G2 & M2). rewrite get_inb in G1 by (rewrite S1; apply inb_app, Hj; exact Hp). rewrite get_inb in G2 by (rewrite S2; apply inb_app, Hj; exact Hq). injection G1 as ->. injection G2 as ->.
  apply (Qscan_props.is_max_unique _ v1 v2 M1). destruct M2 as [(t & Ht & Ev) U2].
  assert (EB : forall t, List.In t (mr_specs m) -> bin_of t (mr_nf m) (mr_nt m) n (fun j => elt X (p ++ [j])) f u = bin_of t (mr_nf m) (mr_nt m) n (fun j => elt Y (q ++ [j])) f u).
  { intros t' Ht'. unfold bin_of. apply HR; [exact Ht'|]. intros i Hi. apply H, in1, Hi. }
  split.
  - exists t. split; [exact Ht|]. rewrite EB by exact Ht. exact Ev.
  - intros w (t' & Ht' & ->). apply U2. exists t'. split; [exact Ht'|]. apply EB, Ht'.
Qed.

(** the torchaudio spectrograms read nothing outside the series, so that every MultiResolutionSpectrogram that can be built is local *)
Theorem mrs_torchaudio_local kl sr kwargs m n : mrs_torchaudio kl sr kwargs = Ok m -> kl * sr = INR n -> local any [n] [mr_nf m; mr_nt m] (mrs_forward m).
Proof.
  intros E HN. assert (HK : 0 <= kl * sr) by (rewrite HN; apply pos_INR). unfold mrs_torchaudio in E.
  destruct (proj1 (mrs_construction truthy (KBool true) (spectro_of (Z.to_nat (rtrunc (kl * sr)))) kl sr kwargs HK) m E) as [HB HS].
  assert (RT : Z.to_nat (rtrunc (kl * sr)) = n).
  { rewrite HN. unfold rtrunc. destruct (Rle_dec 0 (INR n)) as [_|C]; [|exfalso; apply C, pos_INR]. rewrite INR_IZR_INZ. rewrite (Int_part_unique (Z.of_nat n) (IZR (Z.of_nat n))) by lra. apply Nat2Z.id. }
  rewrite RT in *.
  assert (SP : forall t, List.In t (mr_specs m) -> exists nf w h pd pw nm, t = spectrogram nf w h pd pw nm).
  { unfold mrs_create in E. apply bind_ok in E. destruct E as (kw & _ & E). apply bind_ok in E. destruct E as (ks & _ & E). apply bind_ok in E. destruct E as (ts & Ets & E).
    cbv zeta in E. destruct (_ <? 0)%Z; [discriminate|]. assert (EM : mr_specs m = ts) by (destruct (map _ ts); [discriminate|injection E as <-; reflexivity]). rewrite EM.
    intros t Ht. apply Qscan_props.sequence_map_inv in Ets. clear - Ets Ht. revert Ht. induction Ets as [|d t' ks ts Ht' _ IH]; intros H; [destruct H|]. destruct H as [<-|H]; [|apply IH, H].
    unfold spectro_of in Ht'. destruct (negb _) in Ht'; [discriminate|]. repeat (apply bind_ok in Ht'; destruct Ht' as (? & _ & Ht'); cbv zeta in Ht'). destruct (_ <? 0)%Z in Ht'; [discriminate|].
    repeat (apply bind_ok in Ht'; destruct Ht' as (? & _ & Ht'); cbv zeta in Ht'). destruct (_ || _)%bool in Ht'; [discriminate|]. injection Ht' as <-. do 6 eexists. reflexivity. }
  apply mrs_local; [exact HB| |rewrite HS, HN; reflexivity|].
  - intros t Ht. destruct (SP t Ht) as (nf & w & h & pd & pw & nm & ->). cbn [sp_nf sp_nt spectrogram]. unfold rbins, stft_frames. rewrite !Nat.add_1_r. split; apply Nat.lt_0_succ.
  - intros t Ht x y f u H. destruct (SP t Ht) as (nf & w & h & pd & pw & nm & ->). cbn [sp_row spectrogram]. unfold spec_row.
    replace (zpad pd n y) with (zpad pd n x); [reflexivity|]. apply functional_extensionality. intros j. unfold zpad. destruct (Nat.ltb_spec j pd); [reflexivity|]. destruct (Nat.ltb_spec j (pd + n)); [|reflexivity]. apply H. lia.
Qed.
(** FixedWhiten, once fitted *)
Theorem fixed_whiten_local fmax f32 m ch N fdur bgs fl hp lp ov pad pad' P (crop : bool) : fw_for m ch N -> (0 < ch)%nat -> 0 < fw_sr m ->
  List.length bgs = ch -> fw_psds m N bgs fl ov P -> INR pad <= fdur * fw_sr m / 2 < INR pad + 1 -> (1 <= pad)%nat -> (2 * pad < N)%nat ->
  INR pad' <= f32 fdur * fw_sr m / 2 < INR pad' + 1 -> (1 <= pad')%nat -> (2 * pad' < N)%nat -> freq_ok hp -> freq_ok lp ->
  exists m', fw_fit f32 m fdur bgs fl hp lp ov = (m', Ok tt) /\ local one_axis [ch; N] [ch; if crop then N - 2 * pad' else N]%nat (fun X => fw_forward fmax m' X crop).
Proof.
  intros Hm Hch Hsr L HP Hpad H1 H2 Hpad' H1' H2' Hh Hl.
  assert (K : forall X B, shape X = [B; ch; N] -> _) by (intros X B SX; exact (fixed_whiten_spec fmax f32 m ch N fdur bgs fl hp lp ov pad pad' P X B crop Hm Hch Hsr L HP Hpad H1 H2 Hpad' H1' H2' Hh Hl SX)).
  destruct (K (mk [0; ch; N]%nat (fun _ => 0)) 0%nat eq_refl) as (m' & _ & Em & _). exists m'. split; [exact Em|].
  assert (F : forall B, filters (fun X => fw_forward fmax m' X crop) (fw_sr m) B ch N (if crop then pad' else 0) (if crop then N - 2 * pad' else N)
    (fun _ c => gain N pad (2 * pad) (hann (2 * pad)) (fw_sr m) hp lp (P c))).
  { intros B. apply (filters_of _ (fw_sr m) B ch N _ _ pad (2 * pad) (hann (2 * pad)) hp lp (fun _ c => P c)); [lia|]. intros X SX.
    destruct (K X B SX) as (m2 & r & E2 & _ & Er & Sr & G). rewrite Em in E2. injection E2 as <-. exists r. split; [exact Er|]. split; [exact Sr|]. exact G. }
  intros X Y bX bY [B ->] [B' ->] SX SY. destruct (F B) as [Hex F1]. destruct (F B') as [_ F2]. destruct (F1 X SX) as (X' & E1 & S1 & V1). destruct (F2 Y SY) as (Y' & E2 & S2 & V2).
  exists X', Y'. repeat (split; [assumption|]). intros p q Hp Hq H j Hj. destruct (one_inb _ _ Hp) as (b & -> & Hb). destruct (one_inb _ _ Hq) as (b' & -> & Hb'). destruct (two_inb _ _ _ Hj) as (c & t & -> & Hc & Ht). cbn [app] in *.
  destruct (Hex b c Hb Hc) as [h Hh']. rewrite (V1 b c h t Hb Hc Ht Hh'), (V2 b' c h t Hb' Hc Ht Hh'). apply filtered_ext. intros u Hu. apply (H [c; u]). cbn. auto.
Qed.

(** ** non-vacuity: a pipeline of three transforms on batches of single-channel series of 4 samples, and its causal part *)
Example pipeline_local m : local any [4%nat] [4%nat] (andthen (tophat 2) (andthen (leaky_forward m) (iir_forward [1; - (1 / 2)] [1; 0]))) /\
  causal any [] (fun n => (0 < n)%nat) (andthen (tophat 2) (leaky_forward m)).
Proof.
  split.
  - eapply local_pipeline; [apply tophat_local; lia|]. eapply local_pipeline; [apply leaky_local; lia|apply iir_local; reflexivity].
  - apply causal_pipeline; [apply tophat_is_causal; lia|apply leaky_is_causal].
Qed.
(** ... and what it says of a batch with two equal series *)
Example pipeline_equal m (X : tensor R) : shape X = [2; 4]%nat -> (forall t, (t < 4)%nat -> elt X [0; t]%nat = elt X [1; t]%nat) ->
  exists Y, andthen (tophat 2) (leaky_forward m) X = Ok Y /\ forall t, (t < 4)%nat -> elt Y [0; t]%nat = elt Y [1; t]%nat.
Proof.
  intros SX H. assert (L : local any [4%nat] [4%nat] (andthen (tophat 2) (leaky_forward m))) by (eapply local_pipeline; [apply tophat_local; lia|apply leaky_local; lia]).
  destruct (L X X [2%nat] [2%nat] I I SX SX) as (Y & Y' & E & E' & _ & _ & V). rewrite E in E'. injection E' as <-. exists Y. split; [exact E|]. intros t Ht.
  apply (V [0%nat] [1%nat]); [cbn; lia|cbn; lia| |apply in1, Ht]. intros i Hi. destruct (one_inb _ _ Hi) as (u & -> & Hu). apply H, Hu.
Qed.
