(** Properties C65 (Whiten), C66 (FixedWhiten), C67 (SpectralDensity). *)
From Coq Require Import String.
From Verif Require Import Base Tensor Rutil Bcast Slicing_model Streaming_model Norm_model Norm_props Gw_model Gw_spec Gw_props Dft Snr_props Spectral_model Spectral_props Psd_props Fastpsd_props Whiten_props Fit_model Fit_props Scaler_props Rescaler_props.
From Coq Require Import FunctionalExtensionality.
From Coquelicot Require Import Rcomplements Complex.
Local Open Scope R_scope.

(** ** C65: the Whiten module *)
Definition freq_ok (f : option R) : Prop := match f with Some f => 0 <= f | None => True end.
Lemma rtrunc_lt0 x : 0 <= x -> (rtrunc x <? 0)%Z = false.
Proof.
  intros H. unfold rtrunc. destruct (Rle_dec 0 x); [|lra]. apply Z.ltb_ge. destruct (base_Int_part x) as [_ B].
  assert ((-1 < Int_part x)%Z); [|lia]. apply lt_IZR. lra.
Qed.
(** with size = int(fduration * sample_rate) samples, size/2 samples are removed at each end and the taper is the Hann window
    of size samples *)
Theorem whiten_module_spec fmax fdur sr hp lp X psd crop B ch N size :
  shape X = [B; ch; N] -> psd_ok psd B ch -> 0 < sr -> INR size <= fdur * sr < INR size + 1 -> (2 <= size)%nat -> (2 * (size / 2) < N)%nat ->
  freq_ok hp -> freq_ok lp ->
  let pad := (size / 2)%nat in
  exists r, whiten_module fmax fdur sr hp lp X psd crop = Ok r /\ shape r = [B; ch; if crop then N - 2 * pad else N]%nat /\
   forall b c, (b < B)%nat -> (c < ch)%nat -> exists g, inv_amp (rbins N) sr hp lp (eff_psd psd (rbins N) b c) g /\
    forall t, (t < if crop then N - 2 * pad else N)%nat ->
     get r [b; c; t] = Some (filtered N sr (fun k => sqrt 2 * Cmod (response (rbins N) pad size (hann size) g k)) (fun t => elt X [b; c; t])
                                      (t + if crop then pad else 0)).
Proof.
  intros SX HP Hsr Hs H2 HN Hh Hl pad. unfold whiten_module.
  assert (Z0 := pos_INR size). rewrite rtrunc_lt0 by lra. rewrite (rtrunc_nonneg _ size) by lra. rewrite Nat2Z.id.
  assert (P1 : (1 <= pad)%nat) by (unfold pad; apply Nat.div_le_lower_bound; lia).
  assert (W : (fun i => elt (mk [size] (fun i => hann_window size (hd 0%nat i))) [i]) = hann size).
  { apply functional_extensionality. intros i. cbn. unfold hann_window. destruct (Nat.eqb_spec size 1); [lia|reflexivity]. }
  apply whiten_spec; try assumption. cbn. rewrite <- W. repeat split.
Qed.
(** when int(fduration * sample_rate) is even, the module is exactly the function [whiten] with fduration in seconds *)
Theorem whiten_module_eq fmax fdur sr hp lp X psd crop size : INR size <= fdur * sr < INR size + 1 -> Nat.Even size -> 
  whiten_module fmax fdur sr hp lp X psd crop = whiten fmax X psd (Seconds fdur) sr hp lp crop.
Proof.
  intros Hs [p Hp]. unfold whiten_module. assert (Z0 := pos_INR size). rewrite rtrunc_lt0 by lra. rewrite (rtrunc_nonneg _ size) by lra. rewrite Nat2Z.id.
  set (w := mk [size] _).
  assert (E1 : fd_pad (Window w) sr = Z.of_nat p) by (cbn; rewrite Hp, Nat.mul_comm, Nat.div_mul by lia; reflexivity).
  assert (E2 : fd_pad (Seconds fdur) sr = Z.of_nat p).
  { apply rtrunc_nonneg. rewrite Hp, mult_INR in Hs. cbn [INR] in Hs. lra. }
  assert (E3 : fd_window (Window w) (Z.of_nat p) = fd_window (Seconds fdur) (Z.of_nat p)).
  { cbn. destruct (Z.ltb_spec (Z.of_nat p) 0); [lia|]. f_equal. replace (Z.to_nat _) with size by lia. f_equal.
    apply functional_extensionality. intros i. unfold hann_window. destruct (Nat.eqb_spec size 1); [lia|reflexivity]. }
  unfold whiten. rewrite E1, E2. destruct (ndim X =? 0)%nat; [reflexivity|]. destruct (Z.of_nat _ <=? _)%Z; [reflexivity|].
  match goal with |- bind ?a _ = _ => destruct a as [q|]; [|reflexivity] end. cbn [bind].
  replace (truncate_inverse_power_spectrum q (Window w) sr hp lp) with (truncate_inverse_power_spectrum q (Seconds fdur) sr hp lp); [reflexivity|].
  unfold truncate_inverse_power_spectrum. rewrite E1, E2, E3. reflexivity.
Qed.
Lemma response_const_gen F pad wl W g c k : (2 <= F)%nat -> (1 <= pad)%nat -> (forall k, (k < F)%nat -> g k = c) -> response F pad wl W g k = RtoC (c * W (wl - pad)%nat).
Proof.
  intros HF Hp Hg. rewrite (response_ext F pad wl W g (fun _ => c * 1) k HF) by (intros; rewrite Hg by assumption; ring).
  rewrite response_scale. unfold response.
  rewrite (rfft_ext _ _ (fun t => W (wl - pad)%nat * irfft ((F - 1) * 2) (fun _ => RtoC 1) t)).
  - rewrite rfft_scal. unfold rfft, dft. rewrite (Csum_single _ 0); [|lia|].
    + rewrite irfft_one by lia. cbn [Nat.eqb]. rewrite Z.mul_0_r. change (- 0)%Z with 0%Z. rewrite w_0, RtoC_mult. ring.
    + intros i Hi Hi0. rewrite irfft_one by lia. replace (i =? 0)%nat with false by lia. ring.
  - intros t Ht. rewrite irfft_one by lia. destruct (Nat.eqb_spec t 0) as [->|]; [|ring].
    unfold taper. replace (0 <? pad)%nat with true by lia. rewrite Nat.add_0_r. ring.
Qed.
(** white noise: with an even number of samples in fduration the output is the demeaned input over sigma; with an odd
    number it is smaller by the factor (1 + cos(pi/size))/2 < 1, since an odd Hann window has no sample of value 1 *)
Definition module_gain (size : nat) : R := if Nat.even size then 1 else (1 + cos (PI / INR size)) / 2.
Lemma hann_gain size : (2 <= size)%nat -> hann size (size - size / 2) = module_gain size.
Proof.
  intros H. unfold module_gain. rewrite <- Nat.negb_odd. destruct (Nat.odd size) eqn:O; cbn [negb].
  - apply Nat.odd_spec in O as [p ->]. assert (E : ((2 * p + 1) / 2 = p)%nat) by (symmetry; apply Nat.div_unique with 1%nat; lia). rewrite E.
    replace (2 * p + 1 - p)%nat with (p + 1)%nat by lia. unfold hann.
    assert (P : 0 < INR (2 * p + 1)) by (apply INR_pos; lia).
    replace (2 * PI * INR (p + 1) / INR (2 * p + 1)) with (PI / INR (2 * p + 1) + PI).
    + rewrite neg_cos. lra.
    + rewrite !plus_INR, mult_INR in *. cbn [INR] in *. field. lra.
  - assert (E : Nat.Even size) by (apply Nat.even_spec; rewrite <- Nat.negb_odd, O; reflexivity). destruct E as [p ->].
    rewrite (Nat.mul_comm 2 p), Nat.div_mul by lia. rewrite (Nat.mul_comm p 2). apply hann_mid. lia.
Qed.
Lemma module_gain_bounds size : (2 <= size)%nat -> 1 / 2 < module_gain size <= 1 /\ (Nat.odd size = true -> module_gain size < 1).
Proof.
  intros H. unfold module_gain. rewrite <- Nat.negb_odd. assert (P : 2 <= INR size) by (apply (le_INR 2) in H; cbn in H; lra). assert (PP := PI_RGT_0).
  destruct (Nat.odd size) eqn:O; cbn [negb]; [|split; [lra|discriminate]].
  assert (H3 : 3 <= INR size). { assert (3 <= size)%nat by (destruct (Nat.eq_dec size 2) as [->|]; [discriminate|lia]). apply (le_INR 3) in H0. cbn in H0. lra. }
  assert (A : 0 < PI / INR size) by (apply Rdiv_lt_0_compat; lra).
  assert (B : PI / INR size < PI / 2) by (apply Rmult_lt_compat_l; [lra|apply Rinv_lt_contravar; lra]).
  assert (C1 : 0 < cos (PI / INR size)) by (apply cos_gt_0; lra).
  assert (C2 : cos (PI / INR size) < 1) by (rewrite <- cos_0; apply cos_decreasing_1; lra).
  split; lra.
Qed.
Theorem whiten_module_white_noise fmax X psd B ch N fdur sr size sigma :
  shape X = [B; ch; N] -> psd_ok psd B ch -> 0 < sr -> 0 < sigma ->
  (forall b c k, (b < B)%nat -> (c < ch)%nat -> (k < rbins N)%nat -> eff_psd psd (rbins N) b c k = 2 * sigma ^ 2 / sr) ->
  INR size <= fdur * sr < INR size + 1 -> (2 <= size)%nat -> (2 * (size / 2) < N)%nat -> Nat.Even (rbins N) ->
  exists r, whiten_module fmax fdur sr None None X psd true = Ok r /\ shape r = [B; ch; N - 2 * (size / 2)]%nat /\
   forall b c t, (b < B)%nat -> (c < ch)%nat -> (t < N - 2 * (size / 2))%nat ->
     get r [b; c; t] = Some (module_gain size * ((elt X [b; c; t + size / 2]%nat - Rsum N (fun t => elt X [b; c; t]) / INR N) / sigma)).
Proof.
  intros SX Hpsd Hsr Hsig Hflat Hs H2 HN HE.
  destruct (whiten_module_spec fmax fdur sr None None X psd true B ch N size SX Hpsd Hsr Hs H2 HN I I) as [r [E [Sr G]]]. cbn zeta in *.
  assert (P1 : (1 <= size / 2)%nat) by (apply Nat.div_le_lower_bound; lia). assert (GA := hann_gain size H2). assert (GB := module_gain_bounds size H2).
  set (pad := (size / 2)%nat) in *. clearbody pad.
  exists r. split; [assumption|]. split; [assumption|]. intros b c t Hb Hc Ht. destruct (G b c Hb Hc) as [g [Ig Gg]].
  rewrite Gg by assumption. f_equal.
  assert (HF : (2 <= rbins N)%nat) by (unfold rbins; pose proof (Nat.div_le_lower_bound N 2 1 ltac:(lia) ltac:(lia)); lia).
  assert (Hg : forall k, (k < rbins N)%nat -> g k = 1 / sqrt (2 * sigma ^ 2 / sr)).
  { intros k Hk. destruct (Ig k Hk) as [_ I2]. rewrite I2; [rewrite Hflat by assumption; reflexivity|].
    intros [[]|[[]|[O _]]]. destruct HE as [u Hu], O as [v Hv]. lia. }
  assert (P : 0 < 2 * sigma ^ 2 / sr) by (apply Rdiv_lt_0_compat; [|assumption]; pose proof (pow_lt sigma 2 Hsig); lra).
  rewrite (filtered_const N sr _ (sqrt 2 * (1 / sqrt (2 * sigma ^ 2 / sr) * module_gain size))).
  - rewrite sqrt_div_alt by assumption. rewrite sqrt_mult_alt by lra. rewrite sqrt_pow2 by lra.
    pose proof (sqrt_lt_R0 2 ltac:(lra)). pose proof (sqrt_lt_R0 sr Hsr). field. repeat split; try lra. apply not_0_INR. lia.
  - lia.
  - intros k Hk. rewrite (response_const_gen (rbins N) pad size (hann size) g (1 / sqrt (2 * sigma ^ 2 / sr)) k HF P1 Hg), GA.
    rewrite Cmod_R, Rabs_pos_eq; [reflexivity|]. apply Rlt_le, Rmult_lt_0_compat; [apply Rdiv_lt_0_compat; [lra|apply sqrt_lt_R0; assumption]|lra].
Qed.
Theorem whiten_module_negative_fduration fmax fdur sr hp lp X psd crop : fdur * sr <= -1 -> whiten_module fmax fdur sr hp lp X psd crop = Err RuntimeError.
Proof.
  intros H. unfold whiten_module, rtrunc. destruct (Rle_dec 0 (fdur * sr)); [lra|]. destruct (base_Int_part (- (fdur * sr))) as [A B].
  assert ((0 < Int_part (- (fdur * sr)))%Z) by (apply lt_IZR; lra). replace (_ <? 0)%Z with true by lia. reflexivity.
Qed.

(** ** C66: FixedWhiten *)
(** a transform for ch channels and kernels of N samples, fitted or not *)
Definition fw_for (m : fwhiten) (ch N : nat) : Prop :=
  fw_ch m = ch /\ rtrunc (fw_len m * fw_sr m) = Z.of_nat N /\ shapes (fw_psd m) = [("psd"%string, [ch; rbins N])].
Theorem fixed_whiten_create ch len sr N : INR N <= len * sr < INR N + 1 ->
  exists m, fw_create ch len sr = Ok m /\ fw_for m ch N /\ fw_sr m = sr /\ forall fmax X crop, fw_forward fmax m X crop = Err ValueError.
Proof.
  intros H. unfold fw_create. rewrite (rtrunc_nonneg _ N H). replace (Z.of_nat N <? -1)%Z with false by lia.
  eexists. split; [reflexivity|]. unfold fw_for. cbn. split; [|split; [reflexivity|reflexivity]].
  split; [reflexivity|]. split; [apply rtrunc_nonneg; assumption|]. unfold shapes. cbn. unfold rbins. repeat f_equal. lia.
Qed.
(** what fit stores: for every channel, the truncated spectrum of the normalised background *)
Definition fw_psds (m : fwhiten) (N : nat) (bgs : list (tensor R)) (fl ov : option R) (P : nat -> nat -> R) : Prop :=
  forall c, (c < fw_ch m)%nat -> exists p, normalize_psd (nth c bgs (mk [] (fun _ => 0))) (fw_sr m) (rbins N) fl ov = Ok p /\
    forall k, (k < rbins N)%nat -> P c k = elt p [k].
Lemma fixed_whiten_fit f32 m ch N fdur bgs fl hp lp ov pad P : fw_for m ch N -> (0 < ch)%nat -> (2 <= N)%nat -> 0 < fw_sr m ->
  List.length bgs = ch -> fw_psds m N bgs fl ov P -> INR pad <= fdur * fw_sr m / 2 < INR pad + 1 -> (1 <= pad)%nat -> (2 * pad <= (rbins N - 1) * 2)%nat ->
  freq_ok hp -> freq_ok lp ->
  exists m' psd, fw_fit f32 m fdur bgs fl hp lp ov = (m', Ok tt) /\ fw_for m' ch N /\ fw_sr m' = fw_sr m /\ fw_fd m' = f32 fdur /\
    built (fw_psd m') = true /\ assoc "psd" (bufs (fw_psd m')) = Some psd /\ shape psd = [ch; rbins N] /\
    forall c, (c < ch)%nat -> exists g, inv_amp (rbins N) (fw_sr m) hp lp (P c) g /\
      forall k, (k < rbins N)%nat -> elt psd [c; k] = let a := Cmod (response (rbins N) pad (2 * pad) (hann (2 * pad)) g k) in if Req_EM_T a 0 then Inf else Fin (1 / (2 * a ^ 2)).
Proof.
  intros [Hch [HN Hsh]] Hc0 HN2 Hsr Hl HP Hpad Hp1 Hp2 Hh Hlp. unfold fw_fit. rewrite Hch, Hl, Nat.eqb_refl. cbn [negb].
  unfold shapes in Hsh. destruct (bufs (fw_psd m)) as [|[n0 b0] [|? ?]] eqn:EB; cbn in Hsh; try discriminate. injection Hsh as -> Hs0.
  cbn [assoc]. sd. rewrite Hs0. cbn [last].
  match goal with |- context [sequence (map ?f bgs)] => set (one := f) end.
  assert (HF : (2 <= rbins N)%nat) by (unfold rbins; pose proof (Nat.div_le_lower_bound N 2 1 ltac:(lia) ltac:(lia)); lia).
  assert (ONE : forall c, (c < ch)%nat -> exists q, one (nth c bgs (mk [] (fun _ => 0))) = Ok q /\ shape q = [rbins N] /\
     exists g, inv_amp (rbins N) (fw_sr m) hp lp (P c) g /\
      forall k, (k < rbins N)%nat -> elt q [k] = let a := Cmod (response (rbins N) pad (2 * pad) (hann (2 * pad)) g k) in if Req_EM_T a 0 then Inf else Fin (1 / (2 * a ^ 2))).
  { intros c Hc. destruct (HP c) as [p [Ep Gp]]; [lia|]. unfold one. rewrite Ep. cbn [bind].
    destruct (truncate_spec (mk [1; 1; rbins N]%nat (fun i => elt p [last i 0%nat])) 1 1 (rbins N) pad (2 * pad) (hann (2 * pad)) (Seconds fdur) (fw_sr m) hp lp) as [r [Er [Sr Gr]]]; try assumption; try reflexivity.
    { cbn. auto. }
    rewrite Er. cbn [bind]. eexists. split; [reflexivity|]. rewrite Sr. cbn [last shape]. split; [reflexivity|].
    destruct (Gr 0%nat 0%nat) as [g [Ig Gg]]. exists g. split.
    - intros k Hk. destruct (Ig k Hk) as [I1 I2]. split; [assumption|]. intros Nd. rewrite I2 by assumption. cbn. rewrite Gp by assumption. reflexivity.
    - intros k Hk. cbn [elt hd]. apply Gg. }
  clearbody one.
  destruct (sequence_nth one bgs (mk [] (fun _ => 0)) (mk [] (fun _ => Inf))) as [ps [E [Lp G]]].
  { intros c Hc. destruct (ONE c) as [q [Eq _]]; [lia|]. eauto. }
  rewrite E. cbn [bind].
  destruct (stack_at0_ok ps [rbins N] (mk [] (fun _ => Inf))) as [b [Eb [Sb Gb]]].
  { intros ->. cbn in Lp. lia. }
  { intros c Hc. destruct (ONE c) as [q [Eq [Sq _]]]; [lia|]. rewrite G in Eq by lia. injection Eq as ->. assumption. }
  rewrite Eb. destruct (copy_ok b0 b) as [K _]. assert (Sb' : shape b = shape b0) by congruence.
  destruct K as [b' [E' [S' G']]]; [unfold fits; rewrite Sb'; apply bshape_self|].
  cbn [build]. rewrite EB. cbn [assoc]. sd. rewrite E'. cbn [update]. sd. cbn [bufs built].
  eexists _, b'. split; [reflexivity|]. split.
  { unfold fw_for. cbn. repeat split; try assumption. unfold shapes. cbn. rewrite S', Hs0. reflexivity. }
  cbn. split; [reflexivity|]. split; [reflexivity|]. split; [reflexivity|]. sd. split; [reflexivity|]. split; [congruence|].
  intros c Hc. destruct (ONE c Hc) as [q [Eq [_ [g [Ig Gg]]]]]. exists g. split; [assumption|]. intros k Hk.
  rewrite G', bidx_self by (rewrite Sb', Hs0; cbn; auto). rewrite Gb by lia. rewrite G in Eq by lia. injection Eq as ->. apply Gg. assumption.
Qed.
Lemma normalize_spec_2d fmax X (psd : tensor ext) B ch N sr pad crop : shape X = [B; ch; N] -> (0 < N)%nat -> shape psd = [ch; rbins N] ->
  exists Y, shape Y = [B; ch; N] /\
   normalize_by_psd fmax X psd sr pad crop = Ok (if crop then slice_last (Some pad) (Some (- pad)%Z) Y else Y) /\
   forall b c t, (b < B)%nat -> (c < ch)%nat -> elt Y [b; c; t] = filtered N sr (fun k => inv_sqrt_num fmax (elt psd [c; k])) (fun t => elt X [b; c; t]) t.
Proof.
  intros SX HN Sp. unfold normalize_by_psd, ndim. rewrite SX. cbn [List.length Nat.eqb last].
  replace (N =? 0)%nat with false by lia. unfold bzip at 1. unfold mean_last. rewrite SX. cbn [removelast last app shape].
  assert (B0 : bshape [B; ch; N] [B; ch; 1%nat] = Ok [B; ch; N]) by (unfold bshape; cbn; rewrite bdim_1_r, !bdim_refl; reflexivity).
  assert (B1 : bshape [B; ch; rbins N] [ch; rbins N] = Ok [B; ch; rbins N]) by (apply (bshape_pre [B]); [apply bshape_self|cbn; lia]).
  rewrite B0. cbn [bind shape removelast app]. unfold bzip. cbn [shape]. rewrite Sp, B1. cbn [bind shape removelast app List.length Nat.eqb negb].
  eexists. split; [|split; [destruct crop; reflexivity|]]; [reflexivity|].
  intros b c t Hb Hc. cbn [elt removelast last app]. unfold filtered. rewrite <- irfft_scal. f_equal. apply irfft_ext.
  intros k Hk.
  assert (Bi : bidx [ch; rbins N] [b; c; k] = [c; k]) by (transitivity (bidx [ch; rbins N] [c; k]); [apply (bidx_pre [ch; rbins N] [b] [c; k] eq_refl)|apply bidx_self; cbn; auto]).
  rewrite Bi. rewrite bidx_BCT by assumption. cbn [removelast last app].
  rewrite (rfft_ext N _ (fun t => elt X [b; c; t] - Rsum N (fun t => elt X [b; c; t]) / INR N)).
  - rewrite (Cmult_comm _ (RtoC (inv_sqrt_num _ _))), !Cmult_assoc. f_equal.
    rewrite <- RtoC_mult, (Rmult_comm (INR N)), RtoC_mult, <- Cmult_assoc, <- RtoC_mult, Rinv_r by (apply not_0_INR; lia). ring.
  - intros t' Ht'. rewrite bidx_BCT by assumption.
    assert (B2 : bidx [B; ch; 1%nat] [b; c; t'] = [b; c; 0%nat]) by (unfold bidx; cbn; rewrite !b1 by assumption; reflexivity).
    rewrite B2. reflexivity.
Qed.
(** fit then forward: the kernel is filtered with the truncated inverse spectrum of the channel's background, as by [whiten];
    the number of samples removed at each end is computed from fduration as stored in a float32 buffer *)
Theorem fixed_whiten_spec fmax f32 m ch N fdur bgs fl hp lp ov pad pad' P X B crop : fw_for m ch N -> (0 < ch)%nat -> 0 < fw_sr m ->
  List.length bgs = ch -> fw_psds m N bgs fl ov P -> INR pad <= fdur * fw_sr m / 2 < INR pad + 1 -> (1 <= pad)%nat -> (2 * pad < N)%nat ->
  INR pad' <= f32 fdur * fw_sr m / 2 < INR pad' + 1 -> (1 <= pad')%nat -> (2 * pad' < N)%nat ->
  freq_ok hp -> freq_ok lp -> shape X = [B; ch; N] ->
  exists m' r, fw_fit f32 m fdur bgs fl hp lp ov = (m', Ok tt) /\ fw_for m' ch N /\ fw_forward fmax m' X crop = Ok r /\
   shape r = [B; ch; if crop then N - 2 * pad' else N]%nat /\
   forall b c, (b < B)%nat -> (c < ch)%nat -> exists g, inv_amp (rbins N) (fw_sr m) hp lp (P c) g /\
    forall t, (t < if crop then N - 2 * pad' else N)%nat ->
     get r [b; c; t] = Some (filtered N (fw_sr m) (fun k => sqrt 2 * Cmod (response (rbins N) pad (2 * pad) (hann (2 * pad)) g k)) (fun t => elt X [b; c; t])
                                      (t + if crop then pad' else 0)).
Proof.
  intros Hm Hc0 Hsr Hl HP Hpad Hp1 Hp2 Hpad' Hp1' Hp2' Hh Hlp SX.
  assert (HB : (2 * pad <= (rbins N - 1) * 2)%nat) by (unfold rbins; pose proof (Nat.div_le_lower_bound N 2 pad ltac:(lia) ltac:(lia)); lia).
  destruct (fixed_whiten_fit f32 m ch N fdur bgs fl hp lp ov pad P Hm Hc0 ltac:(lia) Hsr Hl HP Hpad Hp1 HB Hh Hlp) as [m' [psd [E [Hm' [Es [Ef [Hbu [Ea [Sp G]]]]]]]]].
  exists m'. unfold fw_forward, call. rewrite Hbu. cbn [bind]. rewrite Ea. unfold ndim. rewrite SX. cbn [List.length Nat.eqb last].
  destruct Hm' as [H1 [H2 H3]]. rewrite H2, Z.eqb_refl. cbn [negb]. rewrite Es, Ef, (rtrunc_nonneg _ pad' Hpad').
  destruct (normalize_spec_2d fmax X psd B ch N (fw_sr m) (Z.of_nat pad') crop SX ltac:(lia) Sp) as [Y [SY [EY GY]]].
  rewrite EY. eexists. split; [assumption|]. split; [repeat split; assumption|]. split; [reflexivity|].
  assert (Q : forall b c, (b < B)%nat -> (c < ch)%nat -> exists g, inv_amp (rbins N) (fw_sr m) hp lp (P c) g /\
    forall t, elt Y [b; c; t] = filtered N (fw_sr m) (fun k => sqrt 2 * Cmod (response (rbins N) pad (2 * pad) (hann (2 * pad)) g k)) (fun t => elt X [b; c; t]) t).
  { intros b c Hb Hc. destruct (G c Hc) as [g [Ig Gg]]. exists g. split; [assumption|].
    intros t. rewrite GY by assumption. unfold filtered. f_equal. apply irfft_ext. intros k Hk. rewrite Gg by assumption. cbn zeta.
    rewrite inv_sqrt_num_spec by apply Cmod_ge_0. reflexivity. }
  destruct crop.
  - unfold slice_last. rewrite SY. cbn [last removelast app shape elt].
    assert (C1 : slice_lo (Z.of_nat N) (Some (Z.of_nat pad')) = Z.of_nat pad') by (unfold slice_lo, py_clamp; replace (Z.of_nat pad' <? 0)%Z with false by lia; lia).
    assert (C2 : slice_hi (Z.of_nat N) (Some (- Z.of_nat pad')%Z) = Z.of_nat (N - pad')) by (unfold slice_hi, py_clamp; replace (- Z.of_nat pad' <? 0)%Z with true by lia; lia).
    rewrite C1, C2. assert (L : Z.to_nat (Z.of_nat (N - pad') - Z.of_nat pad') = (N - 2 * pad')%nat) by lia. rewrite L. split; [reflexivity|].
    intros b c Hb Hc. destruct (Q b c Hb Hc) as [g [Ig Gg]]. exists g. split; [assumption|]. intros t Ht.
    rewrite get_inb by (cbn; lia). f_equal. cbn [elt last removelast app]. rewrite Nat2Z.id. apply Gg.
  - split; [exact SY|]. intros b c Hb Hc. destruct (Q b c Hb Hc) as [g [Ig Gg]]. exists g. split; [assumption|]. intros t Ht.
    rewrite get_inb by (rewrite SY; cbn; lia). f_equal. rewrite Nat.add_0_r. apply Gg.
Qed.
(** with frequency domain backgrounds of the right length, and when the float32 rounding of fduration does not change the
    number of cropped samples, the transform agrees with the function [whiten] applied with the stacked backgrounds *)
Theorem fixed_whiten_is_whiten fmax f32 m ch N fdur bgs hp lp ov pad psd X B crop : fw_for m ch N -> (0 < ch)%nat -> 0 < fw_sr m ->
  List.length bgs = ch -> shape psd = [ch; rbins N] -> (forall c k, (c < ch)%nat -> (k < rbins N)%nat -> 0 < elt psd [c; k]) ->
  (forall c, (c < ch)%nat -> shape (nth c bgs (mk [] (fun _ => 0))) = [rbins N] /\ forall k, elt (nth c bgs (mk [] (fun _ => 0))) [k] = elt psd [c; k]) ->
  INR pad <= fdur * fw_sr m / 2 < INR pad + 1 -> INR pad <= f32 fdur * fw_sr m / 2 < INR pad + 1 -> (1 <= pad)%nat -> (2 * pad < N)%nat ->
  freq_ok hp -> freq_ok lp -> shape X = [B; ch; N] ->
  exists m' r r', fw_fit f32 m fdur bgs None hp lp ov = (m', Ok tt) /\ fw_forward fmax m' X crop = Ok r /\
    whiten fmax X psd (Seconds fdur) (fw_sr m) hp lp crop = Ok r' /\ shape r = shape r' /\
    forall b c t, (b < B)%nat -> (c < ch)%nat -> get r [b; c; t] = get r' [b; c; t].
Proof.
  intros Hm Hc0 Hsr Hl Sp Hpos Hb Hpad Hpad' Hp1 Hp2 Hh Hlp SX.
  assert (R0 : (0 < rbins N)%nat) by (unfold rbins; rewrite Nat.add_1_r; apply Nat.lt_0_succ).
  destruct (fixed_whiten_spec fmax f32 m ch N fdur bgs None hp lp ov pad pad (fun c k => elt psd [c; k]) X B crop) as [m' [r [E [_ [Ef [Sr G]]]]]]; try assumption.
  { intros c Hc. destruct (Hb c) as [S1 G1]; [destruct Hm as [Hm1 _]; rewrite Hm1 in Hc; assumption|]. destruct (normalize_psd_frequency _ _ (fw_sr m) (rbins N) ov S1 R0) as [p [Ep [_ Gp]]].
    exists p. split; [assumption|]. intros k Hk. destruct (Gp k Hk) as [-> _]. rewrite Nat.eqb_refl. symmetry. apply G1. }
  assert (PO : psd_ok psd B ch).
  { apply psd_ok_2d with (pf := rbins N); [assumption|assumption|]. intros [|c [|k [|? ?]]]; cbn; try tauto. intros [H1 [H2 _]]. apply Hpos; assumption. }
  destruct (whiten_spec fmax X psd B ch N (Seconds fdur) (fw_sr m) pad (2 * pad) (hann (2 * pad)) hp lp crop SX PO Hsr) as [r' [E' [Sr' G']]]; try assumption; [cbn; auto|].
  exists m', r, r'. split; [assumption|]. split; [assumption|]. split; [assumption|]. split; [congruence|].
  intros b c t Hbb Hcc. destruct (G b c Hbb Hcc) as [g [Ig Gg]]. destruct (G' b c Hbb Hcc) as [g' [Ig' Gg']].
  destruct (Nat.ltb_spec t (if crop then N - 2 * pad else N)) as [Ht|Ht].
  - rewrite Gg, Gg' by assumption. f_equal. unfold filtered. f_equal. apply irfft_ext. intros k Hk. f_equal. f_equal. f_equal. f_equal.
    apply response_ext; [unfold rbins; pose proof (Nat.div_le_lower_bound N 2 1 ltac:(lia) ltac:(lia)); lia|].
    apply inv_amp_unique with (1 := Ig). intros j Hj. destruct (Ig' j Hj) as [I1 I2]. split; [assumption|]. intros Nd. rewrite I2 by assumption.
    f_equal. f_equal. unfold eff_psd, pad_ndim3, ndim. rewrite Sp. cbn. rewrite Sp. cbn. rewrite Nat.eqb_refl. destruct (Nat.eqb_spec ch 1) as [->|]; [|reflexivity].
    replace c with 0%nat by lia. reflexivity.
  - rewrite !get_not_inb; [reflexivity| |]; [rewrite Sr'|rewrite Sr]; destruct crop; cbn; lia.
Qed.
(** FINDING: fduration = 0.7 s at 20 Hz means 7 samples at each end, but 0.7 is stored as 11744051/2^24 in float32, which
    gives 6: the output of a kernel of N samples has N - 12 samples where [whiten] (and the documentation) give N - 14 *)
Theorem fixed_whiten_float32_crop_refuted fmax f32 m ch N bgs fl hp lp ov P X B : fw_for m ch N -> (0 < ch)%nat -> fw_sr m = 20 ->
  f32 (7 / 10) = 11744051 / 16777216 -> List.length bgs = ch -> fw_psds m N bgs fl ov P -> (14 < N)%nat -> freq_ok hp -> freq_ok lp -> shape X = [B; ch; N] ->
  exists m' r, fw_fit f32 m (7 / 10) bgs fl hp lp ov = (m', Ok tt) /\ fw_forward fmax m' X true = Ok r /\ shape r = [B; ch; N - 12]%nat /\
  forall psd, psd_ok psd B ch -> exists r', whiten fmax X psd (Seconds (7 / 10)) 20 hp lp true = Ok r' /\ shape r' = [B; ch; N - 14]%nat.
Proof.
  intros Hm Hc0 Hsr Hf Hl HP HN Hh Hlp SX.
  destruct (fixed_whiten_spec fmax f32 m ch N (7 / 10) bgs fl hp lp ov 7 6 P X B true) as [m' [r [E [_ [Ef [Sr _]]]]]]; try assumption; try lia.
  - lra.
  - rewrite Hsr. cbn. lra.
  - rewrite Hsr, Hf. cbn. lra.
  - exists m', r. split; [assumption|]. split; [assumption|]. split; [assumption|]. intros psd PO.
    destruct (whiten_spec fmax X psd B ch N (Seconds (7 / 10)) 20 7 14 (hann 14) hp lp true SX PO) as [r' [E' [Sr' _]]]; try assumption; try lia; try lra.
    + cbn. repeat split; lra.
    + exists r'. split; assumption.
Qed.
(** rejected calls *)
Theorem fixed_whiten_errors fmax f32 m ch N : fw_for m ch N ->
  (forall fdur bgs fl hp lp ov, List.length bgs <> ch -> fw_fit f32 m fdur bgs fl hp lp ov = (m, Err ValueError)) /\
  (forall X B c n crop, shape X = [B; c; n] -> n <> N -> fw_forward fmax m X crop = Err ValueError).
Proof.
  intros [H1 [H2 H3]]. split.
  - intros. unfold fw_fit. rewrite H1. apply Nat.eqb_neq in H. rewrite H. reflexivity.
  - intros X B c n crop SX Hn. unfold fw_forward, call. destruct (built (fw_psd m)); [|reflexivity]. cbn [bind].
    unfold shapes in H3. destruct (bufs (fw_psd m)) as [|[n0 b0] [|? ?]]; cbn in H3; try discriminate. injection H3 as -> _. cbn [assoc]. sd.
    unfold ndim. rewrite SX, H2. cbn [List.length Nat.eqb last]. replace (Z.of_nat n =? Z.of_nat N)%Z with false by lia. reflexivity.
Qed.

(** ** C67: the SpectralDensity module *)
(** a module is created exactly for an overlap below fftlength, a window of int(fftlength sr) samples and average mean or median *)
Theorem spectral_density_create sr fl ov avg window fast n : INR n <= fl * sr < INR n + 1 ->
  (forall w, window = Some w -> exists k, shape w = [k]) ->
  (is_ok (sd_create sr fl ov avg window fast) <->
     (forall o, ov = Some o -> o < fl) /\ (forall w, window = Some w -> shape w = [n]) /\ (avg = "mean" \/ avg = "median")%string) /\
  (~ is_ok (sd_create sr fl ov avg window fast) -> sd_create sr fl ov avg window fast = Err ValueError).
Proof.
  intros Hn Hw. unfold sd_create.
  assert (OV : (exists v, match ov with None => Ok (fl / 2) | Some o => if Rle_dec fl o then Err ValueError else Ok o end = Ok v /\ forall o, ov = Some o -> o < fl) \/
     (match ov with None => Ok (fl / 2) | Some o => if Rle_dec fl o then Err ValueError else Ok o end = Err ValueError /\ exists o, ov = Some o /\ ~ o < fl)).
  { destruct ov as [o|]; [|left; eexists; split; [reflexivity|discriminate]]. destruct (Rle_dec fl o) as [H|H].
    - right. split; [reflexivity|]. exists o. split; [reflexivity|lra].
    - left. eexists. split; [reflexivity|]. intros o' E; injection E as <-. lra. }
  destruct OV as [[v [-> Hov]]|[-> [o [Eo Ho]]]].
  2:{ cbn [bind]. split; [|reflexivity]. split; [intros [? ?]; discriminate|]. intros [H _]. elim Ho. apply H. assumption. }
  cbn [bind]. assert (Z0 := pos_INR n). rewrite rtrunc_lt0 by lra. rewrite (rtrunc_nonneg _ n Hn), Nat2Z.id.
  set (win := match window with Some w => w | None => _ end).
  assert (WN : hd 0%nat (shape win) = n <-> forall w, window = Some w -> shape w = [n]).
  { unfold win. destruct window as [w|]; [|cbn; split; [discriminate|reflexivity]]. destruct (Hw w eq_refl) as [k Ek]. rewrite Ek. cbn. split.
    - intros -> w' E; injection E as <-. assumption.
    - intros H. specialize (H w eq_refl). congruence. }
  destruct (Nat.eqb_spec (hd 0%nat (shape win)) n) as [E|E]; cbn [negb].
  2:{ split; [|reflexivity]. split; [intros [? ?]; discriminate|]. intros [_ [H _]]. elim E. apply WN. assumption. }
  destruct (string_dec avg "mean") as [->|N1].
  { split; [|intros N; elim N; eexists; reflexivity]. split; [|intros _; eexists; reflexivity]. intros _. split; [assumption|]. split; [apply WN; assumption|left; reflexivity]. }
  destruct (string_dec avg "median") as [->|N2].
  { split; [|intros N; elim N; eexists; reflexivity]. split; [|intros _; eexists; reflexivity]. intros _. split; [assumption|]. split; [apply WN; assumption|right; reflexivity]. }
  split; [|reflexivity]. split; [intros [? ?]; discriminate|]. intros [_ [_ [H|H]]]; congruence.
Qed.
Lemma sd_create_ok sr fl ov avg window fast m n v stride w : INR n <= fl * sr < INR n + 1 ->
  sd_create sr fl ov avg window fast = Ok m -> v = match ov with Some o => o | None => fl / 2 end ->
  w = match window with Some w => fun t => elt w [t] | None => hann_window n end -> match window with Some w => shape w = [n] | None => True end ->
  stride = Z.to_nat (Z.of_nat n - rtrunc (v * sr)) ->
  exists win, shape win = [n] /\ (fun t => elt win [t]) = w /\ m = mksd n stride win (1 / (sr * Rsum n (fun t => w t ^ 2))) avg fast.
Proof.
  intros Hn E Hv Hw Ws Hst. unfold sd_create in E. apply bind_ok in E. destruct E as [v' [Ev E]].
  assert (v' = v).
  { destruct ov as [o|]; [destruct (Rle_dec fl o); [discriminate|]|]; congruence. }
  subst v'. assert (Z0 := pos_INR n). rewrite rtrunc_lt0 in E by lra. rewrite (rtrunc_nonneg _ n Hn), Nat2Z.id, <- Hst in E.
  set (win := match window with Some w => w | None => _ end) in E.
  assert (SW : shape win = [n]) by (unfold win; destruct window; [assumption|reflexivity]).
  assert (EW : forall t, elt win [t] = w t) by (intros t; unfold win; rewrite Hw; destruct window; reflexivity).
  clearbody win. exists win. split; [assumption|]. split; [apply functional_extensionality; assumption|].
  assert (SC : Rsum (numel win) (fun k => elt win (unravel (shape win) k) ^ 2) = Rsum n (fun t => w t ^ 2)).
  { unfold numel. rewrite SW. cbn [prod]. rewrite Nat.mul_1_r. apply Rsum_ext. intros t Ht. cbn [unravel prod]. rewrite Nat.div_1_r, EW by assumption. reflexivity. }
  rewrite SC in E. destruct (negb _); [discriminate|]. destruct (string_dec avg "mean"); [congruence|]. destruct (string_dec avg "median"); congruence.
Qed.
(** the exact module computes Welch's estimate with the "density" scaling 1 / (sr sum w^2) and stride n - int(overlap sr) *)
Theorem spectral_density_module sr fl ov avg window m x batch T n v stride w : INR n <= fl * sr < INR n + 1 ->
  sd_create sr fl ov avg window false = Ok m ->
  v = match ov with Some o => o | None => fl / 2 end ->
  w = match window with Some w => fun t => elt w [t] | None => hann_window n end -> match window with Some w => shape w = [n] | None => True end ->
  stride = Z.to_nat (Z.of_nat n - rtrunc (v * sr)) -> (0 < stride)%nat ->
  shape x = batch ++ [T] -> (List.length batch <= 2)%nat -> Forall (fun b => (0 < b)%nat) batch -> (0 < n <= T)%nat ->
  (exists r, sd_forward m x None = Ok r /\ shape r = batch ++ [rbins n] /\
   forall pre f, inb pre batch -> (f < rbins n)%nat ->
     get r (pre ++ [f]) = Some (RtoC (welch (aggregate avg) n stride T w (1 / (sr * Rsum n (fun t => w t ^ 2))) (fun t => elt x (pre ++ [t])) f))) /\
  forall y, sd_forward m x (Some y) = Err NotImplementedError.
Proof.
  intros Hn E Hv Hw Ws Hst Hs Sx Hl Hp HT.
  destruct (sd_create_ok sr fl ov avg window false m n v stride w Hn E Hv Hw Ws Hst) as [win [SW [EW M]]].
  subst m. split; [|reflexivity]. unfold sd_forward. cbn [sd_fast sd_n sd_stride sd_win sd_scale sd_avg].
  destruct (spectral_density_spec x batch T n stride win (1 / (sr * Rsum n (fun t => w t ^ 2))) avg Sx Hl Hp HT Hs SW) as [r [Er [Sr G]]].
  rewrite Er. cbn [bind]. eexists. split; [reflexivity|]. split; [assumption|]. intros pre f Hpre Hf.
  specialize (G pre f Hpre Hf). rewrite EW in G.
  rewrite get_inb by (cbn [tmap shape]; rewrite Sr; apply inb_app; [assumption|cbn; auto]).
  rewrite get_inb in G by (rewrite Sr; apply inb_app; [assumption|cbn; auto]). cbn [tmap elt]. congruence.
Qed.
(** the fast module computes the fast estimate, of the auto- or the cross-density *)
Theorem spectral_density_module_fast sr fl ov avg window m x y batch T n v stride w : INR n <= fl * sr < INR n + 1 ->
  sd_create sr fl ov avg window true = Ok m ->
  v = match ov with Some o => o | None => fl / 2 end ->
  w = match window with Some w => fun t => elt w [t] | None => hann_window n end -> match window with Some w => shape w = [n] | None => True end ->
  stride = Z.to_nat (Z.of_nat n - rtrunc (v * sr)) -> (0 < stride)%nat ->
  shape x = batch ++ [T] -> (List.length batch <= 2)%nat -> Forall (fun b => (0 < b)%nat) batch -> (0 < n <= T)%nat ->
  match y with None => True | Some y => documented_pair (shape x) (shape y) end ->
  exists r, sd_forward m x y = Ok r /\ shape r = batch ++ [rbins n] /\
   forall pre f, inb pre batch -> (f < rbins n)%nat ->
     get r (pre ++ [f]) = Some (fast_csd (aggregate avg) n stride T w (1 / (sr * Rsum n (fun t => w t ^ 2))) (fun t => elt x (pre ++ [t]))
        (match y with None => fun t => elt x (pre ++ [t]) | Some y => fun t => elt y (partner (shape x) (shape y) pre ++ [t]) end) f).
Proof.
  intros Hn E Hv Hw Ws Hst Hs Sx Hl Hp HT Hy.
  destruct (sd_create_ok sr fl ov avg window true m n v stride w Hn E Hv Hw Ws Hst) as [win [SW [EW M]]].
  subst m. unfold sd_forward. cbn [sd_fast sd_n sd_stride sd_win sd_scale sd_avg]. generalize (1 / (sr * Rsum n (fun t => w t ^ 2))). intros scale. rewrite <- EW.
  apply fast_spectral_density_spec; assumption.
Qed.

(** ** the hypotheses can be met *)
Example whiten_module_ex fmax : exists r, whiten_module fmax 1 4 None None (mk [2; 3; 16]%nat (fun i => INR (last i 0%nat))) (mk [3; 9]%nat (fun _ => 1)) true = Ok r /\ shape r = [2; 3; 12]%nat.
Proof.
  destruct (whiten_module_spec fmax 1 4 None None (mk [2; 3; 16]%nat (fun i => INR (last i 0%nat))) (mk [3; 9]%nat (fun _ => 1)) true 2 3 16 4) as [r [E [G _]]];
    try exact I; try reflexivity; cbn; try lra; try lia.
  - apply psd_ok_2d with (pf := 9%nat); [reflexivity|lia|]. intros; cbn; lra.
  - exists r. split; assumption.
Qed.
Example fixed_whiten_ex fmax : exists m m' r, fw_create 3 4 4 = Ok m /\
  fw_fit (fun x => x) m 1 [mk [9%nat] (fun _ => 1); mk [9%nat] (fun _ => 2); mk [9%nat] (fun _ => 3)] None (Some 1) None None = (m', Ok tt) /\
  fw_forward fmax m' (mk [2; 3; 16]%nat (fun i => INR (last i 0%nat))) true = Ok r /\ shape r = [2; 3; 12]%nat.
Proof.
  destruct (fixed_whiten_create 3 4 4 16) as [m [E [F [S4 _]]]]; [cbn; lra|]. exists m.
  set (bgs := [mk [9%nat] (fun _ => 1); mk [9%nat] (fun _ => 2); mk [9%nat] (fun _ => 3)]).
  destruct (fixed_whiten_spec fmax (fun x => x) m 3 16 1 bgs None (Some 1) None None 2 2 (fun c k => INR (c + 1)) (mk [2; 3; 16]%nat (fun i => INR (last i 0%nat))) 2 true)
    as [m' [r [E' [_ [Ef [Sr _]]]]]]; try rewrite S4; try exact I; try reflexivity; try assumption; try (cbn; lra); try lia.
  - intros c Hc. destruct F as [F1 _]. rewrite F1 in Hc.
    assert (SB : shape (nth c bgs (mk [] (fun _ => 0))) = [9%nat]) by (destruct c as [|[|[|?]]]; [reflexivity| | |lia]; reflexivity).
    destruct (normalize_psd_frequency _ 9 4 (rbins 16) None SB ltac:(cbn; lia)) as [p [Ep [_ Gp]]]. rewrite S4. exists p. split; [assumption|].
    intros k Hk. destruct (Gp k Hk) as [-> _]. change (rbins 16) with 9%nat. rewrite Nat.eqb_refl. destruct c as [|[|[|?]]]; [| | |lia]; cbn; lra.
  - exists m', r. repeat split; assumption.
Qed.
Example spectral_density_ex : exists m r, sd_create 8 1 None "median" None false = Ok m /\ sd_forward m (mk [2; 3; 20]%nat (fun i => INR (last i 0%nat))) None = Ok r /\ shape r = [2; 3; 5]%nat.
Proof.
  destruct (spectral_density_create 8 1 None "median" None false 8) as [[_ C] _]; [cbn; lra|discriminate|].
  destruct C as [m Em]; [split; [discriminate|]; split; [discriminate|right; reflexivity]|].
  assert (ST : rtrunc (1 / 2 * 8) = 4%Z) by (apply (rtrunc_nonneg _ 4); cbn; lra).
  destruct (spectral_density_module 8 1 None "median" None m (mk [2; 3; 20]%nat (fun i => INR (last i 0%nat))) [2; 3]%nat 20 8 (1/2) 4 (hann_window 8)) as [[r [E [G _]]] _];
    try exact I; try reflexivity; try assumption; try (cbn; lra); try (cbn; lia).
  - repeat constructor.
  - exists m, r. repeat split; assumption.
Qed.
