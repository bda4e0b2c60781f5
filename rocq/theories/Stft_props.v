(** Property C92: MultiResolutionSpectrogram with torchaudio's Spectrogram. *)
From Coq Require Import String Sorted FunctionalExtensionality.
From Verif Require Import Base Tensor Rutil Slicing_model Norm_model Norm_props Gw_model Gw_props Rescaler_props Qt_model Qt_props Qtr2_props Qtr3_props Qscan_props Mspec_model Mspec_props Dft Spectral_model Spectral_props Psd_props Fastpsd_props Fastpsd2_props Fit_model Fit_props Tone_props Dist_model Stft_model.
From Coquelicot Require Import Complex.
From Verif Require Import Prob Noise_props.
Local Open Scope R_scope.

(** ** specification *)
(** frame t, of n samples around sample t * hop, does not reach over the ends of the series *)
Definition whole (n hop len t : nat) : Prop := (n / 2 <= t * hop /\ t * hop + n <= len + n / 2)%nat.
(** its first sample *)
Definition first_sample (n hop t : nat) : nat := (t * hop - n / 2)%nat.
(** the Hann-windowed power of n samples at frequency f/n, over the energy of the window *)
Definition window_power (n : nat) (x : nat -> R) (f : nat) : R :=
  Cmod (rfft n (fun m => hann n m * x m) f) ^ 2 / Rsum n (fun m => hann n m ^ 2).
(** the spectrogram MultiResolutionSpectrogram uses for n_fft = n, nothing else being given *)
Definition default_spec (n : nat) : spectro := spectrogram n n (n / 2) 0 2 WindowNorm.

(** ** lemmas *)
Lemma hann_pos n : (2 <= n)%nat -> 0 < Rsum n (fun m => hann n m ^ 2).
Proof.
  intros Hn. destruct (Nat.eq_dec n 2) as [->|N].
  - cbn [Rsum]. unfold hann. replace (2 * PI * INR 1 / INR 2) with PI by (cbn; field). rewrite cos_PI. pose proof (pow2_ge_0 ((1 - cos (2 * PI * INR 0 / INR 2)) / 2)). lra.
  - rewrite hann_energy by lia. assert (0 < INR n) by (apply lt_0_INR; lia). lra.
Qed.
Lemma center_full n m : (2 <= n)%nat -> (m < n)%nat -> center_window n n m = hann n m.
Proof.
  intros Hn Hm. unfold center_window. rewrite Nat.sub_diag. change (0 / 2)%nat with 0%nat. replace (m <? 0)%nat with false by lia. replace (m <? 0 + n)%nat with true by lia.
  rewrite Nat.sub_0_r, hann_window_eq by lia. reflexivity.
Qed.
Lemma zpad_0 len x j : (j < len)%nat -> zpad 0 len x j = x j.
Proof. intros H. unfold zpad. replace (j <? 0)%nat with false by lia. replace (j <? 0 + len)%nat with true by lia. rewrite Nat.sub_0_r. reflexivity. Qed.
Lemma default_row n len x f t : (2 <= n)%nat ->
  sp_row (default_spec n) len x f t = window_power n (fun m => reflect (n / 2) (len + 2 * 0) (zpad 0 len x) (t * (n / 2) + m)) f.
Proof.
  intros Hn. unfold default_spec, spectrogram, spec_row. cbn [sp_row]. destruct (Req_EM_T 2 1) as [E|_]; [exfalso; lra|]. destruct (Req_EM_T 2 2) as [_|N]; [|exfalso; lra].
  set (S0 := stft n n (n / 2) _ _ f t). rewrite Cmod_mult, Cmod_R.
  rewrite (Rsum_ext n (fun i => hann_window n i ^ 2) (fun m => hann n m ^ 2)) by (intros; rewrite hann_window_eq by lia; reflexivity).
  assert (P := hann_pos n Hn). set (e := Rsum n _) in *. assert (Q : 0 < sqrt e) by (apply sqrt_lt_R0, P). rewrite Rabs_pos_eq by (left; apply Rinv_0_lt_compat, Q).
  unfold window_power. fold e. rewrite (rfft_ext n (fun m => hann n m * _) (fun m => center_window n n m * reflect (n / 2) (len + 2 * 0) (zpad 0 len x) (t * (n / 2) + m)%nat)) by (intros m Hm; rewrite center_full by assumption; reflexivity).
  change (rfft n (fun m => center_window n n m * reflect (n / 2) (len + 2 * 0) (zpad 0 len x) (t * (n / 2) + m)%nat) f) with S0.
  assert (E : e = sqrt e * sqrt e) by (symmetry; apply sqrt_sqrt; lra). rewrite E at 3. field. lra.
Qed.
Lemma wp_ext n x y f : (forall m, (m < n)%nat -> x m = y m) -> window_power n x f = window_power n y f.
Proof. intros H. unfold window_power. rewrite (rfft_ext n _ (fun m => hann n m * y m)); [reflexivity|]. intros m Hm. rewrite H by exact Hm. reflexivity. Qed.
(** a frame inside the series: the windowed power of its samples *)
Theorem default_whole n len x f t : (2 <= n)%nat -> whole n (n / 2) len t ->
  sp_row (default_spec n) len x f t = window_power n (fun m => x (first_sample n (n / 2) t + m)%nat) f.
Proof.
  intros Hn [H1 H2]. rewrite default_row by exact Hn. apply wp_ext. intros m Hm. rewrite Nat.mul_0_r, Nat.add_0_r. unfold reflect, first_sample.
  assert (D := Nat.div_mod n 2 ltac:(lia)). set (q := (n / 2)%nat) in *. clearbody q.
  replace (t * q + m <? q)%nat with false by (symmetry; apply Nat.ltb_ge; lia). replace (t * q + m <? q + len)%nat with true by (symmetry; apply Nat.ltb_lt; lia).
  rewrite zpad_0 by lia. f_equal. lia.
Qed.
(** ** every bin is the scalar product with a unit vector: it does not exceed the energy of the frame *)
Lemma wp_nonneg n x f : (2 <= n)%nat -> 0 <= window_power n x f.
Proof. intros Hn. unfold window_power. apply Rmult_le_pos; [apply pow2_ge_0|left; apply Rinv_0_lt_compat, hann_pos, Hn]. Qed.
Lemma wp_energy n x f : (2 <= n)%nat -> window_power n x f <= Rsum n (fun m => x m ^ 2).
Proof.
  intros Hn. unfold window_power. assert (P := hann_pos n Hn). apply (Rmult_le_reg_r (Rsum n (fun m => hann n m ^ 2))); [exact P|]. unfold Rdiv. rewrite Rmult_assoc, Rinv_l, Rmult_1_r by lra.
  unfold rfft, dft. rewrite (Csum_ext n _ (fun m => Cmult (Cconj (RtoC (hann n m))) (Cmult (RtoC (x m)) (w n (- (Z.of_nat f * Z.of_nat m)))))).
  - eapply Rle_trans; [apply Csum_CS|]. rewrite (Rmult_comm (Rsum n (fun m => x m ^ 2))). apply Req_le. f_equal; [apply Rsum_ext; intros m _; rewrite Cmod_R, <- !Rsqr_pow2; symmetry; apply Rsqr_abs|]. apply Rsum_ext. intros m _. rewrite Cmod_mult, Cmod_R, w_mod, Rmult_1_r. rewrite <- !Rsqr_pow2. symmetry. apply Rsqr_abs.
  - intros m _. rewrite RtoC_mult. unfold Cmult, Cconj, RtoC; cbn. f_equal; ring.
Qed.

(** ** white noise: on average every bin of every whole frame of every resolution is the variance, thanks to the normalization *)
Theorem noise_level {A} (d : dist A) (s : A -> nat -> R) len sigma n f t : white_noise d s len sigma -> (2 <= n)%nat -> whole n (n / 2) len t ->
  expect d (fun a => sp_row (default_spec n) len (s a) f t) = sigma ^ 2.
Proof.
  intros W Hn HW. assert (P := hann_pos n Hn). set (o := first_sample n (n / 2) t).
  rewrite (expect_ext d _ (fun a => / Rsum n (fun m => hann n m ^ 2) * Cmod (rfft n (fun m => hann n m * (fun a m => s a (o + m)%nat) a m) f) ^ 2)).
  - rewrite expect_scal, (expect_power d n (hann n) (fun a m => s a (o + m)%nat) sigma 0 f); [field; lra|].
    intros i j Hi Hj. destruct HW as [H1 H2]. unfold o, first_sample. assert (D := Nat.div_mod n 2 ltac:(lia)). set (q := (n / 2)%nat) in *. clearbody q.
    rewrite W by lia. destruct (Nat.eqb_spec i j) as [->|N]; [rewrite Nat.eqb_refl; ring|]. replace (t * q - q + i =? t * q - q + j)%nat with false by (symmetry; apply Nat.eqb_neq; lia). ring.
  - intros w0 a _. rewrite default_whole by assumption. unfold window_power. fold o. unfold Rdiv. apply Rmult_comm.
Qed.
(** without the normalization the level is 3 n / 8 times the variance: resolutions would not be comparable *)
Theorem noise_level_unnormalized {A} (d : dist A) (s : A -> nat -> R) len sigma n f t : white_noise d s len sigma -> (3 <= n)%nat -> whole n (n / 2) len t ->
  expect d (fun a => sp_row (spectrogram n n (n / 2) 0 2 NoNorm) len (s a) f t) = 3 * INR n / 8 * sigma ^ 2.
Proof.
  intros W Hn HW. rewrite <- (noise_level d s len sigma n f t W ltac:(lia) HW). rewrite <- expect_scal. apply expect_ext. intros w0 a _.
  assert (P := hann_pos n ltac:(lia)). assert (HE := hann_energy n Hn).
  unfold default_spec, spectrogram, spec_row. cbn [sp_row]. destruct (Req_EM_T 2 1) as [E|_]; [exfalso; lra|]. destruct (Req_EM_T 2 2) as [_|N]; [|exfalso; lra].
  set (S0 := stft n n (n / 2) _ _ f t). rewrite !Cmod_mult, !Cmod_R, Rabs_R1.
  rewrite (Rsum_ext n (fun i => hann_window n i ^ 2) (fun m => hann n m ^ 2)) by (intros; rewrite hann_window_eq by lia; reflexivity). rewrite HE. rewrite HE in P.
  set (e := 3 * INR n / 8) in *. assert (Q : 0 < sqrt e) by (apply sqrt_lt_R0, P). rewrite Rabs_pos_eq by (left; apply Rinv_0_lt_compat, Q).
  assert (E : e = sqrt e * sqrt e) by (symmetry; apply sqrt_sqrt; lra). rewrite E at 1. field. lra.
Qed.
(** ** a sinusoid of frequency k0/n: A^2 n / 6 in its own bin, a quarter of that in the two neighbours, nothing elsewhere *)
Theorem tone_level n k0 amp phi len f t : (2 <= k0)%nat -> (2 * (k0 + 1) < n)%nat -> (f < rbins n)%nat -> whole n (n / 2) len t ->
  sp_row (default_spec n) len (tone n k0 amp phi) f t = amp ^ 2 * INR n / 4 * share k0 f.
Proof.
  intros H2 Hn Hf HW. rewrite default_whole by (try assumption; lia). unfold window_power. rewrite hann_energy by lia.
  destruct (tone_seg n k0 amp phi (first_sample n (n / 2) t) f H2 Hn Hf) as (u & E & U2 & _). rewrite E, Cmod_mult, cis_mod, Cmod_R, Rmult_1_l.
  rewrite <- Rsqr_pow2, <- Rsqr_abs, Rsqr_pow2. assert (0 < INR n) by (apply lt_0_INR; lia).
  replace ((amp * INR n * u) ^ 2) with (amp ^ 2 * INR n ^ 2 * u ^ 2) by ring. rewrite U2. field. lra.
Qed.
(** ** scaling *)
Lemma default_scale n len x c f t : (2 <= n)%nat -> (n / 2 < len)%nat -> sp_row (default_spec n) len (fun k => c * x k) f t = c ^ 2 * sp_row (default_spec n) len x f t.
Proof.
  intros Hn HL. rewrite !default_row by exact Hn. unfold window_power.
  rewrite (rfft_ext n (fun m => hann n m * reflect (n / 2) (len + 2 * 0) (zpad 0 len (fun k => c * x k)) (t * (n / 2) + m)%nat) (fun m => c * (hann n m * reflect (n / 2) (len + 2 * 0) (zpad 0 len x) (t * (n / 2) + m)%nat))).
  - rewrite rfft_scal, Cmod_mult, Cmod_R. replace ((Rabs c * _) ^ 2) with (Rabs c ^ 2 * Cmod (rfft n (fun t0 => hann n t0 * reflect (n / 2) (len + 2 * 0) (zpad 0 len x) (t * (n / 2) + t0)%nat) f) ^ 2) by ring.
    rewrite <- (Rsqr_pow2 (Rabs c)), <- Rsqr_abs, Rsqr_pow2. unfold Rdiv. ring.
  - intros m Hm. assert (Z : forall j, zpad 0 len (fun k => c * x k) j = c * zpad 0 len x j) by (intros j; unfold zpad; destruct (j <? 0)%nat; [ring|]; destruct (j <? 0 + len)%nat; ring).
    unfold reflect. rewrite !Z. destruct (_ <? _)%nat; [ring|]. destruct (_ <? _)%nat; ring.
Qed.
Lemma reflect_bound r len x j : (r < len)%nat -> (j < len + 2 * r)%nat -> exists k, (k < len)%nat /\ reflect r len x j = x k.
Proof.
  intros H Hj. unfold reflect. destruct (Nat.ltb_spec j r); [exists (r - j)%nat; split; [lia|reflexivity]|]. destruct (Nat.ltb_spec j (r + len)); [exists (j - r)%nat|exists (2 * (len - 1) - (j - r))%nat]; split; try reflexivity; lia.
Qed.

(** ** construction from a list of n_fft *)
Definition nfft (ns : list nat) : list (string * list kwv) := [("n_fft"%string, map (fun n => KInt (Z.of_nat n)) ns)].
Lemma spectro_nfft T n : (2 <= n)%nat -> (n / 2 < T)%nat ->
  spectro_of T [("n_fft"%string, KInt (Z.of_nat n)); ("normalized"%string, KBool true)] = Ok (default_spec n).
Proof.
  intros Hn HT. unfold spectro_of. cbn [forallb fst]. change (known "n_fft") with true. change (known "normalized") with true. cbn [andb negb].
  change (klookup "n_fft" _) with (Some (KInt (Z.of_nat n))). change (klookup "win_length" _) with (@None kwv). change (klookup "hop_length" _) with (@None kwv). change (klookup "pad" _) with (@None kwv). change (klookup "power" _) with (@None kwv). change (klookup "normalized" _) with (Some (KBool true)).
  cbn [kint bind kpower knorm]. rewrite Nat.mul_0_r, Nat.add_0_r. assert (E : (Z.of_nat n / 2 = Z.of_nat (n / 2))%Z) by (rewrite Nat2Z.inj_div; reflexivity). rewrite E.
  assert (1 <= n / 2)%nat by (apply Nat.div_le_lower_bound; lia).
  replace (Z.of_nat n <? 0)%Z with false by lia. replace (Z.of_nat n <? 1)%Z with false by lia. replace (Z.of_nat T <=? Z.of_nat (n / 2))%Z with false by lia. replace (Z.of_nat n <? Z.of_nat n)%Z with false by lia. replace (Z.of_nat (n / 2) <? 1)%Z with false by lia.
  cbn [orb]. rewrite !Nat2Z.id. reflexivity.
Qed.
Lemma nfft_cols ns : ns <> [] -> List.length ns = 1%nat \/ one_first (List.length ns) ->
  format_kwargs (nfft ns ++ [("normalized"%string, [KBool true])]) = Ok (map (fun n => [("n_fft"%string, KInt (Z.of_nat n)); ("normalized"%string, KBool true)]) ns).
Proof.
  intros NE HL. set (K := List.length ns) in *. assert (HK : (0 < K)%nat) by (unfold K; destruct ns; cbn; [congruence|lia]).
  destruct (kwargs_spec (nfft ns ++ [("normalized"%string, [KBool true])]) K) as (cols & E & LE & CF); [discriminate|exact HK| | | |].
  - intros kv [<-|[<-|[]]]; cbn [snd]; [right; apply map_length|left; reflexivity].
  - exists (hd ("n_fft"%string, []) (nfft ns)). split; [left; reflexivity|]. cbn [nfft hd snd]. apply map_length.
  - destruct HL as [H1|H1]; [left|right; exact H1]. intros kv [<-|[<-|[]]]; cbn [snd]; [apply map_length|]. cbn [List.length]. lia.
  - rewrite E. f_equal. apply (nth_ext _ _ [] []); [rewrite LE, map_length; reflexivity|]. intros j Hj. rewrite LE in Hj.
    assert (N := nth_error_nth' cols [] (n := j) ltac:(lia)). specialize (CF j _ N). unfold config in CF. cbn [nfft app] in CF.
    inversion CF as [|? [k1 v1] ? l1 [A1 B1] CF1]; subst. inversion CF1 as [|? [k2 v2] ? l2 [A2 B2] CF2]; subst. inversion CF2; subst. cbn [fst snd List.length] in *.
    rewrite Nat.eqb_refl in B2. cbn in B2. injection B2 as <-. rewrite map_length in B1. fold K in B1.
    replace (if (K =? 1)%nat then 0%nat else j) with j in B1 by (destruct (Nat.eqb_spec K 1); lia). rewrite nth_error_map in B1. destruct (nth_error ns j) as [n|] eqn:En; [|discriminate]. cbn in B1. injection B1 as <-.
    symmetry. apply nth_error_nth. rewrite nth_error_map, En, A1, A2. reflexivity.
Qed.
(** the reflected frame *)
Definition frame (n len : nat) (x : nat -> R) (t m : nat) : R := reflect (n / 2) len x (t * (n / 2) + m).
(** MultiResolutionSpectrogram(kernel_length, sample_rate, n_fft=ns) on a (B, C, T) batch: every value is the largest of the windowed powers of
    the resolutions, read at the nearest lower bin *)
Theorem mrs_nfft kl sr (T : nat) ns : kl * sr = INR T -> ns <> [] -> List.length ns = 1%nat \/ one_first (List.length ns) ->
  (forall n, In n ns -> (2 <= n)%nat /\ (n / 2 < T)%nat) ->
  exists m M N, mrs_torchaudio kl sr (nfft ns) = Ok m /\ mr_specs m = map default_spec ns /\ mr_nf m = M /\ mr_nt m = N /\ Mspec_props.built m T /\
    (forall n, In n ns -> (rbins n <= M /\ stft_frames n (n / 2) T <= N)%nat) /\ (exists n, In n ns /\ rbins n = M) /\ (exists n, In n ns /\ stft_frames n (n / 2) T = N) /\
    forall X pre, shape X = pre ++ [T] ->
      exists out, mrs_forward m X = Ok out /\ shape out = pre ++ [M; N] /\
        forall i f t, inb i pre -> (f < M)%nat -> (t < N)%nat ->
          exists v, get out (i ++ [f; t]) = Some v /\
            is_max (fun u => exists n, In n ns /\ u = window_power n (frame n T (fun j => elt X (i ++ [j])) (t * stft_frames n (n / 2) T / N)) (f * rbins n / M)) v.
Proof.
  intros HT NE HL HN. assert (Hpos : 0 <= kl * sr) by (rewrite HT; apply pos_INR).
  assert (ER : Z.to_nat (rtrunc (kl * sr)) = T). { rewrite HT. unfold rtrunc. destruct (Rle_dec 0 (INR T)) as [_|C]; [|exfalso; apply C, pos_INR]. rewrite INR_IZR_INZ. rewrite (Int_part_unique (Z.of_nat T) (IZR (Z.of_nat T))) by lra. apply Nat2Z.id. }
  destruct (mrs_construction truthy (KBool true) (spectro_of (Z.to_nat (rtrunc (kl * sr)))) kl sr (nfft ns) Hpos) as (CB & _ & CN & _).
  destruct (CN (map (fun n => [("n_fft"%string, KInt (Z.of_nat n)); ("normalized"%string, KBool true)]) ns) (map default_spec ns)) as (m & Em & Es).
  - intros kv [<-|[]]. discriminate.
  - apply nfft_cols; assumption.
  - destruct ns; [congruence|discriminate].
  - rewrite map_map. apply sequence_map_ok. intros n Hn. rewrite ER. apply spectro_nfft; apply HN, Hn.
  - destruct (CB m Em) as [Bm Sm]. rewrite ER in Bm. destruct (Bm) as (_ & _ & LE & (t1 & I1 & F1) & (t2 & I2 & F2)). rewrite Es in I1, I2, LE.
    apply in_map_iff in I1 as (n1 & <- & I1). apply in_map_iff in I2 as (n2 & <- & I2).
    assert (SN : forall n, sp_nf (default_spec n) = rbins n /\ sp_nt (default_spec n) T = stft_frames n (n / 2) T) by (intros n; cbn [default_spec spectrogram sp_nf sp_nt]; rewrite Nat.mul_0_r, Nat.add_0_r; auto).
    exists m, (mr_nf m), (mr_nt m). split; [exact Em|]. split; [exact Es|]. split; [reflexivity|]. split; [reflexivity|]. split; [exact Bm|].
    split; [intros n In_; specialize (LE _ (in_map default_spec _ _ In_)); destruct (SN n) as [A B]; rewrite A, B in LE; exact LE|].
    split; [exists n1; destruct (SN n1) as [A B]; rewrite A in F1; auto|]. split; [exists n2; destruct (SN n2) as [A B]; rewrite B in F2; auto|].
    intros X pre SX. destruct (mrs_forward_spec m X pre T Bm) as (out & Eo & So & V).
    + intros t It. rewrite Es in It. apply in_map_iff in It as (n & <- & In_). destruct (SN n) as [A B]. rewrite A, B. unfold rbins, stft_frames. rewrite !Nat.add_1_r. split; apply Nat.lt_0_succ.
    + exact SX.
    + rewrite Sm. symmetry. exact HT.
    + exists out. split; [exact Eo|]. split; [exact So|]. intros i f t Hi Hf Ht. destruct (V i f t Hi Hf Ht) as (v & Ev & Mv). exists v. split; [exact Ev|].
      assert (EQ : forall n, In n ns -> bin_of (default_spec n) (mr_nf m) (mr_nt m) T (fun j => elt X (i ++ [j])) f t = window_power n (frame n T (fun j => elt X (i ++ [j])) (t * stft_frames n (n / 2) T / mr_nt m)) (f * rbins n / mr_nf m)).
      { intros n In_. unfold bin_of. destruct (HN n In_) as [H2 HTn]. rewrite default_row by exact H2. destruct (SN n) as [A B]. rewrite A, B. unfold remap. rewrite Nat.mul_0_r, Nat.add_0_r.
        set (s := (t * stft_frames n (n / 2) T / mr_nt m)%nat).
        assert (Hs : (s < stft_frames n (n / 2) T)%nat). { destruct (LE _ (in_map default_spec _ _ In_)) as [_ L2]. rewrite B in L2. unfold s. apply Nat.div_lt_upper_bound; [lia|]. apply Nat.mul_lt_mono_pos_r; [unfold stft_frames; lia|exact Ht]. }
        apply wp_ext. intros k Hk. unfold frame.
        assert (Hj : (s * (n / 2) + k < T + 2 * (n / 2))%nat).
        { unfold stft_frames in Hs. assert (s <= (T + 2 * (n / 2) - n) / (n / 2))%nat by lia. assert (1 <= n / 2)%nat by (apply Nat.div_le_lower_bound; lia).
          assert (D := Nat.div_mod n 2 ltac:(lia)). assert (DM := Nat.mul_div_le (T + 2 * (n / 2) - n) (n / 2) ltac:(lia)). nia. }
        unfold reflect. destruct (Nat.ltb_spec (s * (n / 2) + k) (n / 2)); [apply zpad_0; lia|]. destruct (Nat.ltb_spec (s * (n / 2) + k) (n / 2 + T)); apply zpad_0; lia. }
      destruct Mv as [[tt [It ->]] Mv]. rewrite Es in It. apply in_map_iff in It as (n & <- & In_). split; [exists n; split; [exact In_|apply EQ, In_]|].
      intros u (n' & In' & ->). rewrite <- (EQ n' In'). apply Mv. exists (default_spec n'). rewrite Es. split; [apply in_map, In'|reflexivity].
Qed.
(** which sample of the series is read at place m of frame t: p = t * (n/2) + m - n/2, mirrored at the first and at the last sample *)
Theorem frame_samples n T x t m : (n / 2 < T)%nat -> (t < stft_frames n (n / 2) T)%nat -> (2 <= n)%nat -> (m < n)%nat ->
  exists k, (k < T)%nat /\ frame n T x t m = x k /\
    let p := (Z.of_nat (t * (n / 2) + m) - Z.of_nat (n / 2))%Z in
    Z.of_nat k = if (p <? 0)%Z then (- p)%Z else if (p <? Z.of_nat T)%Z then p else (2 * (Z.of_nat T - 1) - p)%Z.
Proof.
  intros HT Hs Hn Hm. unfold frame, stft_frames in *. assert (1 <= n / 2)%nat by (apply Nat.div_le_lower_bound; lia). assert (D := Nat.div_mod n 2 ltac:(lia)).
  assert (Hj : (t * (n / 2) + m < T + 2 * (n / 2))%nat).
  { assert (t <= (T + 2 * (n / 2) - n) / (n / 2))%nat by lia. assert (DM := Nat.mul_div_le (T + 2 * (n / 2) - n) (n / 2) ltac:(lia)). nia. }
  generalize dependent (t * (n / 2) + m)%nat. intros j Hj. unfold reflect. set (q := (n / 2)%nat) in *. clearbody q. clear Hs.
  destruct (Nat.ltb_spec j q); [exists (q - j)%nat; split; [lia|]; split; [reflexivity|]; cbv zeta; replace (_ <? 0)%Z with true by lia; lia|].
  destruct (Nat.ltb_spec j (q + T)); [exists (j - q)%nat|exists (2 * (T - 1) - (j - q))%nat]; (split; [lia|]; split; [reflexivity|]; cbv zeta; replace (_ <? 0)%Z with false by lia).
  - replace (_ <? Z.of_nat T)%Z with true by lia. lia.
  - replace (_ <? Z.of_nat T)%Z with false by lia. lia.
Qed.
(** every value is between 0 and the energy of a frame *)
Theorem mrs_energy kl sr (T : nat) ns m X pre out i f t : kl * sr = INR T -> ns <> [] -> List.length ns = 1%nat \/ one_first (List.length ns) ->
  (forall n, In n ns -> (2 <= n)%nat /\ (n / 2 < T)%nat) -> mrs_torchaudio kl sr (nfft ns) = Ok m -> shape X = pre ++ [T] -> mrs_forward m X = Ok out ->
  inb i pre -> (f < mr_nf m)%nat -> (t < mr_nt m)%nat ->
  exists v n s, get out (i ++ [f; t]) = Some v /\ In n ns /\ (s < stft_frames n (n / 2) T)%nat /\ 0 <= v <= Rsum n (fun k => frame n T (fun j => elt X (i ++ [j])) s k ^ 2).
Proof.
  intros HT NE HL HN Em SX Eo Hi Hf Ht. destruct (mrs_nfft kl sr T ns HT NE HL HN) as (m' & M & N & Em' & _ & EM & EN & _ & LE & _ & _ & F). rewrite Em in Em'. injection Em' as <-.
  destruct (F X pre SX) as (o & Eo' & _ & V). rewrite Eo in Eo'. injection Eo' as <-. rewrite EM in Hf. rewrite EN in Ht. destruct (V i f t Hi Hf Ht) as (v & Ev & [(n & In_ & ->) _]).
  destruct (HN n In_) as [H2 _]. eexists _, n, (t * stft_frames n (n / 2) T / N)%nat. split; [exact Ev|]. split; [exact In_|]. split.
  - destruct (LE n In_) as [_ L]. apply Nat.div_lt_upper_bound; [lia|]. apply Nat.mul_lt_mono_pos_r; [unfold stft_frames; rewrite Nat.add_1_r; apply Nat.lt_0_succ|exact Ht].
  - split; [apply wp_nonneg, H2|apply wp_energy, H2].
Qed.
(** c times the series: c^2 times the spectrogram *)
Theorem mrs_scale kl sr (T : nat) ns m X pre c out : kl * sr = INR T -> ns <> [] -> List.length ns = 1%nat \/ one_first (List.length ns) ->
  (forall n, In n ns -> (2 <= n)%nat /\ (n / 2 < T)%nat) -> mrs_torchaudio kl sr (nfft ns) = Ok m -> shape X = pre ++ [T] -> mrs_forward m X = Ok out ->
  exists out', mrs_forward m (mk (shape X) (fun i => c * elt X i)) = Ok out' /\ shape out' = shape out /\
    forall i f t v, inb i pre -> (f < mr_nf m)%nat -> (t < mr_nt m)%nat -> get out (i ++ [f; t]) = Some v -> get out' (i ++ [f; t]) = Some (c ^ 2 * v).
Proof.
  intros HT NE HL HN Em SX Eo. destruct (mrs_nfft kl sr T ns HT NE HL HN) as (m' & M & N & Em' & _ & EM & EN & _ & _ & _ & _ & F). rewrite Em in Em'. injection Em' as <-.
  destruct (F X pre SX) as (o & Eo' & So & V). rewrite Eo in Eo'. injection Eo' as <-.
  destruct (F (mk (shape X) (fun i => c * elt X i)) pre SX) as (out' & Eo' & So' & V'). exists out'. split; [exact Eo'|]. split; [congruence|].
  intros i f t v Hi Hf Ht Hv. rewrite EM in Hf. rewrite EN in Ht. destruct (V i f t Hi Hf Ht) as (v1 & E1 & [(n & In_ & A) B]). destruct (V' i f t Hi Hf Ht) as (v2 & E2 & [(n' & In' & A') B']).
  rewrite Hv in E1. injection E1 as <-. rewrite E2. f_equal. cbn [elt] in A', B'.
  assert (K : forall k, In k ns -> window_power k (frame k T (fun j => c * elt X (i ++ [j])) (t * stft_frames k (k / 2) T / N)) (f * rbins k / M) = c ^ 2 * window_power k (frame k T (fun j => elt X (i ++ [j])) (t * stft_frames k (k / 2) T / N)) (f * rbins k / M)).
  { intros k Ik. unfold window_power. rewrite (rfft_ext k _ (fun m0 => c * (hann k m0 * frame k T (fun j => elt X (i ++ [j])) (t * stft_frames k (k / 2) T / N) m0))).
    - rewrite rfft_scal, Cmod_mult, Cmod_R, Rpow_mult_distr, <- (Rsqr_pow2 (Rabs c)), <- Rsqr_abs, Rsqr_pow2. unfold Rdiv. ring.
    - intros m0 _. unfold frame, reflect. destruct (_ <? _)%nat; [ring|]. destruct (_ <? _)%nat; ring. }
  apply Rle_antisym.
  - rewrite A', K by exact In'. apply Rmult_le_compat_l; [apply pow2_ge_0|]. apply B. exists n'. auto.
  - rewrite A. rewrite <- K by exact In_. apply B'. exists n. auto.
Qed.
Lemma expect_le {A} (d : dist A) f g : (forall w a, In (w, a) d -> 0 <= w) -> (forall w a, In (w, a) d -> f a <= g a) -> expect d f <= expect d g.
Proof.
  unfold expect. induction d as [|[w a] d IH]; intros Hw H; cbn [lsum fst snd]; [lra|]. specialize (IH ltac:(intros; eapply Hw; right; eassumption) ltac:(intros; eapply H; right; eassumption)).
  pose proof (Hw w a (or_introl eq_refl)). pose proof (H w a (or_introl eq_refl)). nra.
Qed.
(** white noise: the combined spectrogram is on average at least the variance, wherever one of the resolutions has a whole frame *)
Theorem mrs_noise {A} (d : dist A) (X out : A -> tensor R) kl sr (T : nat) ns m pre sigma i f t n : kl * sr = INR T -> ns <> [] -> List.length ns = 1%nat \/ one_first (List.length ns) ->
  (forall n, In n ns -> (2 <= n)%nat /\ (n / 2 < T)%nat) -> mrs_torchaudio kl sr (nfft ns) = Ok m ->
  (forall w a, In (w, a) d -> 0 <= w) -> (forall a, shape (X a) = pre ++ [T] /\ mrs_forward m (X a) = Ok (out a)) ->
  inb i pre -> (f < mr_nf m)%nat -> (t < mr_nt m)%nat -> white_noise d (fun a j => elt (X a) (i ++ [j])) T sigma ->
  In n ns -> whole n (n / 2) T (t * stft_frames n (n / 2) T / mr_nt m) ->
  sigma ^ 2 <= expect d (fun a => elt (out a) (i ++ [f; t])).
Proof.
  intros HT NE HL HN Em Hw HX Hi Hf Ht W In_ HF. destruct (mrs_nfft kl sr T ns HT NE HL HN) as (m' & M & N & Em' & _ & EM & EN & _ & _ & _ & _ & F). rewrite Em in Em'. injection Em' as <-.
  destruct (HN n In_) as [H2 HTn]. rewrite <- (noise_level d _ T sigma n (f * rbins n / M) _ W H2 HF). apply expect_le; [exact Hw|]. intros w a _. destruct (HX a) as [SX Eo].
  destruct (F (X a) pre SX) as (o & Eo' & So & V). rewrite Eo in Eo'. injection Eo' as <-. rewrite EM in Hf. rewrite EN in Ht. destruct (V i f t Hi Hf Ht) as (v & Ev & [_ B]).
  apply get_some in Ev as [_ Ev]. rewrite Ev. apply B. exists n. split; [exact In_|]. rewrite default_whole by assumption. rewrite EN. apply wp_ext. intros k Hk.
  destruct HF as [F1 F2]. rewrite EN in F1, F2. generalize dependent (t * stft_frames n (n / 2) T / N)%nat. intros s F1 F2. unfold frame, reflect, first_sample.
  assert (D := Nat.div_mod n 2 ltac:(lia)). set (q := (n / 2)%nat) in *. clearbody q. replace (s * q + k <? q)%nat with false by (symmetry; apply Nat.ltb_ge; lia). replace (s * q + k <? q + T)%nat with true by (symmetry; apply Nat.ltb_lt; lia).
  f_equal. f_equal. f_equal. lia.
Qed.
(** two resolutions of an 8-sample series *)
Example two_resolutions : exists m, mrs_torchaudio 8 1 (nfft [4; 8]%nat) = Ok m /\ mr_nf m = 5%nat /\ mr_nt m = 5%nat.
Proof.
  destruct (mrs_nfft 8 1 8 [4; 8]%nat) as (m & M & N & Em & _ & EM & EN & _ & LE & (n1 & I1 & F1) & (n2 & I2 & F2) & _); [cbn; lra|discriminate|right; split; [discriminate|discriminate]|intros n [<-|[<-|[]]]; cbn; lia|].
  exists m. split; [exact Em|]. rewrite EM, EN. split; [rewrite <- F1|rewrite <- F2].
  - destruct (LE 8%nat ltac:(right; left; reflexivity)) as [L _]. destruct I1 as [<-|[<-|[]]]; [|reflexivity]. rewrite <- F1 in L. exfalso. revert L. apply Nat.nle_gt. vm_compute. repeat constructor.
  - destruct (LE 4%nat ltac:(left; reflexivity)) as [_ L]. destruct I2 as [<-|[<-|[]]]; [reflexivity|]. rewrite <- F2 in L. exfalso. revert L. apply Nat.nle_gt. vm_compute. repeat constructor.
Qed.
(** the reflection needs more than n_fft / 2 samples *)
Theorem mrs_short_refused kl sr (T : nat) n : kl * sr = INR T -> (2 <= n)%nat -> (T <= n / 2)%nat -> mrs_torchaudio kl sr (nfft [n]) = Err RuntimeError.
Proof.
  intros HT Hn HS. assert (ER : Z.to_nat (rtrunc (kl * sr)) = T). { rewrite HT. unfold rtrunc. destruct (Rle_dec 0 (INR T)) as [_|C]; [|exfalso; apply C, pos_INR]. rewrite INR_IZR_INZ. rewrite (Int_part_unique (Z.of_nat T) (IZR (Z.of_nat T))) by lra. apply Nat2Z.id. }
  unfold mrs_torchaudio, mrs_create. change (add_normalized truthy (KBool true) (nfft [n])) with (Ok (nfft [n] ++ [("normalized"%string, [KBool true])])). cbn [bind].
  rewrite nfft_cols by (try discriminate; left; reflexivity). cbn [bind map sequence]. rewrite ER. unfold spectro_of. cbn [forallb fst]. change (known "n_fft") with true. change (known "normalized") with true. cbn [andb negb].
  change (klookup "n_fft" _) with (Some (KInt (Z.of_nat n))). change (klookup "win_length" _) with (@None kwv). change (klookup "hop_length" _) with (@None kwv). change (klookup "pad" _) with (@None kwv). change (klookup "power" _) with (@None kwv). change (klookup "normalized" _) with (Some (KBool true)).
  cbn [kint bind kpower knorm]. rewrite Nat.mul_0_r, Nat.add_0_r. assert (E : (Z.of_nat n / 2 = Z.of_nat (n / 2))%Z) by (rewrite Nat2Z.inj_div; reflexivity). rewrite E.
  replace (Z.of_nat n <? 0)%Z with false by lia. replace (Z.of_nat n <? 1)%Z with false by lia. replace (Z.of_nat T <=? Z.of_nat (n / 2))%Z with true by lia. reflexivity.
Qed.
