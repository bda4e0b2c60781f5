(** Property C84: the spectral density of a sinusoid. *)
From Coq Require Import String Permutation Sorted FunctionalExtensionality.
From Verif Require Import Base Tensor Rutil Bcast Slicing_model Slicing_proofs Streaming_model Norm_model Norm_props Gw_model Gw_props Dft Snr_props Spectral_model Spectral_props Psd_props Fastpsd_props Fastpsd2_props Whiten_props Fit_model Fit_props Scaler_props Rescaler_props WhitenMod_props.
From Coquelicot Require Import Complex.
Local Open Scope R_scope.

(** ** specification *)
(** the sinusoid of amplitude A with k0 cycles every n samples *)
Definition tone (n k0 : nat) (A phi : R) (t : nat) : R := A * cos (2 * PI * INR k0 * INR t / INR n + phi).
(** the share of the power of the sinusoid found in bin f: two thirds in its own bin, one sixth in each neighbour *)
Definition share (k0 f : nat) : R := if (f =? k0)%nat then 2 / 3 else if (f + 1 =? k0)%nat then 1 / 6 else if (f =? k0 + 1)%nat then 1 / 6 else 0.
(** the median of N equal values is divided by the partial alternating harmonic sum 1 - 1/2 + 1/3 - ... (N terms, or N - 1 if N is even) *)
Definition avg_bias (avg : string) (N : nat) : R :=
  if string_dec avg "mean" then 1 else Rsum (if Nat.odd N then N else N - 1) (fun k => (-1) ^ k / INR (k + 1)).

(** ** lemmas *)
Lemma small_mod n a : (- Z.of_nat n < a < Z.of_nat n)%Z -> (a mod Z.of_nat n =? 0)%Z = (a =? 0)%Z.
Proof.
  intros H. destruct (Z.eqb_spec a 0) as [->|E]; [rewrite Z.mod_0_l by lia; reflexivity|].
  apply Z.eqb_neq. intros F. apply Z.mod_divide in F; [|lia]. destruct F as [q F]. assert (q = 0 \/ q <= -1 \/ 1 <= q)%Z by lia. nia.
Qed.
Lemma w_sum n a : (- Z.of_nat n < a < Z.of_nat n)%Z -> Csum n (fun t => w n (Z.of_nat t * a)) = RtoC (if (a =? 0)%Z then INR n else 0).
Proof.
  intros H. assert (Hn : (0 < n)%nat) by lia. rewrite w_orth by assumption. rewrite small_mod by assumption. destruct (a =? 0)%Z; reflexivity.
Qed.
Lemma tone_cis n k0 A phi off t c : (0 < n)%nat -> c = cis (2 * PI * INR k0 * INR off / INR n + phi) ->
  RtoC (tone n k0 A phi (off + t)) =
  Cmult (RtoC (A / 2)) (Cplus (Cmult c (w n (Z.of_nat t * Z.of_nat k0))) (Cmult (Cconj c) (w n (Z.of_nat t * - Z.of_nat k0)))).
Proof.
  intros Hn Hc. assert (N : INR n <> 0) by (apply not_0_INR; lia).
  replace (Z.of_nat t * - Z.of_nat k0)%Z with (- (Z.of_nat t * Z.of_nat k0))%Z by lia. rewrite w_opp.
  assert (E : w n (Z.of_nat t * Z.of_nat k0) = cis (2 * PI * INR k0 * INR t / INR n)).
  { unfold w. f_equal. rewrite mult_IZR, <- !INR_IZR_INZ. field. assumption. }
  rewrite E. subst c.
  rewrite <- !cis_opp, <- !cis_plus. unfold tone.
  replace (2 * PI * INR k0 * INR (off + t) / INR n + phi) with (2 * PI * INR k0 * INR off / INR n + phi + 2 * PI * INR k0 * INR t / INR n)
    by (rewrite plus_INR; field; assumption).
  generalize (2 * PI * INR k0 * INR off / INR n + phi) (2 * PI * INR k0 * INR t / INR n). intros a b.
  replace (- a + - b) with (- (a + b)) by ring. unfold cis, RtoC, Cmult, Cplus; cbn [fst snd]. rewrite cos_neg, sin_neg. f_equal; field.
Qed.
Lemma tone_sum n k0 A phi off : (0 < k0 < n)%nat -> Rsum n (fun t => tone n k0 A phi (off + t)) = 0.
Proof.
  intros H. apply RtoC_inj. rewrite <- Csum_RtoC.
  rewrite (Csum_ext _ _ _ (fun t _ => tone_cis n k0 A phi off t _ ltac:(lia) eq_refl)).
  rewrite Csum_scal, Csum_plus, !Csum_scal, !w_sum by lia.
  replace (Z.of_nat k0 =? 0)%Z with false by lia. replace (- Z.of_nat k0 =? 0)%Z with false by lia. ring.
Qed.
(** the spectrum of one windowed segment *)
Lemma tone_rfft n k0 A phi off f : (2 <= k0)%nat -> (2 * (k0 + 1) < n)%nat -> (f < rbins n)%nat ->
  rfft n (fun t => hann n t * tone n k0 A phi (off + t)) f =
  Cmult (cis (2 * PI * INR k0 * INR off / INR n + phi))
    (RtoC (A * INR n * (if (f =? k0)%nat then 1 / 4 else if (f + 1 =? k0)%nat then - (1 / 8) else if (f =? k0 + 1)%nat then - (1 / 8) else 0))).
Proof.
  intros H2 Hn Hf. assert (Hf2 : (2 * f <= n)%nat). { unfold rbins in Hf. pose proof (Nat.div_mod n 2 ltac:(lia)). lia. }
  set (c := cis (2 * PI * INR k0 * INR off / INR n + phi)).
  set (K := Z.of_nat k0). set (F := Z.of_nat f).
  unfold rfft, dft.
  rewrite (Csum_ext _ _ (fun t => Cmult (RtoC (A / 2)) (
     Cplus (Cmult c (Cplus (Cmult (RtoC (1 / 2)) (w n (Z.of_nat t * (K - F)))) (Cmult (RtoC (- (1 / 4))) (Cplus (w n (Z.of_nat t * (K + 1 - F))) (w n (Z.of_nat t * (K - 1 - F)))))))
       (Cmult (Cconj c) (Cplus (Cmult (RtoC (1 / 2)) (w n (Z.of_nat t * (- K - F)))) (Cmult (RtoC (- (1 / 4))) (Cplus (w n (Z.of_nat t * (- K + 1 - F))) (w n (Z.of_nat t * (- K - 1 - F)))))))))).
  2:{ intros t _. rewrite RtoC_mult, hann_cis, (tone_cis n k0 A phi off t c) by (lia || reflexivity). fold K F.
      replace (Z.of_nat t * (K - F))%Z with (Z.of_nat t * K + - (F * Z.of_nat t))%Z by lia.
      replace (Z.of_nat t * (K + 1 - F))%Z with (Z.of_nat t * K + (Z.of_nat t + - (F * Z.of_nat t)))%Z by lia.
      replace (Z.of_nat t * (K - 1 - F))%Z with (Z.of_nat t * K + (- Z.of_nat t + - (F * Z.of_nat t)))%Z by lia.
      replace (Z.of_nat t * (- K - F))%Z with (Z.of_nat t * - K + - (F * Z.of_nat t))%Z by lia.
      replace (Z.of_nat t * (- K + 1 - F))%Z with (Z.of_nat t * - K + (Z.of_nat t + - (F * Z.of_nat t)))%Z by lia.
      replace (Z.of_nat t * (- K - 1 - F))%Z with (Z.of_nat t * - K + (- Z.of_nat t + - (F * Z.of_nat t)))%Z by lia.
      rewrite !w_plus. ring. }
  rewrite Csum_scal, Csum_plus, !Csum_scal, !Csum_plus, !Csum_scal, !Csum_plus, !w_sum by lia.
  replace (- K - F =? 0)%Z with false by lia. replace (- K + 1 - F =? 0)%Z with false by lia. replace (- K - 1 - F =? 0)%Z with false by lia.
  generalize c. clear c. intros c. subst K F.
  destruct (Nat.eqb_spec f k0).
  { replace (Z.of_nat k0 - Z.of_nat f =? 0)%Z with true by lia. replace (Z.of_nat k0 + 1 - Z.of_nat f =? 0)%Z with false by lia.
    replace (Z.of_nat k0 - 1 - Z.of_nat f =? 0)%Z with false by lia.
    destruct c as [c1 c2]. unfold Cmult, Cplus, Cconj, RtoC; cbn [fst snd]. f_equal; field. }
  replace (Z.of_nat k0 - Z.of_nat f =? 0)%Z with false by lia.
  destruct (Nat.eqb_spec (f + 1) k0).
  { replace (Z.of_nat k0 + 1 - Z.of_nat f =? 0)%Z with false by lia.
    replace (Z.of_nat k0 - 1 - Z.of_nat f =? 0)%Z with true by lia.
    destruct c as [c1 c2]. unfold Cmult, Cplus, Cconj, RtoC; cbn [fst snd]. f_equal; field. }
  replace (Z.of_nat k0 - 1 - Z.of_nat f =? 0)%Z with false by lia.
  destruct (Nat.eqb_spec f (k0 + 1)).
  { replace (Z.of_nat k0 + 1 - Z.of_nat f =? 0)%Z with true by lia.
    destruct c as [c1 c2]. unfold Cmult, Cplus, Cconj, RtoC; cbn [fst snd]. f_equal; field. }
  replace (Z.of_nat k0 + 1 - Z.of_nat f =? 0)%Z with false by lia.
  destruct c as [c1 c2]. unfold Cmult, Cplus, Cconj, RtoC; cbn [fst snd]. f_equal; field.
Qed.
Lemma hann_energy n : (3 <= n)%nat -> Rsum n (fun t => hann n t ^ 2) = 3 * INR n / 8.
Proof.
  intros Hn. assert (N : INR n <> 0) by (apply not_0_INR; lia).
  rewrite (Rsum_ext n _ (fun t => 3 / 8 + (- (1 / 2) * tone n 1 1 0 (0 + t) + 1 / 8 * tone n 2 1 0 (0 + t)))).
  - rewrite !Rsum_plus, !Rsum_scal, !tone_sum by lia. rewrite Rsum_const. lra.
  - intros t _. unfold hann, tone. cbn [plus]. rewrite !Rplus_0_r.
    replace (2 * PI * INR 1 * INR t / INR n) with (2 * PI * INR t / INR n) by (cbn [INR]; field; assumption).
    replace (2 * PI * INR 2 * INR t / INR n) with (2 * (2 * PI * INR t / INR n)) by (cbn [INR]; field; assumption).
    rewrite cos_2a_cos. field.
Qed.

Lemma repeat_sorted (v : R) n : StronglySorted Rle (repeat v n).
Proof. induction n; cbn; constructor; [assumption|]. apply Forall_forall. intros x Hx. apply repeat_spec in Hx. subst. lra. Qed.
Lemma aggregate_const avg n v f : (0 < n)%nat -> (forall i, (i < n)%nat -> f i = v) -> aggregate avg n f = v / avg_bias avg n.
Proof.
  intros Hn Hf. rewrite (aggregate_ext _ _ _ (fun _ => v)) by (intros; auto).
  assert (E : map (fun _ : nat => v) (seq 0 n) = repeat v n). { rewrite <- (seq_length n 0) at 2. generalize (seq 0 n). intros l. induction l; cbn; congruence. }
  rewrite (aggregate_spec avg n _ (repeat v n) Hn (repeat_sorted v n)) by (rewrite E; apply Permutation_refl).
  assert (Q : forall i, (i < n)%nat -> nth i (repeat v n) 0 = v).
  { intros i Hi. rewrite (nth_indep _ 0 v) by (rewrite repeat_length; assumption). apply nth_repeat. }
  unfold avg_bias. destruct (string_dec avg "mean").
  - rewrite Rsum_const. field. apply not_0_INR. lia.
  - assert (n / 2 < n)%nat by (apply Nat.div_lt; lia). destruct (Nat.odd n); rewrite !Q by lia; f_equal; field.
Qed.
Lemma onesided_share n k0 f c : (2 <= k0)%nat -> (2 * (k0 + 1) < n)%nat -> onesided n f * (c * share k0 f) = 2 * (c * share k0 f).
Proof.
  intros H2 Hn. unfold onesided, share. destruct (Nat.eqb_spec f 0).
  - replace (f =? k0)%nat with false by lia. replace (f + 1 =? k0)%nat with false by lia. replace (f =? k0 + 1)%nat with false by lia. ring.
  - destruct (Nat.eqb_spec (2 * f) n); [|reflexivity].
    replace (f =? k0)%nat with false by lia. replace (f + 1 =? k0)%nat with false by lia. replace (f =? k0 + 1)%nat with false by lia. ring.
Qed.
Lemma tone_seg n k0 A phi off f : (2 <= k0)%nat -> (2 * (k0 + 1) < n)%nat -> (f < rbins n)%nat ->
  exists u, rfft n (fun t => hann n t * tone n k0 A phi (off + t)) f = Cmult (cis (2 * PI * INR k0 * INR off / INR n + phi)) (RtoC (A * INR n * u)) /\
    u ^ 2 = 3 / 32 * share k0 f /\ u = if (f =? k0)%nat then 1 / 4 else if (f + 1 =? k0)%nat then - (1 / 8) else if (f =? k0 + 1)%nat then - (1 / 8) else 0.
Proof.
  intros H2 Hn Hf. eexists. split; [apply tone_rfft; assumption|]. split; [|reflexivity].
  unfold share. destruct (f =? k0)%nat; [field|]. destruct (f + 1 =? k0)%nat; [field|]. destruct (f =? k0 + 1)%nat; field.
Qed.
(** ** the exact estimate *)
Theorem welch_tone avg n stride T k0 A phi sr f : (2 <= k0)%nat -> (2 * (k0 + 1) < n)%nat -> (f < rbins n)%nat -> sr <> 0 ->
  welch (aggregate avg) n stride T (hann n) (1 / (sr * Rsum n (fun t => hann n t ^ 2))) (tone n k0 A phi) f =
  A ^ 2 / 2 / (sr / INR n) * share k0 f / avg_bias avg (nseg T n stride).
Proof.
  intros H2 Hn Hf Hsr. assert (N : INR n <> 0) by (apply not_0_INR; lia). unfold welch. apply aggregate_const; [apply nseg_pos|].
  intros s _. unfold seg_power.
  assert (M : seg_mean n (tone n k0 A phi) (s * stride) = 0) by (unfold seg_mean; rewrite tone_sum by lia; field; assumption). rewrite M.
  rewrite (rfft_ext n _ (fun t => hann n t * tone n k0 A phi (s * stride + t))) by (intros; ring).
  destruct (tone_seg n k0 A phi (s * stride) f H2 Hn Hf) as [u [-> [U _]]]. rewrite Cmod_mult, cis_mod, Rmult_1_l, Cmod_R, <- Rsqr_pow2, <- Rsqr_abs, Rsqr_pow2, hann_energy by lia.
  replace ((A * INR n * u) ^ 2) with (A ^ 2 * INR n ^ 2 * u ^ 2) by ring. rewrite U.
  replace (A ^ 2 * INR n ^ 2 * (3 / 32 * share k0 f)) with (A ^ 2 * INR n ^ 2 * (3 / 32) * share k0 f) by ring.
  rewrite onesided_share by assumption. field. split; assumption.
Qed.
Lemma share_sum n k0 : (2 <= k0)%nat -> (2 * (k0 + 1) < n)%nat -> Rsum (rbins n) (share k0) = 1.
Proof.
  intros H2 Hn. assert (k0 + 1 < rbins n)%nat. { unfold rbins. pose proof (Nat.div_mod n 2 ltac:(lia)). pose proof (Nat.mod_upper_bound n 2 ltac:(lia)). lia. }
  replace (rbins n) with ((k0 - 1) + (3 + (rbins n - (k0 + 2))))%nat by lia. rewrite !Rsum_app.
  rewrite (Rsum_0 (k0 - 1)), (Rsum_0 (rbins n - (k0 + 2))).
  - cbn [Rsum]. unfold share.
    replace (k0 - 1 + 0 =? k0)%nat with false by lia. replace (k0 - 1 + 0 + 1 =? k0)%nat with true by lia.
    replace (k0 - 1 + 1 =? k0)%nat with true by lia.
    replace (k0 - 1 + 2 =? k0)%nat with false by lia. replace (k0 - 1 + 2 + 1 =? k0)%nat with false by lia. replace (k0 - 1 + 2 =? k0 + 1)%nat with true by lia. lra.
  - intros i Hi. unfold share. replace (k0 - 1 + (3 + i) =? k0)%nat with false by lia. replace (k0 - 1 + (3 + i) + 1 =? k0)%nat with false by lia.
    replace (k0 - 1 + (3 + i) =? k0 + 1)%nat with false by lia. reflexivity.
  - intros i Hi. unfold share. replace (i =? k0)%nat with false by lia. replace (i + 1 =? k0)%nat with false by lia.
    replace (i =? k0 + 1)%nat with false by lia. reflexivity.
Qed.
(** ** the fast estimate of two sinusoids of the same frequency *)
Theorem fast_csd_tone avg n stride T k0 A phi B psi sr f : (2 <= k0)%nat -> (2 * (k0 + 1) < n)%nat -> (2 <= f < rbins n)%nat -> sr <> 0 ->
  fast_csd (aggregate avg) n stride T (hann n) (1 / (sr * Rsum n (fun t => hann n t ^ 2))) (tone n k0 A phi) (tone n k0 B psi) f =
  Cmult (RtoC (A * B / 2 / (sr / INR n) * share k0 f / avg_bias avg (nseg T n stride))) (cis (psi - phi)).
Proof.
  intros H2 Hn Hf Hsr. assert (N : INR n <> 0) by (apply not_0_INR; lia).
  assert (F2 : (f + 2 <= n)%nat). { destruct Hf as [Hf1 Hf2]. unfold rbins in Hf2. pose proof (Nat.div_mod n 2 ltac:(lia)). lia. }
  assert (Fs : forall A phi off, fast_seg n T (hann n) (tone n k0 A phi) off f = rfft n (fun t => hann n t * tone n k0 A phi (off + t)) f).
  { intros A0 phi0 off. unfold fast_seg. set (mu := Rsum T _ / INR T).
    rewrite (rfft_ext n _ (fun t => hann n t * tone n k0 A0 phi0 (off + t) + - mu * hann n t)) by (intros; ring).
    rewrite rfft_plus, rfft_scal, rfft_hann by lia. ring. }
  assert (Z : forall s, Cmult (RtoC (onesided n f * (1 / (sr * Rsum n (fun t => hann n t ^ 2)))))
      (Cmult (Cconj (fast_seg n T (hann n) (tone n k0 A phi) (s * stride) f)) (fast_seg n T (hann n) (tone n k0 B psi) (s * stride) f)) =
      Cmult (RtoC (A * B / 2 / (sr / INR n) * share k0 f)) (cis (psi - phi))).
  { intros s. rewrite !Fs.
    destruct (tone_seg n k0 A phi (s * stride) f H2 Hn ltac:(lia)) as [u [-> [U U']]].
    destruct (tone_seg n k0 B psi (s * stride) f H2 Hn ltac:(lia)) as [u' [-> [_ U'']]]. rewrite <- U' in U''. subst u'. clear U'.
    rewrite Cconj_mult, <- cis_opp. set (th := 2 * PI * INR k0 * INR (s * stride) / INR n).
    replace (psi - phi) with (- (th + phi) + (th + psi)) by ring. rewrite (cis_plus (- (th + phi))).
    rewrite hann_energy by lia.
    assert (E : RtoC (A * B / 2 / (sr / INR n) * share k0 f) = Cmult (RtoC (onesided n f * (1 / (sr * (3 * INR n / 8))))) (Cmult (RtoC (A * INR n * u)) (RtoC (B * INR n * u)))).
    { rewrite <- !RtoC_mult. f_equal. replace (onesided n f * (1 / (sr * (3 * INR n / 8))) * (A * INR n * u * (B * INR n * u)))
        with (onesided n f * (A * B * INR n ^ 2 * u ^ 2) * (1 / (sr * (3 * INR n / 8)))) by ring. rewrite U.
      replace (A * B * INR n ^ 2 * (3 / 32 * share k0 f)) with (A * B * INR n ^ 2 * (3 / 32) * share k0 f) by ring.
      rewrite onesided_share by assumption. field. split; assumption. }
    rewrite E. assert (Cc : Cconj (RtoC (A * INR n * u)) = RtoC (A * INR n * u)) by (unfold Cconj, RtoC; cbn [fst snd]; f_equal; ring).
    rewrite Cc. ring. }
  unfold fast_csd. set (N' := nseg T n stride).
  rewrite (aggregate_const avg N' (Re (Cmult (RtoC (A * B / 2 / (sr / INR n) * share k0 f)) (cis (psi - phi))))) by (apply nseg_pos || (intros i _; rewrite Z; reflexivity)).
  rewrite (aggregate_const avg N' (Im (Cmult (RtoC (A * B / 2 / (sr / INR n) * share k0 f)) (cis (psi - phi))))) by (apply nseg_pos || (intros i _; rewrite Z; reflexivity)).
  unfold Cmult, RtoC, cis, Re, Im; cbn [fst snd]. unfold Rdiv. f_equal; ring.
Qed.

(** ** the SpectralDensity module *)
Lemma fast_csd_ext avg n stride T w scale x y x' y' f : (0 < stride)%nat -> (0 < n <= T)%nat ->
  (forall t, (t < T)%nat -> x t = x' t) -> (forall t, (t < T)%nat -> y t = y' t) ->
  fast_csd (aggregate avg) n stride T w scale x y f = fast_csd (aggregate avg) n stride T w scale x' y' f.
Proof.
  intros Hs Hn Hx Hy.
  assert (B : forall s t, (s < nseg T n stride)%nat -> (t < n)%nat -> (s * stride + t < T)%nat).
  { intros s t Hs0 Ht. unfold nseg in Hs0. pose proof (Nat.mul_div_le (T - n) stride ltac:(lia)) as D.
    revert D Hs0. generalize ((T - n) / stride)%nat. intros; nia. }
  assert (Fs : forall z z', (forall t, (t < T)%nat -> z t = z' t) -> forall s, (s < nseg T n stride)%nat ->
     fast_seg n T w z (s * stride) f = fast_seg n T w z' (s * stride) f).
  { intros z z' Hz s Hs0. unfold fast_seg. rewrite (Rsum_ext T z z') by (intros; apply Hz; assumption). apply rfft_ext.
    intros t Ht. rewrite Hz by (apply B; assumption). reflexivity. }
  unfold fast_csd. f_equal; apply aggregate_ext; intros s Hs0; rewrite (Fs x x' Hx s Hs0), (Fs y y' Hy s Hs0); reflexivity.
Qed.
Lemma hann_window_eq n : n <> 1%nat -> hann_window n = hann n.
Proof. intros H. apply functional_extensionality. intros t. unfold hann_window. destruct (Nat.eqb_spec n 1); [contradiction|reflexivity]. Qed.
(** both versions of the module find the power A^2/2 of a sinusoid in its own bin and the two neighbouring ones, and nothing elsewhere *)
Theorem tone_spectral_density sr fl ov avg fast m x batch T n stride : INR n <= fl * sr < INR n + 1 -> 0 < sr ->
  sd_create sr fl ov avg None fast = Ok m ->
  stride = Z.to_nat (Z.of_nat n - rtrunc (match ov with Some o => o | None => fl / 2 end * sr)) -> (0 < stride)%nat ->
  shape x = batch ++ [T] -> (List.length batch <= 2)%nat -> Forall (fun b => (0 < b)%nat) batch -> (0 < n <= T)%nat ->
  exists r, sd_forward m x None = Ok r /\ shape r = batch ++ [rbins n] /\
   forall pre k0 A phi, inb pre batch -> (2 <= k0)%nat -> (2 * (k0 + 1) < n)%nat ->
     (forall t, (t < T)%nat -> elt x (pre ++ [t]) = tone n k0 A phi t) ->
     forall f, ((if fast then 2 else 0) <= f < rbins n)%nat ->
       get r (pre ++ [f]) = Some (RtoC (A ^ 2 / 2 / (sr / INR n) * share k0 f / avg_bias avg (nseg T n stride))).
Proof.
  intros Hn Hsr E Hst Hs Sx Hl Hp HT. destruct fast.
  - destruct (spectral_density_module_fast sr fl ov avg None m x None batch T n _ stride (hann_window n) Hn E eq_refl eq_refl I Hst Hs Sx Hl Hp HT I)
      as [r [Er [Sr G]]]. exists r. split; [exact Er|]. split; [exact Sr|]. intros pre k0 A phi Hpre H2 Hk Hx f Hf.
    rewrite G by (assumption || lia). f_equal. rewrite hann_window_eq by lia.
    rewrite (fast_csd_ext _ _ _ _ _ _ _ _ (tone n k0 A phi) (tone n k0 A phi)) by assumption.
    rewrite fast_csd_tone by (lia || lra). replace (phi - phi) with 0 by ring. rewrite cis_0, Cmult_1_r. f_equal. unfold Rdiv. ring.
  - destruct (proj1 (spectral_density_module sr fl ov avg None m x batch T n _ stride (hann_window n) Hn E eq_refl eq_refl I Hst Hs Sx Hl Hp HT))
      as [r [Er [Sr G]]]. exists r. split; [exact Er|]. split; [exact Sr|]. intros pre k0 A phi Hpre H2 Hk Hx f Hf.
    rewrite G by (assumption || lia). f_equal. f_equal. rewrite hann_window_eq by lia.
    rewrite (welch_ext _ _ _ _ _ _ _ (tone n k0 A phi)) by assumption. apply welch_tone; lia || lra.
Qed.
(** the cross-density of two sinusoids of the same frequency has the phase of the second relative to the first *)
Theorem tone_cross_density sr fl ov avg m x y batch T n stride : INR n <= fl * sr < INR n + 1 -> 0 < sr ->
  sd_create sr fl ov avg None true = Ok m ->
  stride = Z.to_nat (Z.of_nat n - rtrunc (match ov with Some o => o | None => fl / 2 end * sr)) -> (0 < stride)%nat ->
  shape x = batch ++ [T] -> (List.length batch <= 2)%nat -> Forall (fun b => (0 < b)%nat) batch -> (0 < n <= T)%nat ->
  documented_pair (shape x) (shape y) ->
  exists r, sd_forward m x (Some y) = Ok r /\ shape r = batch ++ [rbins n] /\
   forall pre k0 A phi B psi, inb pre batch -> (2 <= k0)%nat -> (2 * (k0 + 1) < n)%nat ->
     (forall t, (t < T)%nat -> elt x (pre ++ [t]) = tone n k0 A phi t) ->
     (forall t, (t < T)%nat -> elt y (partner (shape x) (shape y) pre ++ [t]) = tone n k0 B psi t) ->
     forall f, (2 <= f < rbins n)%nat ->
       get r (pre ++ [f]) = Some (Cmult (RtoC (A * B / 2 / (sr / INR n) * share k0 f / avg_bias avg (nseg T n stride))) (cis (psi - phi))).
Proof.
  intros Hn Hsr E Hst Hs Sx Hl Hp HT Hy.
  destruct (spectral_density_module_fast sr fl ov avg None m x (Some y) batch T n _ stride (hann_window n) Hn E eq_refl eq_refl I Hst Hs Sx Hl Hp HT Hy)
      as [r [Er [Sr G]]]. exists r. split; [exact Er|]. split; [exact Sr|]. intros pre k0 A phi B psi Hpre H2 Hk Hx Hy' f Hf.
  rewrite G by (assumption || lia). f_equal. rewrite hann_window_eq by lia.
  rewrite (fast_csd_ext _ _ _ _ _ _ _ _ (tone n k0 A phi) (tone n k0 B psi)) by assumption.
  apply fast_csd_tone; lia || lra.
Qed.
(** the density integrates to the power of the sinusoid (with "mean") *)
Theorem tone_power n k0 A sr : (2 <= k0)%nat -> (2 * (k0 + 1) < n)%nat -> sr <> 0 ->
  Rsum (rbins n) (fun f => A ^ 2 / 2 / (sr / INR n) * share k0 f) * (sr / INR n) = A ^ 2 / 2.
Proof. intros H2 Hn Hsr. assert (N : INR n <> 0) by (apply not_0_INR; lia). rewrite Rsum_scal, (share_sum n k0 H2 Hn). field. split; assumption. Qed.
(** the hypotheses can be met: 3 cycles in every 16 samples, 40 samples, 50% overlap *)
Example tone_ex : exists m r, sd_create 16 1 None "median" None false = Ok m /\
  sd_forward m (mk [1; 40]%nat (fun i => tone 16 3 2 1 (last i 0%nat))) None = Ok r /\
  get r [0; 3]%nat = Some (RtoC (2 ^ 2 / 2 / (16 / INR 16) * (2 / 3) / avg_bias "median" 4)) /\
  get r [0; 7]%nat = Some (RtoC 0).
Proof.
  assert (I16 : INR 16 = 16) by (rewrite INR_IZR_INZ; reflexivity).
  assert (E : exists m, sd_create 16 1 None "median" None false = Ok m).
  { unfold sd_create. cbn [bind]. rewrite (rtrunc_nonneg (1 * 16) 16) by (rewrite I16; lra). cbn [Z.of_nat Z.ltb Z.compare].
    match goal with |- context [negb ?b] => replace b with true by reflexivity end. cbn [negb].
    destruct (string_dec "median" "mean"); [discriminate|]. destruct (string_dec "median" "median"); [|congruence]. eexists; reflexivity. }
  destruct E as [m E]. exists m.
  assert (R8 : rtrunc (1 / 2 * 16) = 8%Z). { change 8%Z with (Z.of_nat 8). apply rtrunc_nonneg. replace (INR 8) with 8 by (rewrite INR_IZR_INZ; reflexivity). lra. }
  destruct (tone_spectral_density 16 1 None "median" false m (mk [1; 40]%nat (fun i => tone 16 3 2 1 (last i 0%nat))) [1%nat] 40 16 8) as [r [Er [Sr G]]];
    [rewrite I16; lra|lra|exact E|rewrite R8; reflexivity|lia|reflexivity|cbn; lia|repeat constructor|lia|].
  exists r. split; [exact E|]. split; [exact Er|].
  assert (Rb : rbins 16 = 9%nat) by reflexivity.
  split.
  - exact (G [0%nat] 3%nat 2 1 ltac:(cbn; lia) ltac:(lia) ltac:(lia) (fun t _ => eq_refl) 3%nat ltac:(rewrite Rb; lia)).
  - refine (eq_trans (G [0%nat] 3%nat 2 1 ltac:(cbn; lia) ltac:(lia) ltac:(lia) (fun t _ => eq_refl) 7%nat ltac:(rewrite Rb; lia)) _).
    f_equal. f_equal. unfold share. cbn [Nat.eqb Nat.add]. unfold Rdiv. ring.
Qed.
