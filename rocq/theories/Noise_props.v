(** Property C86: what SpectralDensity estimates for noise, on average. *)
From Coq Require Import String Permutation FunctionalExtensionality.
From Verif Require Import Base Tensor Rutil Bcast Slicing_model Slicing_proofs Streaming_model Norm_model Norm_props Gw_model Gw_props Dft Snr_props Spectral_model Spectral_props Psd_props Fastpsd_props Fastpsd2_props Whiten_props Fit_model Fit_props Scaler_props Rescaler_props WhitenMod_props Tone_props.
From Coquelicot Require Import Complex.
From Verif Require Import Prob.
Local Open Scope R_scope.

(** ** specification *)
(** expected value of f over a finite distribution *)
Definition expect {A} (d : dist A) (f : A -> R) : R := lsum (fun wa => fst wa * f (snd wa)) d.
(** the random series s (of at least T samples) is white with standard deviation sigma: samples are uncorrelated *)
Definition white_noise {A} (d : dist A) (s : A -> nat -> R) (T : nat) (sigma : R) : Prop :=
  forall i j, (i < T)%nat -> (j < T)%nat -> expect d (fun a => s a i * s a j) = if (i =? j)%nat then sigma ^ 2 else 0.
(** stationary, with autocovariance r *)
Definition stationary {A} (d : dist A) (s : A -> nat -> R) (T : nat) (r : nat -> R) : Prop :=
  forall i j, (i <= j)%nat -> (j < T)%nat -> expect d (fun a => s a i * s a j) = r (j - i)%nat.

(** ** linearity *)
Lemma expect_ext {A} (d : dist A) f g : (forall w a, In (w, a) d -> f a = g a) -> expect d f = expect d g.
Proof. intros H. apply lsum_ext. intros [w a] Hin. cbn [fst snd]. rewrite (H w a Hin). reflexivity. Qed.
Lemma expect_scal {A} (d : dist A) c f : expect d (fun a => c * f a) = c * expect d f.
Proof. unfold expect. rewrite <- lsum_scal. apply lsum_ext. intros; ring. Qed.
Lemma expect_plus {A} (d : dist A) f g : expect d (fun a => f a + g a) = expect d f + expect d g.
Proof. unfold expect. induction d as [|[w a] d IH]; cbn; [lra|]. rewrite IH. lra. Qed.
Lemma expect_minus {A} (d : dist A) f g : expect d (fun a => f a - g a) = expect d f - expect d g.
Proof. unfold expect. induction d as [|[w a] d IH]; cbn; [lra|]. rewrite IH. lra. Qed.
Lemma expect_Rsum {A} (d : dist A) n (g : nat -> A -> R) : expect d (fun a => Rsum n (fun i => g i a)) = Rsum n (fun i => expect d (g i)).
Proof.
  induction n; cbn [Rsum]; [|rewrite <- IHn; apply expect_plus].
  unfold expect. apply lsum_zero. intros [w a] _. cbn. ring.
Qed.
Lemma Rsum_prod n (a b : nat -> R) : Rsum n a * Rsum n b = Rsum n (fun i => Rsum n (fun j => a i * b j)).
Proof. rewrite <- Rsum_scal_r. apply Rsum_ext. intros i _. rewrite <- Rsum_scal. reflexivity. Qed.
(** a quadratic form of random variables *)
Lemma expect_quad {A} (d : dist A) n (a b : nat -> R) (u v : A -> nat -> R) :
  expect d (fun x => Rsum n (fun i => a i * u x i) * Rsum n (fun j => b j * v x j)) = Rsum n (fun i => Rsum n (fun j => a i * b j * expect d (fun x => u x i * v x j))).
Proof.
  rewrite (expect_ext d _ (fun x => Rsum n (fun i => Rsum n (fun j => a i * b j * (u x i * v x j))))).
  - rewrite (expect_Rsum d n (fun i x => Rsum n (fun j => a i * b j * (u x i * v x j)))). apply Rsum_ext. intros i _.
    rewrite (expect_Rsum d n (fun j x => a i * b j * (u x i * v x j))). apply Rsum_ext. intros j _. apply expect_scal.
  - intros w x _. rewrite Rsum_prod. apply Rsum_ext. intros i _. apply Rsum_ext. intros j _. ring.
Qed.
(** ** the spectrum as a quadratic form *)
Definition tcos (n f t : nat) : R := cos (2 * PI * INR f * INR t / INR n).
Definition tsin (n f t : nat) : R := sin (2 * PI * INR f * INR t / INR n).
Lemma rfft_re_im n x f : rfft n x f = (Rsum n (fun t => x t * tcos n f t), - Rsum n (fun t => x t * tsin n f t)).
Proof.
  assert (H : forall m, Csum m (fun t => Cmult (RtoC (x t)) (w n (- (Z.of_nat f * Z.of_nat t)))) = (Rsum m (fun t => x t * tcos n f t), - Rsum m (fun t => x t * tsin n f t))).
  { induction m as [|m IH]; cbn [Csum Rsum]; [unfold RtoC; f_equal; ring|].
    rewrite IH, w_opp. unfold w, cis, Cconj, Cmult, Cplus, RtoC, tcos, tsin; cbn [fst snd].
    rewrite mult_IZR, <- !INR_IZR_INZ. replace (2 * PI * (INR f * INR m)) with (2 * PI * INR f * INR m) by ring. f_equal; ring. }
  exact (H n).
Qed.
Lemma rfft_power n x f : Cmod (rfft n x f) ^ 2 = Rsum n (fun t => x t * tcos n f t) ^ 2 + Rsum n (fun t => x t * tsin n f t) ^ 2.
Proof. rewrite Cmod_sq, rfft_re_im. unfold Re, Im. cbn [fst snd]. ring. Qed.

Lemma sc_one n f t : tcos n f t ^ 2 + tsin n f t ^ 2 = 1.
Proof. unfold tcos, tsin. pose proof (sin2_cos2 (2 * PI * INR f * INR t / INR n)) as H. unfold Rsqr in H. lra. Qed.
(** expected power of a windowed series with covariance sigma^2 (delta - kappa) *)
Lemma expect_power {A} (d : dist A) n (win : nat -> R) (u : A -> nat -> R) sigma kappa f :
  (forall i j, (i < n)%nat -> (j < n)%nat -> expect d (fun a => u a i * u a j) = sigma ^ 2 * ((if (i =? j)%nat then 1 else 0) - kappa)) ->
  expect d (fun a => Cmod (rfft n (fun t => win t * u a t) f) ^ 2) = sigma ^ 2 * (Rsum n (fun t => win t ^ 2) - kappa * Cmod (rfft n win f) ^ 2).
Proof.
  intros H.
  assert (Q : forall g : nat -> R, expect d (fun a => Rsum n (fun t => win t * u a t * g t) ^ 2) = sigma ^ 2 * (Rsum n (fun t => (win t * g t) ^ 2) - kappa * Rsum n (fun t => win t * g t) ^ 2)).
  { intros g. rewrite (expect_ext d _ (fun a => Rsum n (fun i => win i * g i * u a i) * Rsum n (fun j => win j * g j * u a j))).
    2:{ intros w0 a _. rewrite (Rsum_ext n (fun t => win t * u a t * g t) (fun i => win i * g i * u a i)) by (intros; ring). ring. }
    rewrite expect_quad.
    rewrite (Rsum_ext n _ (fun i => sigma ^ 2 * (win i * g i) ^ 2 + - (sigma ^ 2 * kappa) * ((win i * g i) * Rsum n (fun j => win j * g j)))).
    - rewrite Rsum_plus, !Rsum_scal, Rsum_scal_r. ring.
    - intros i Hi. rewrite (Rsum_ext n _ (fun j => sigma ^ 2 * (win i * g i) * (if (i =? j)%nat then win j * g j else 0) + - (sigma ^ 2 * kappa * (win i * g i)) * (win j * g j))).
      + rewrite Rsum_plus, !Rsum_scal. rewrite (Rsum_single n i); [|assumption|intros j Hj Hn; replace (i =? j)%nat with false by lia; reflexivity].
        rewrite Nat.eqb_refl. ring.
      + intros j Hj. rewrite H by assumption. destruct (i =? j)%nat; ring. }
  rewrite (expect_ext d _ (fun a => Rsum n (fun t => win t * u a t * tcos n f t) ^ 2 + Rsum n (fun t => win t * u a t * tsin n f t) ^ 2)) by (intros; apply rfft_power).
  rewrite expect_plus, !Q, rfft_power.
  assert (E : Rsum n (fun t => win t ^ 2) = Rsum n (fun t => (win t * tcos n f t) ^ 2) + Rsum n (fun t => (win t * tsin n f t) ^ 2)).
  { rewrite <- Rsum_plus. apply Rsum_ext. intros t _. transitivity (win t ^ 2 * (tcos n f t ^ 2 + tsin n f t ^ 2)); [rewrite sc_one; ring|ring]. }
  rewrite E. ring.
Qed.
(** removing the mean of L samples *)
Lemma white_demeaned {A} (d : dist A) (s : A -> nat -> R) T sigma off L i j : white_noise d s T sigma -> (0 < L)%nat -> (off + L <= T)%nat -> (i < L)%nat -> (j < L)%nat ->
  expect d (fun a => (s a (off + i)%nat - Rsum L (fun t => s a (off + t)%nat) / INR L) * (s a (off + j)%nat - Rsum L (fun t => s a (off + t)%nat) / INR L)) =
  sigma ^ 2 * ((if (i =? j)%nat then 1 else 0) - / INR L).
Proof.
  intros W HL HT Hi Hj. assert (N : INR L <> 0) by (apply not_0_INR; lia).
  assert (C : forall i, (i < L)%nat -> expect d (fun a => s a (off + i)%nat * Rsum L (fun t => s a (off + t)%nat)) = sigma ^ 2).
  { intros k Hk. rewrite (expect_ext d _ (fun a => Rsum L (fun t => s a (off + k)%nat * s a (off + t)%nat))) by (intros; rewrite Rsum_scal; reflexivity).
    rewrite (expect_Rsum d L (fun t a => s a (off + k)%nat * s a (off + t)%nat)), (Rsum_single L k).
    - rewrite W by lia. replace (off + k =? off + k)%nat with true by lia. reflexivity.
    - assumption.
    - intros t Ht Hn. rewrite W by lia. replace (off + k =? off + t)%nat with false by lia. reflexivity. }
  assert (M : expect d (fun a => Rsum L (fun t => s a (off + t)%nat) * Rsum L (fun t => s a (off + t)%nat)) = INR L * sigma ^ 2).
  { rewrite (expect_ext d _ (fun a => Rsum L (fun k => s a (off + k)%nat * Rsum L (fun t => s a (off + t)%nat)))) by (intros; rewrite Rsum_scal_r; reflexivity).
    rewrite (expect_Rsum d L (fun k a => s a (off + k)%nat * Rsum L (fun t => s a (off + t)%nat))).
    rewrite (Rsum_ext L _ (fun _ => sigma ^ 2)) by (intros; apply C; assumption). apply Rsum_const. }
  rewrite (expect_ext d _ (fun a => s a (off + i)%nat * s a (off + j)%nat + (- / INR L) * (s a (off + i)%nat * Rsum L (fun t => s a (off + t)%nat))
      + ((- / INR L) * (s a (off + j)%nat * Rsum L (fun t => s a (off + t)%nat)) + / INR L ^ 2 * (Rsum L (fun t => s a (off + t)%nat) * Rsum L (fun t => s a (off + t)%nat))))) by (intros; field; assumption).
  rewrite !expect_plus, !expect_scal, !C, M, W by lia.
  destruct (Nat.eqb_spec i j).
  - replace (off + i =? off + j)%nat with true by lia. field. assumption.
  - replace (off + i =? off + j)%nat with false by lia. field. assumption.
Qed.
Lemma seg_in_range T n stride s : (0 < stride)%nat -> (n <= T)%nat -> (s < nseg T n stride)%nat -> (s * stride + n <= T)%nat.
Proof.
  intros H1 H2 H3. unfold nseg in H3. pose proof (Nat.mul_div_le (T - n) stride ltac:(lia)) as D.
  revert D H3. generalize ((T - n) / stride)%nat. intros; nia.
Qed.
Lemma expect_mean {A} (d : dist A) N (g : A -> nat -> R) v : (0 < N)%nat -> (forall s, (s < N)%nat -> expect d (fun a => g a s) = v) -> expect d (fun a => aggregate "mean" N (g a)) = v.
Proof.
  intros HN H. unfold aggregate. destruct (string_dec "mean" "mean"); [|congruence]. unfold mean.
  rewrite (expect_ext d _ (fun a => / INR N * Rsum N (g a))) by (intros; unfold Rdiv; ring). rewrite expect_scal.
  pose proof (expect_Rsum d N (fun i a => g a i)) as E. cbv beta in E. change (expect d (fun a => Rsum N (g a))) with (expect d (fun a => Rsum N (fun i => g a i))). rewrite E, (Rsum_ext N _ (fun _ => v)) by exact H. rewrite Rsum_const. field. apply not_0_INR. lia.
Qed.
(** ** the exact estimate, for white noise and any window *)
Theorem welch_white {A} (d : dist A) (s : A -> nat -> R) T sigma n stride win sr f : white_noise d s T sigma -> (0 < n <= T)%nat -> (0 < stride)%nat ->
  0 < sr -> 0 < Rsum n (fun t => win t ^ 2) ->
  expect d (fun a => welch (aggregate "mean") n stride T win (1 / (sr * Rsum n (fun t => win t ^ 2))) (s a) f) =
  onesided n f * sigma ^ 2 / sr * (1 - Cmod (rfft n win f) ^ 2 / (INR n * Rsum n (fun t => win t ^ 2))).
Proof.
  intros W Hn Hs Hsr HW. assert (N : INR n <> 0) by (apply not_0_INR; lia). unfold welch. apply expect_mean; [apply nseg_pos|].
  intros k Hk. pose proof (seg_in_range T n stride k Hs ltac:(lia) Hk) as Rg.
  rewrite (expect_ext d _ (fun a => onesided n f * (1 / (sr * Rsum n (fun t => win t ^ 2))) * Cmod (rfft n (fun t => win t * (s a (k * stride + t)%nat - seg_mean n (s a) (k * stride))) f) ^ 2))
    by (intros; unfold seg_power; ring).
  rewrite expect_scal, (expect_power d n win (fun a t => s a (k * stride + t)%nat - seg_mean n (s a) (k * stride)) sigma (/ INR n)).
  - field. repeat split; (assumption || lra).
  - intros i j Hi Hj. unfold seg_mean. apply (white_demeaned d s T); (assumption || lia).
Qed.
(** the fast estimate subtracts the mean of the whole series *)
Theorem fast_white {A} (d : dist A) (s : A -> nat -> R) T sigma n stride win sr f : white_noise d s T sigma -> (0 < n <= T)%nat -> (0 < stride)%nat ->
  0 < sr -> 0 < Rsum n (fun t => win t ^ 2) ->
  expect d (fun a => Re (fast_csd (aggregate "mean") n stride T win (1 / (sr * Rsum n (fun t => win t ^ 2))) (s a) (s a) f)) =
  onesided n f * sigma ^ 2 / sr * (1 - Cmod (rfft n win f) ^ 2 / (INR T * Rsum n (fun t => win t ^ 2))).
Proof.
  intros W Hn Hs Hsr HW. assert (N : INR T <> 0) by (apply not_0_INR; lia).
  rewrite (expect_ext d _ (fun a => aggregate "mean" (nseg T n stride) (fun k => onesided n f * (1 / (sr * Rsum n (fun t => win t ^ 2))) * Cmod (fast_seg n T win (s a) (k * stride) f) ^ 2))).
  2:{ intros w0 a _. rewrite fast_csd_self. unfold Re, RtoC. cbn [fst]. apply aggregate_ext. intros; ring. }
  apply (expect_mean d _ (fun a k => onesided n f * (1 / (sr * Rsum n (fun t => win t ^ 2))) * Cmod (fast_seg n T win (s a) (k * stride) f) ^ 2)); [apply nseg_pos|].
  intros k Hk. pose proof (seg_in_range T n stride k Hs ltac:(lia) Hk) as Rg.
  rewrite expect_scal. unfold fast_seg. rewrite (expect_power d n win (fun a t => s a (k * stride + t)%nat - Rsum T (s a) / INR T) sigma (/ INR T)).
  - field. repeat split; (assumption || lra).
  - intros i j Hi Hj. pose proof (white_demeaned d s T sigma 0 T (k * stride + i) (k * stride + j) W ltac:(lia) ltac:(lia) ltac:(lia) ltac:(lia)) as E. cbn [plus] in E.
    replace (k * stride + i =? k * stride + j)%nat with (i =? j)%nat in E by (destruct (Nat.eqb_spec i j); destruct (Nat.eqb_spec (k * stride + i) (k * stride + j)); lia).
    exact E.
Qed.
(** ** the Hann window *)
Lemma hann_spectrum n f : (4 <= n)%nat -> (f < rbins n)%nat ->
  rfft n (hann n) f = RtoC (if (f =? 0)%nat then INR n / 2 else if (f =? 1)%nat then - INR n / 4 else 0).
Proof.
  intros Hn Hf. assert (Hf2 : (2 * f <= n)%nat). { unfold rbins in Hf. pose proof (Nat.div_mod n 2 ltac:(lia)). lia. }
  unfold rfft, dft.
  rewrite (Csum_ext _ _ (fun t => Cplus (Cmult (RtoC (1 / 2)) (w n (Z.of_nat t * (- Z.of_nat f))))
     (Cplus (Cmult (RtoC (- (1 / 4))) (w n (Z.of_nat t * (1 - Z.of_nat f)))) (Cmult (RtoC (- (1 / 4))) (w n (Z.of_nat t * (- 1 - Z.of_nat f))))))).
  2:{ intros t _. rewrite hann_cis by lia.
      replace (Z.of_nat t * (1 - Z.of_nat f))%Z with (Z.of_nat t + - (Z.of_nat f * Z.of_nat t))%Z by lia.
      replace (Z.of_nat t * (- 1 - Z.of_nat f))%Z with (- Z.of_nat t + - (Z.of_nat f * Z.of_nat t))%Z by lia.
      replace (Z.of_nat t * (- Z.of_nat f))%Z with (- (Z.of_nat f * Z.of_nat t))%Z by lia.
      rewrite !w_plus. ring. }
  rewrite !Csum_plus, !Csum_scal, !w_sum by lia. replace (-1 - Z.of_nat f =? 0)%Z with false by lia.
  destruct (Nat.eqb_spec f 0) as [->|F0]; [|destruct (Nat.eqb_spec f 1) as [->|F1]].
  - replace (1 - Z.of_nat 0 =? 0)%Z with false by lia. replace (- Z.of_nat 0 =? 0)%Z with true by lia. unfold Cmult, Cplus, RtoC; cbn [fst snd]. f_equal; field.
  - replace (1 - Z.of_nat 1 =? 0)%Z with true by lia. replace (- Z.of_nat 1 =? 0)%Z with false by lia. unfold Cmult, Cplus, RtoC; cbn [fst snd]. f_equal; field.
  - replace (1 - Z.of_nat f =? 0)%Z with false by lia. replace (- Z.of_nat f =? 0)%Z with false by lia. unfold Cmult, Cplus, RtoC; cbn [fst snd]. f_equal; field.
Qed.
(** what is lost to the removal of the mean of L samples: nothing above bin 1 *)
Definition lost (n L f : nat) : R := if (f =? 0)%nat then 2 / 3 * (INR n / INR L) else if (f =? 1)%nat then 1 / 6 * (INR n / INR L) else 0.
Lemma hann_lost n L f : (4 <= n)%nat -> (0 < L)%nat -> (f < rbins n)%nat -> Cmod (rfft n (hann n) f) ^ 2 / (INR L * Rsum n (fun t => hann n t ^ 2)) = lost n L f.
Proof.
  intros Hn HL Hf. assert (N : INR n <> 0) by (apply not_0_INR; lia). assert (N' : INR L <> 0) by (apply not_0_INR; lia).
  rewrite hann_spectrum, hann_energy by (assumption || lia). rewrite Cmod_R, <- Rsqr_pow2, <- Rsqr_abs, Rsqr_pow2. unfold lost.
  destruct (f =? 0)%nat; [field; split; assumption|]. destruct (f =? 1)%nat; field; split; assumption.
Qed.
(** ** the SpectralDensity module with its default window and average="mean" *)
Theorem noise_spectral_density sr fl ov fast m (d : dist (tensor R)) batch T n stride : INR n <= fl * sr < INR n + 1 -> 0 < sr ->
  sd_create sr fl ov "mean" None fast = Ok m ->
  stride = Z.to_nat (Z.of_nat n - rtrunc (match ov with Some o => o | None => fl / 2 end * sr)) -> (0 < stride)%nat ->
  (forall w x, In (w, x) d -> shape x = batch ++ [T]) -> (List.length batch <= 2)%nat -> Forall (fun b => (0 < b)%nat) batch -> (4 <= n <= T)%nat ->
  (forall w x, In (w, x) d -> exists y, sd_forward m x None = Ok y /\ shape y = batch ++ [rbins n]) /\
  forall r, (forall w x, In (w, x) d -> sd_forward m x None = Ok (r x)) ->
   forall pre sigma, inb pre batch -> white_noise d (fun x t => elt x (pre ++ [t])) T sigma ->
    forall f, (f < rbins n)%nat ->
      expect d (fun x => Re (elt (r x) (pre ++ [f]))) = onesided n f * sigma ^ 2 / sr * (1 - lost n (if fast then T else n) f).
Proof.
  intros Hn Hsr E Hst Hs Sx Hl Hp HT.
  assert (HE : 0 < Rsum n (fun t => hann n t ^ 2)) by (rewrite hann_energy by lia; assert (0 < INR n) by (apply lt_0_INR; lia); lra).
  assert (W1 : hann_window n = hann n) by (apply hann_window_eq; lia).
  destruct fast.
  - assert (K : forall w x, In (w, x) d -> exists y, sd_forward m x None = Ok y /\ shape y = batch ++ [rbins n] /\
        forall pre f, inb pre batch -> (f < rbins n)%nat -> get y (pre ++ [f]) =
          Some (fast_csd (aggregate "mean") n stride T (hann n) (1 / (sr * Rsum n (fun t => hann n t ^ 2))) (fun t => elt x (pre ++ [t])) (fun t => elt x (pre ++ [t])) f)).
    { intros w0 x Hin. rewrite <- W1.
      exact (spectral_density_module_fast sr fl ov "mean" None m x None batch T n _ stride (hann_window n) Hn E eq_refl eq_refl I Hst Hs (Sx w0 x Hin) Hl Hp ltac:(lia) I). }
    split; [intros w0 x Hin; destruct (K w0 x Hin) as [y [Ey [Sy _]]]; exists y; split; assumption|].
    intros r Hr pre sigma Hpre W f Hf.
    rewrite (expect_ext d _ (fun x => Re (fast_csd (aggregate "mean") n stride T (hann n) (1 / (sr * Rsum n (fun t => hann n t ^ 2))) (fun t => elt x (pre ++ [t])) (fun t => elt x (pre ++ [t])) f))).
    + rewrite (fast_white d (fun x t => elt x (pre ++ [t])) T sigma) by (assumption || lia). rewrite hann_lost by (assumption || lia). reflexivity.
    + intros w0 x Hin. destruct (K w0 x Hin) as [y [Ey [Sy G]]]. rewrite (Hr w0 x Hin) in Ey. injection Ey as Ey. rewrite Ey. specialize (G pre f Hpre Hf).
      rewrite get_inb in G by (rewrite Sy; apply inb_app; [assumption|cbn; auto]). injection G as G. rewrite G. reflexivity.
  - assert (K : forall w x, In (w, x) d -> exists y, sd_forward m x None = Ok y /\ shape y = batch ++ [rbins n] /\
        forall pre f, inb pre batch -> (f < rbins n)%nat -> get y (pre ++ [f]) =
          Some (RtoC (welch (aggregate "mean") n stride T (hann n) (1 / (sr * Rsum n (fun t => hann n t ^ 2))) (fun t => elt x (pre ++ [t])) f))).
    { intros w0 x Hin. rewrite <- W1.
      exact (proj1 (spectral_density_module sr fl ov "mean" None m x batch T n _ stride (hann_window n) Hn E eq_refl eq_refl I Hst Hs (Sx w0 x Hin) Hl Hp ltac:(lia))). }
    split; [intros w0 x Hin; destruct (K w0 x Hin) as [y [Ey [Sy _]]]; exists y; split; assumption|].
    intros r Hr pre sigma Hpre W f Hf.
    rewrite (expect_ext d _ (fun x => welch (aggregate "mean") n stride T (hann n) (1 / (sr * Rsum n (fun t => hann n t ^ 2))) (fun t => elt x (pre ++ [t])) f)).
    + rewrite (welch_white d (fun x t => elt x (pre ++ [t])) T sigma) by (assumption || lia). rewrite hann_lost by (assumption || lia). reflexivity.
    + intros w0 x Hin. destruct (K w0 x Hin) as [y [Ey [Sy G]]]. rewrite (Hr w0 x Hin) in Ey. injection Ey as Ey. rewrite Ey. specialize (G pre f Hpre Hf).
      rewrite get_inb in G by (rewrite Sy; apply inb_app; [assumption|cbn; auto]). injection G as G. rewrite G. reflexivity.
Qed.
(** ** coloured noise: the expected density is the transform of the autocovariance times the autocorrelation of the window *)
Lemma Rsum2_cos n f (win : nat -> R) (r : nat -> nat -> R) : 
  Rsum n (fun i => Rsum n (fun j => win i * tcos n f i * (win j * tcos n f j) * r i j)) + Rsum n (fun i => Rsum n (fun j => win i * tsin n f i * (win j * tsin n f j) * r i j)) =
  Rsum n (fun i => Rsum n (fun j => win i * win j * r i j * cos (2 * PI * INR f * (INR i - INR j) / INR n))).
Proof.
  rewrite <- Rsum_plus. apply Rsum_ext. intros i Hi. rewrite <- Rsum_plus. apply Rsum_ext. intros j Hj.
  replace (2 * PI * INR f * (INR i - INR j) / INR n) with (2 * PI * INR f * INR i / INR n - 2 * PI * INR f * INR j / INR n) by (unfold Rdiv; ring).
  rewrite cos_minus. unfold tcos, tsin. ring.
Qed.
Theorem welch_stationary {A} (d : dist A) (s : A -> nat -> R) T r n stride win scale f : stationary d s T r -> (0 < n <= T)%nat -> (0 < stride)%nat -> rfft n win f = RtoC 0 ->
  expect d (fun a => welch (aggregate "mean") n stride T win scale (s a) f) =
  onesided n f * scale * Rsum n (fun i => Rsum n (fun j => win i * win j * r (Nat.max i j - Nat.min i j)%nat * cos (2 * PI * INR f * (INR i - INR j) / INR n))).
Proof.
  intros W Hn Hs H0. unfold welch. apply expect_mean; [apply nseg_pos|].
  intros k Hk. pose proof (seg_in_range T n stride k Hs ltac:(lia) Hk) as Rg.
  rewrite (expect_ext d _ (fun a => onesided n f * scale * (Rsum n (fun t => win t * tcos n f t * s a (k * stride + t)%nat) * Rsum n (fun t => win t * tcos n f t * s a (k * stride + t)%nat) +
     Rsum n (fun t => win t * tsin n f t * s a (k * stride + t)%nat) * Rsum n (fun t => win t * tsin n f t * s a (k * stride + t)%nat)))).
  - rewrite expect_scal, expect_plus, !(expect_quad d n _ _ (fun a t => s a (k * stride + t)%nat) (fun a t => s a (k * stride + t)%nat)). f_equal.
    rewrite <- Rsum2_cos. f_equal; apply Rsum_ext; intros i Hi; apply Rsum_ext; intros j Hj; f_equal;
      (destruct (Nat.le_ge_cases i j) as [L|L];
       [rewrite W by lia; f_equal; lia|
        rewrite (expect_ext d _ (fun a => s a (k * stride + j)%nat * s a (k * stride + i)%nat)) by (intros; ring); rewrite W by lia; f_equal; lia]).
  - intros w0 a _. unfold seg_power.
    rewrite (rfft_ext n _ (fun t => win t * s a (k * stride + t)%nat + - seg_mean n (s a) (k * stride) * win t)) by (intros; ring).
    rewrite rfft_plus, rfft_scal, H0. replace (Cplus (rfft n (fun t => win t * s a (k * stride + t)%nat) f) (Cmult (RtoC (- seg_mean n (s a) (k * stride))) (RtoC 0))) with (rfft n (fun t => win t * s a (k * stride + t)%nat) f) by ring.
    rewrite rfft_power.
    rewrite (Rsum_ext n (fun t => win t * s a (k * stride + t)%nat * tcos n f t) (fun t => win t * tcos n f t * s a (k * stride + t)%nat)) by (intros; ring).
    rewrite (Rsum_ext n (fun t => win t * s a (k * stride + t)%nat * tsin n f t) (fun t => win t * tsin n f t * s a (k * stride + t)%nat)) by (intros; ring). ring.
Qed.
(** ** the cross-density of uncorrelated series is zero on average *)
Theorem fast_uncorrelated {A} (d : dist A) (s s' : A -> nat -> R) T n stride win scale f : (0 < n <= T)%nat -> (0 < stride)%nat ->
  (forall i j, (i < T)%nat -> (j < T)%nat -> expect d (fun a => s a i * s' a j) = 0) ->
  expect d (fun a => Re (fast_csd (aggregate "mean") n stride T win scale (s a) (s' a) f)) = 0 /\
  expect d (fun a => Im (fast_csd (aggregate "mean") n stride T win scale (s a) (s' a) f)) = 0.
Proof.
  intros Hn Hs U. assert (N : INR T <> 0) by (apply not_0_INR; lia).
  assert (D : forall off i j, (off + n <= T)%nat -> (i < n)%nat -> (j < n)%nat -> expect d (fun a => (s a (off + i)%nat - Rsum T (s a) / INR T) * (s' a (off + j)%nat - Rsum T (s' a) / INR T)) = 0).
  { intros off i j Ho Hi Hj.
    rewrite (expect_ext d _ (fun a => s a (off + i)%nat * s' a (off + j)%nat + (- / INR T) * Rsum T (fun t => s a (off + i)%nat * s' a t) + ((- / INR T) * Rsum T (fun t => s a t * s' a (off + j)%nat) + / INR T ^ 2 * Rsum T (fun t => Rsum T (fun u => s a t * s' a u))))).
    2:{ intros w0 a _. rewrite <- Rsum_prod, Rsum_scal, Rsum_scal_r. field. assumption. }
    rewrite !expect_plus, !expect_scal, (expect_Rsum d T (fun t a => s a (off + i)%nat * s' a t)), (expect_Rsum d T (fun t a => s a t * s' a (off + j)%nat)), (expect_Rsum d T (fun t a => Rsum T (fun u => s a t * s' a u))).
    rewrite U by lia. rewrite !Rsum_0; [ring| | |]; intros t Ht; [rewrite (expect_Rsum d T (fun u a => s a t * s' a u)); apply Rsum_0; intros u Hu| |]; apply U; lia. }
  assert (Z : forall off g h, (off + n <= T)%nat -> expect d (fun a => Rsum n (fun t => win t * (s a (off + t)%nat - Rsum T (s a) / INR T) * g t) * Rsum n (fun t => win t * (s' a (off + t)%nat - Rsum T (s' a) / INR T) * h t)) = 0).
  { intros off g h Ho.
    rewrite (expect_ext d _ (fun a => Rsum n (fun t => win t * g t * (s a (off + t)%nat - Rsum T (s a) / INR T)) * Rsum n (fun t => win t * h t * (s' a (off + t)%nat - Rsum T (s' a) / INR T))))
      by (intros; f_equal; apply Rsum_ext; intros; ring).
    rewrite (expect_quad d n _ _ (fun a t => s a (off + t)%nat - Rsum T (s a) / INR T) (fun a t => s' a (off + t)%nat - Rsum T (s' a) / INR T)).
    apply Rsum_0. intros i Hi. apply Rsum_0. intros j Hj. rewrite D by assumption. ring. }
  unfold fast_csd, Re, Im. cbn [fst snd]. split.
  - apply (expect_mean d _ (fun a k => fst (Cmult (RtoC (onesided n f * scale)) (Cmult (Cconj (fast_seg n T win (s a) (k * stride) f)) (fast_seg n T win (s' a) (k * stride) f))))); [apply nseg_pos|].
    intros k Hk. pose proof (seg_in_range T n stride k Hs ltac:(lia) Hk) as Rg. unfold fast_seg.
    rewrite (expect_ext d _ (fun a => onesided n f * scale * (Rsum n (fun t => win t * (s a (k * stride + t)%nat - Rsum T (s a) / INR T) * tcos n f t) * Rsum n (fun t => win t * (s' a (k * stride + t)%nat - Rsum T (s' a) / INR T) * tcos n f t) +
        Rsum n (fun t => win t * (s a (k * stride + t)%nat - Rsum T (s a) / INR T) * tsin n f t) * Rsum n (fun t => win t * (s' a (k * stride + t)%nat - Rsum T (s' a) / INR T) * tsin n f t)))).
    + rewrite expect_scal, expect_plus, !Z by assumption. ring.
    + intros w0 a _. rewrite !rfft_re_im. unfold Cmult, Cconj, RtoC; cbn [fst snd]. ring.
  - apply (expect_mean d _ (fun a k => snd (Cmult (RtoC (onesided n f * scale)) (Cmult (Cconj (fast_seg n T win (s a) (k * stride) f)) (fast_seg n T win (s' a) (k * stride) f))))); [apply nseg_pos|].
    intros k Hk. pose proof (seg_in_range T n stride k Hs ltac:(lia) Hk) as Rg. unfold fast_seg.
    rewrite (expect_ext d _ (fun a => onesided n f * scale * (Rsum n (fun t => win t * (s a (k * stride + t)%nat - Rsum T (s a) / INR T) * tsin n f t) * Rsum n (fun t => win t * (s' a (k * stride + t)%nat - Rsum T (s' a) / INR T) * tcos n f t) +
        -1 * (Rsum n (fun t => win t * (s a (k * stride + t)%nat - Rsum T (s a) / INR T) * tcos n f t) * Rsum n (fun t => win t * (s' a (k * stride + t)%nat - Rsum T (s' a) / INR T) * tsin n f t))))).
    + rewrite expect_scal, expect_plus, expect_scal, !Z by assumption. ring.
    + intros w0 a _. rewrite !rfft_re_im. unfold Cmult, Cconj, RtoC; cbn [fst snd]. ring.
Qed.
(** ** white noise exists: independent random signs *)
Lemma expect_bind {A B} (d : dist A) (f : A -> dist B) g : expect (dbind d f) g = expect d (fun a => expect (f a) g).
Proof.
  unfold expect, dbind. induction d as [|[u a] d IH]; cbn [flat_map lsum fst snd]; [reflexivity|]. rewrite lsum_app, IH. f_equal.
  rewrite lsum_map, <- lsum_scal. apply lsum_ext. intros [v b] _. cbn. ring.
Qed.
Definition upd (x : nat -> R) (n : nat) (v : R) (i : nat) : R := if (i =? n)%nat then v else x i.
Fixpoint signs (sigma : R) (n : nat) : dist (nat -> R) :=
  match n with O => ret (fun _ => 0) | S n => dbind (signs sigma n) (fun x => [(1 / 2, upd x n sigma); (1 / 2, upd x n (- sigma))]) end.
Lemma signs_mass sigma n : expect (signs sigma n) (fun _ => 1) = 1.
Proof.
  induction n; cbn [signs]; [unfold expect, ret; cbn; ring|]. rewrite expect_bind. transitivity (expect (signs sigma n) (fun _ => 1)); [|exact IHn]. apply expect_ext. intros. unfold expect; cbn. lra.
Qed.
Lemma signs_white sigma n : white_noise (signs sigma n) (fun x => x) n sigma.
Proof.
  induction n; intros i j Hi Hj; [lia|]. cbn [signs]. rewrite expect_bind.
  destruct (Nat.eq_dec i n) as [->|Ni], (Nat.eq_dec j n) as [->|Nj].
  - rewrite Nat.eqb_refl. rewrite (expect_ext _ _ (fun _ => sigma ^ 2 * 1)); [rewrite expect_scal, signs_mass; ring|].
    intros. unfold expect, upd; cbn. rewrite Nat.eqb_refl. lra.
  - replace (n =? j)%nat with false by lia. rewrite (expect_ext _ _ (fun _ => 0 * 1)); [rewrite expect_scal; ring|].
    intros. unfold expect, upd; cbn. rewrite Nat.eqb_refl. replace (j =? n)%nat with false by lia. lra.
  - replace (i =? n)%nat with false by lia. rewrite (expect_ext _ _ (fun _ => 0 * 1)); [rewrite expect_scal; ring|].
    intros. unfold expect, upd; cbn. rewrite Nat.eqb_refl. replace (i =? n)%nat with false by lia. lra.
  - rewrite <- (IHn i j) by lia. apply expect_ext. intros. unfold expect, upd; cbn.
    replace (i =? n)%nat with false by lia. replace (j =? n)%nat with false by lia. lra.
Qed.
Theorem white_noise_exists T sigma : exists d : dist (tensor R), mass d = 1 /\ (forall w x, In (w, x) d -> 0 <= w /\ shape x = [1%nat] ++ [T]) /\
  white_noise d (fun x t => elt x ([0%nat] ++ [t])) T sigma.
Proof.
  exists (map (fun wx => (fst wx, mk [1%nat; T] (fun i => snd wx (last i 0%nat)))) (signs sigma T)). split; [|split].
  - unfold mass. rewrite lsum_map. cbn [fst]. rewrite <- (signs_mass sigma T). unfold expect. apply lsum_ext. intros; ring.
  - intros u x Hin. apply in_map_iff in Hin as ([v y] & E & Hin). cbn [fst snd] in E. injection E as <- <-. split; [|reflexivity].
    revert v y Hin. induction T as [|n IH]; cbn [signs]; intros v y Hin; [destruct Hin as [E|[]]; injection E as <- _; lra|].
    unfold dbind in Hin. apply in_flat_map in Hin as ([v' y'] & H1 & H2). specialize (IH v' y' H1). cbn in H2. destruct H2 as [E|[E|[]]]; injection E as <- _; lra.
  - intros i j Hi Hj. unfold expect. rewrite lsum_map. cbn [fst snd elt app last]. apply (signs_white sigma T i j Hi Hj).
Qed.
