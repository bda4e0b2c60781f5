(** Property C87: the covariance of whitened stationary noise. *)
From Coq Require Import String Permutation.
From Verif Require Import Base Tensor Rutil Bcast Slicing_model Slicing_proofs Streaming_model Norm_model Norm_props Gw_model Gw_props Dft Snr_props Spectral_model Spectral_props Psd_props Fastpsd_props Fastpsd2_props Whiten_props Fit_model Fit_props Scaler_props Rescaler_props WhitenMod_props Tone_props.
From Coquelicot Require Import Complex.
From Verif Require Import Prob Noise_props.
Local Open Scope R_scope.

(** ** specification *)
(** the random series s of N samples is (circularly) stationary with autocovariance r: E[s_i s_j] = r ((i - j) mod N) *)
Definition circular_noise {A} (d : dist A) (s : A -> nat -> R) (N : nat) (r : nat -> R) : Prop :=
  forall i j, (i < N)%nat -> (j < N)%nat -> expect d (fun a => s a i * s a j) = croll N (Z.of_nat j) r i.
(** its power spectrum *)
Definition spectrum (N : nat) (r : nat -> R) (k : nat) : R := Rsum N (fun t => r t * cos (2 * PI * INR k * INR t / INR N)).
(** the bin of the one-sided spectrum that belongs to bin k *)
Definition fold (N k : nat) : nat := Nat.min k (N - k).

(** ** complex expectations *)
Definition cexpect {A} (d : dist A) (f : A -> C) : C := (expect d (fun a => Re (f a)), expect d (fun a => Im (f a))).
Lemma cexpect_ext {A} (d : dist A) f g : (forall w a, In (w, a) d -> f a = g a) -> cexpect d f = cexpect d g.
Proof. intros H. unfold cexpect. f_equal; apply expect_ext; intros w a Hin; rewrite (H w a Hin); reflexivity. Qed.
Lemma cexpect_plus {A} (d : dist A) f g : cexpect d (fun a => Cplus (f a) (g a)) = Cplus (cexpect d f) (cexpect d g).
Proof. unfold cexpect, Cplus. cbn [fst snd]. f_equal; rewrite <- expect_plus; apply expect_ext; reflexivity. Qed.
Lemma cexpect_scal {A} (d : dist A) c f : cexpect d (fun a => Cmult c (f a)) = Cmult c (cexpect d f).
Proof.
  destruct c as [c1 c2]. unfold cexpect, Cmult. cbn [fst snd]. f_equal.
  - rewrite <- !expect_scal, <- expect_minus. apply expect_ext. reflexivity.
  - rewrite <- !expect_scal, <- expect_plus. apply expect_ext. reflexivity.
Qed.
Lemma cexpect_R {A} (d : dist A) f : cexpect d (fun a => RtoC (f a)) = RtoC (expect d f).
Proof. unfold cexpect, RtoC, Re, Im. cbn [fst snd]. f_equal. unfold expect. apply lsum_zero. intros [w a] _. cbn. ring. Qed.
Lemma cexpect_Csum {A} (d : dist A) n (g : nat -> A -> C) : cexpect d (fun a => Csum n (fun i => g i a)) = Csum n (fun i => cexpect d (g i)).
Proof.
  induction n; cbn [Csum]; [rewrite cexpect_R; f_equal; unfold expect; apply lsum_zero; intros [w a] _; cbn; ring|].
  rewrite <- IHn. apply cexpect_plus.
Qed.
Lemma Csum_prod n (a b : nat -> C) : Cmult (Csum n a) (Csum n b) = Csum n (fun i => Csum n (fun j => Cmult (a i) (b j))).
Proof. rewrite <- Csum_scal_r. apply Csum_ext. intros i _. rewrite <- Csum_scal. reflexivity. Qed.
Lemma rfft_dc n x : rfft n x 0 = RtoC (Rsum n x).
Proof. unfold rfft, dft. rewrite <- Csum_RtoC. apply Csum_ext. intros t _. change (- (Z.of_nat 0 * Z.of_nat t))%Z with 0%Z. rewrite w_0. ring. Qed.
(** ** the spectrum of circularly stationary noise is uncorrelated *)
Section Noise.
  Context {A : Type}.
  Variables (d : dist A) (s : A -> nat -> R) (N : nat) (r : nat -> R).
  Hypotheses (HN : (0 < N)%nat) (HC : circular_noise d s N r).
  Lemma dft_cov k l : (k < N)%nat -> (l < N)%nat ->
    cexpect d (fun a => Cmult (rfft N (s a) k) (Cconj (rfft N (s a) l))) = if (k =? l)%nat then Cmult (RtoC (INR N)) (rfft N r k) else RtoC 0.
  Proof using HN HC.
    intros Hk Hl.
    rewrite (cexpect_ext d _ (fun a => Csum N (fun v => Csum N (fun u => Cmult (Cmult (w N (- (Z.of_nat k * Z.of_nat u))) (w N (Z.of_nat l * Z.of_nat v))) (RtoC (s a u * s a v)))))).
    2:{ intros w0 a _. unfold rfft, dft. rewrite Cconj_Csum, Csum_prod, Csum_swap. apply Csum_ext. intros v _. apply Csum_ext. intros u _.
        rewrite Cconj_mult, Cconj_R, <- w_opp, Z.opp_involutive, RtoC_mult. ring. }
    rewrite (cexpect_Csum d N (fun v a => Csum N (fun u => Cmult (Cmult (w N (- (Z.of_nat k * Z.of_nat u))) (w N (Z.of_nat l * Z.of_nat v))) (RtoC (s a u * s a v))))).
    rewrite (Csum_ext N _ (fun v => Cmult (rfft N r k) (w N (Z.of_nat v * (Z.of_nat l - Z.of_nat k))))).
    - rewrite Csum_scal, w_sum by lia. destruct (Nat.eqb_spec k l) as [->|Ne].
      + replace (Z.of_nat l - Z.of_nat l =? 0)%Z with true by lia. ring.
      + replace (Z.of_nat l - Z.of_nat k =? 0)%Z with false by lia. ring.
    - intros v Hv. rewrite (cexpect_Csum d N (fun u a => Cmult (Cmult (w N (- (Z.of_nat k * Z.of_nat u))) (w N (Z.of_nat l * Z.of_nat v))) (RtoC (s a u * s a v)))).
      rewrite (Csum_ext N _ (fun u => Cmult (w N (Z.of_nat l * Z.of_nat v)) (Cmult (RtoC (croll N (Z.of_nat v) r u)) (w N (- (Z.of_nat k * Z.of_nat u)))))).
      + rewrite Csum_scal. change (Csum N (fun u => Cmult (RtoC (croll N (Z.of_nat v) r u)) (w N (- (Z.of_nat k * Z.of_nat u))))) with (rfft N (croll N (Z.of_nat v) r) k).
        rewrite rfft_shift by exact HN.
        replace (Z.of_nat v * (Z.of_nat l - Z.of_nat k))%Z with (Z.of_nat l * Z.of_nat v + - (Z.of_nat k * Z.of_nat v))%Z by lia. rewrite w_plus. ring.
      + intros u Hu. rewrite cexpect_scal, cexpect_R, HC by assumption. ring.
  Qed.
  (** the periodogram: E |X_k|^2 = N * spectrum *)
  Theorem periodogram k : (k < N)%nat -> expect d (fun a => Cmod (rfft N (s a) k) ^ 2) = INR N * spectrum N r k /\ rfft N r k = RtoC (spectrum N r k).
  Proof using HN HC.
    intros Hk. assert (NN : INR N <> 0) by (apply not_0_INR; lia).
    pose proof (dft_cov k k Hk Hk) as E. rewrite Nat.eqb_refl in E.
    rewrite (cexpect_ext d _ (fun a => RtoC (Cmod (rfft N (s a) k) ^ 2))) in E by (intros; rewrite Cmod_sq_conj; reflexivity).
    rewrite cexpect_R, (rfft_re_im N r k) in E. unfold RtoC, Cmult in E. cbn [fst snd] in E. 
    assert (E1 := f_equal fst E). assert (E2 := f_equal snd E). cbn [fst snd] in E1, E2.
    assert (I0 : Rsum N (fun t => r t * tsin N k t) = 0) by (apply (Rmult_eq_reg_l (INR N)); [lra|exact NN]).
    assert (R0 : Rsum N (fun t => r t * tcos N k t) = spectrum N r k) by reflexivity.
    rewrite R0, I0 in E1. rewrite E1. split; [ring|]. rewrite rfft_re_im, I0, R0. unfold RtoC. f_equal. ring.
  Qed.
  (** ** the covariance after filtering with a zero-phase gain *)
  Theorem filtered_noise sr H i j : 0 < sr -> (i < N)%nat -> (j < N)%nat ->
    expect d (fun a => filtered N sr H (s a) i * filtered N sr H (s a) j) =
    / INR N * Rsum N (fun k => if (k =? 0)%nat then 0 else H (fold N k) ^ 2 * spectrum N r k / sr * cos (2 * PI * INR k * (INR i - INR j) / INR N)).
  Proof using HN HC.
    intros Hsr Hi Hj. assert (NN : INR N <> 0) by (apply not_0_INR; lia).
    set (G := fun k => if (k =? 0)%nat then 0 else H (fold N k)).
    assert (Y : forall a t, RtoC (filtered N sr H (s a) t) = Cmult (RtoC (/ sqrt sr)) (idft N (fun k => Cmult (RtoC (G k)) (rfft N (s a) k)) t)).
    { intros a t. unfold filtered.
      rewrite (irfft_ext N _ (fun k => Cmult (RtoC (G k)) (rfft N (s a) k))).
      - assert (HS : forall k, (0 < k < N)%nat -> Cmult (RtoC (G (N - k)%nat)) (rfft N (s a) (N - k)) = Cconj (Cmult (RtoC (G k)) (rfft N (s a) k))).
        { intros k Hk. rewrite Cconj_mult, Cconj_R, <- rfft_herm by lia. do 2 f_equal. unfold G, fold. replace (N - k =? 0)%nat with false by lia. replace (k =? 0)%nat with false by lia. f_equal. lia. }
        rewrite fold_half_idft by assumption.
        assert (I0 : Im (idft N (fun k => Cmult (RtoC (G k)) (rfft N (s a) k)) t) = 0).
        { apply idft_herm_real; [assumption| |assumption]. unfold G. rewrite Nat.eqb_refl. unfold Cmult, RtoC, Im; cbn [fst snd]. ring. }
        destruct (idft N (fun k => Cmult (RtoC (G k)) (rfft N (s a) k)) t) as [y1 y2]. cbn in I0. subst y2. unfold Re, RtoC, Cmult; cbn [fst snd]. unfold Rdiv. f_equal; ring.
      - intros k Hk. rewrite (rfft_ext N _ (fun t => s a t + - (Rsum N (s a) / INR N) * 1)) by (intros; ring). rewrite rfft_plus, (rfft_scal N _ (fun _ => 1)).
        unfold G. destruct (Nat.eqb_spec k 0) as [->|K0].
        + rewrite !rfft_dc, Rsum_const, <- !RtoC_mult, <- RtoC_plus, <- !RtoC_mult. f_equal. field. assumption.
        + rewrite rfft_boxcar by (unfold rbins in Hk; pose proof (Nat.div_lt N 2); lia). unfold fold. 
          replace (Nat.min k (N - k)) with k by (unfold rbins in Hk; pose proof (Nat.div_mod N 2); lia). ring. }
    assert (E : RtoC (expect d (fun a => filtered N sr H (s a) i * filtered N sr H (s a) j)) =
      Csum N (fun k => Cmult (RtoC (/ INR N * (G k ^ 2 * spectrum N r k / sr))) (w N (Z.of_nat k * (Z.of_nat i - Z.of_nat j))))).
    { rewrite <- cexpect_R.
    rewrite (cexpect_ext d _ (fun a => Csum N (fun k => Csum N (fun l =>
       Cmult (Cmult (RtoC (/ sr * / INR N ^ 2 * (G k * G l))) (Cmult (w N (Z.of_nat k * Z.of_nat i)) (Cconj (w N (Z.of_nat l * Z.of_nat j)))))
             (Cmult (rfft N (s a) k) (Cconj (rfft N (s a) l))))))).
    2:{ intros w0 a _. rewrite RtoC_mult. rewrite <- (Cconj_R (filtered N sr H (s a) j)), !Y. unfold idft.
        rewrite !Cconj_mult, !Cconj_R, Cconj_Csum.
        assert (SS : / sr = / sqrt sr * / sqrt sr) by (rewrite <- Rinv_mult, sqrt_sqrt by lra; reflexivity).
        transitivity (Cmult (RtoC (/ sqrt sr * / sqrt sr * (/ INR N * / INR N))) (Cmult (Csum N (fun k => Cmult (Cmult (RtoC (G k)) (rfft N (s a) k)) (w N (Z.of_nat k * Z.of_nat i))))
           (Csum N (fun l => Cconj (Cmult (Cmult (RtoC (G l)) (rfft N (s a) l)) (w N (Z.of_nat l * Z.of_nat j))))))); [rewrite !RtoC_mult; ring|].
        rewrite Csum_prod, <- Csum_scal. apply Csum_ext. intros k _. rewrite <- Csum_scal. apply Csum_ext. intros l _.
        rewrite !Cconj_mult, Cconj_R, SS. replace (/ INR N ^ 2) with (/ INR N * / INR N) by (field; assumption). rewrite !RtoC_mult. ring. }
    rewrite (cexpect_Csum d N (fun k a => Csum N (fun l =>
       Cmult (Cmult (RtoC (/ sr * / INR N ^ 2 * (G k * G l))) (Cmult (w N (Z.of_nat k * Z.of_nat i)) (Cconj (w N (Z.of_nat l * Z.of_nat j)))))
             (Cmult (rfft N (s a) k) (Cconj (rfft N (s a) l)))))).
    apply Csum_ext.
    intros k Hk. rewrite (cexpect_Csum d N (fun l a =>
       Cmult (Cmult (RtoC (/ sr * / INR N ^ 2 * (G k * G l))) (Cmult (w N (Z.of_nat k * Z.of_nat i)) (Cconj (w N (Z.of_nat l * Z.of_nat j)))))
             (Cmult (rfft N (s a) k) (Cconj (rfft N (s a) l))))).
        rewrite (Csum_single N k); [|assumption|].
        - rewrite cexpect_scal, dft_cov, Nat.eqb_refl by assumption. destruct (periodogram k Hk) as [_ ->].
          rewrite <- w_opp. replace (Z.of_nat k * (Z.of_nat i - Z.of_nat j))%Z with (Z.of_nat k * Z.of_nat i + - (Z.of_nat k * Z.of_nat j))%Z by lia. rewrite w_plus.
          replace (/ INR N * (G k ^ 2 * spectrum N r k / sr)) with (/ sr * / INR N ^ 2 * (G k * G k) * (INR N * spectrum N r k)) by (field; split; lra).
          rewrite (RtoC_mult (/ sr * / INR N ^ 2 * (G k * G k))), (RtoC_mult (INR N)). ring.
        - intros l Hl Nl. rewrite cexpect_scal, dft_cov by assumption. replace (k =? l)%nat with false by lia. ring. }
    apply (f_equal Re) in E. rewrite Re_Csum in E. unfold Re at 1, RtoC at 1 in E. cbn [fst] in E. rewrite E, <- Rsum_scal. apply Rsum_ext. intros k Hk.
    unfold w, cis, Cmult, RtoC, Re. cbn [fst snd]. rewrite mult_IZR, minus_IZR, <- !INR_IZR_INZ.
    replace (2 * PI * (INR k * (INR i - INR j)) / INR N) with (2 * PI * INR k * (INR i - INR j) / INR N) by (unfold Rdiv; ring).
    unfold G. destruct (k =? 0)%nat; unfold Rdiv; ring.
  Qed.
End Noise.
Lemma dropped_dec F sr hp lp k : {dropped F sr hp lp k} + {~ dropped F sr hp lp k}.
Proof.
  unfold dropped. cbv zeta. set (df := sr / INR ((F - 1) * 2)).
  assert (D1 : {match hp with Some f => (INR k + 1) * df <= f | None => False end} + {~ match hp with Some f => (INR k + 1) * df <= f | None => False end}) by (destruct hp; [apply Rle_dec|right; tauto]).
  assert (D2 : {match lp with Some f => f < (INR k + 1) * df | None => False end} + {~ match lp with Some f => f < (INR k + 1) * df | None => False end}) by (destruct lp; [apply Rlt_dec|right; tauto]).
  assert (D3 : {Nat.Odd F /\ k = (F - 1)%nat} + {~ (Nat.Odd F /\ k = (F - 1)%nat)}).
  { destruct (Nat.odd F) eqn:O; [destruct (Nat.eq_dec k (F - 1))|].
    - left. split; [apply Nat.odd_spec; assumption|assumption].
    - right. tauto.
    - right. intros [O' _]. apply Nat.odd_spec in O'. congruence. }
  destruct D1; [left; tauto|]. destruct D2; [left; tauto|]. destruct D3; [left; tauto|]. right. tauto.
Qed.
Lemma spectrum_fold N r k : (0 < k < N)%nat -> spectrum N r (fold N k) = spectrum N r k.
Proof.
  intros Hk. unfold fold. destruct (Nat.min_spec k (N - k)) as [[_ ->]|[_ ->]]; [reflexivity|].
  assert (NN : INR N <> 0) by (apply not_0_INR; lia).
  unfold spectrum. apply Rsum_ext. intros t _. f_equal. rewrite minus_INR by lia.
  replace (2 * PI * (INR N - INR k) * INR t / INR N) with (- (2 * PI * INR k * INR t / INR N) + 2 * INR t * PI) by (field; assumption).
  rewrite cos_period, cos_neg. reflexivity.
Qed.
Lemma cos_sum N i j : (i < N)%nat -> (j < N)%nat ->
  Rsum N (fun k => if (k =? 0)%nat then 0 else cos (2 * PI * INR k * (INR i - INR j) / INR N)) = (if (i =? j)%nat then INR N else 0) - 1.
Proof.
  intros Hi Hj. assert (NN : INR N <> 0) by (apply not_0_INR; lia).
  pose proof (w_sum N (Z.of_nat i - Z.of_nat j) ltac:(lia)) as E. apply (f_equal Re) in E. rewrite Re_Csum in E. unfold Re at 2, RtoC in E. cbn [fst] in E.
  replace (Z.of_nat i - Z.of_nat j =? 0)%Z with (i =? j)%nat in E by (destruct (Nat.eqb_spec i j); destruct (Z.eqb_spec (Z.of_nat i - Z.of_nat j) 0); lia).
  rewrite <- E. rewrite (Rsum_ext N _ (fun k => Re (w N (Z.of_nat k * (Z.of_nat i - Z.of_nat j))) + (if (k =? 0)%nat then -1 else 0))).
  - rewrite Rsum_plus, (Rsum_single N 0 (fun k => if (k =? 0)%nat then -1 else 0)); [rewrite Nat.eqb_refl; ring|lia|]. intros k Hk Hn. replace (k =? 0)%nat with false by lia. reflexivity.
  - intros k Hk. unfold w, cis, Re; cbn [fst]. rewrite mult_IZR, minus_IZR, <- !INR_IZR_INZ.
    replace (2 * PI * (INR k * (INR i - INR j)) / INR N) with (2 * PI * INR k * (INR i - INR j) / INR N) by (unfold Rdiv; ring).
    destruct (Nat.eqb_spec k 0) as [->|]; [|ring]. cbn [INR]. replace (2 * PI * 0 * (INR i - INR j) / INR N) with 0 by (field; assumption). rewrite cos_0. ring.
Qed.
(** ** whiten applied to stationary noise whose one-sided power spectral density is the given one *)
(** the spectrum of the output is the product of the density and the squared response of the truncated filter; the mean is removed *)
Theorem whitened_noise fmax psd B ch N fd sr pad wl W (hp lp : option R) (crop : bool) (d : dist (tensor R)) b c :
  (forall w x, In (w, x) d -> shape x = [B; ch; N]) -> psd_ok psd B ch -> 0 < sr -> fd_ok fd sr pad wl W -> (1 <= pad)%nat -> (2 * pad < N)%nat ->
  match hp with Some f => 0 <= f | None => True end -> match lp with Some f => 0 <= f | None => True end -> (b < B)%nat -> (c < ch)%nat ->
  let L := if crop then (N - 2 * pad)%nat else N in
  exists g, inv_amp (rbins N) sr hp lp (eff_psd psd (rbins N) b c) g /\
   (forall w x, In (w, x) d -> exists y, whiten fmax x psd fd sr hp lp crop = Ok y /\ shape y = [B; ch; L]) /\
   forall r y, (forall w x, In (w, x) d -> whiten fmax x psd fd sr hp lp crop = Ok (y x)) ->
     circular_noise d (fun x t => elt x [b; c; t]) N r ->
     (forall k, (0 < k < rbins N)%nat -> eff_psd psd (rbins N) b c k = 2 * spectrum N r k / sr) ->
     forall i j, (i < L)%nat -> (j < L)%nat ->
       expect d (fun x => elt (y x) [b; c; i] * elt (y x) [b; c; j]) =
       / INR N * Rsum N (fun k => if (k =? 0)%nat then 0 else
          eff_psd psd (rbins N) b c (fold N k) * Cmod (response (rbins N) pad wl W g (fold N k)) ^ 2 * cos (2 * PI * INR k * (INR i - INR j) / INR N)).
Proof.
  intros SX HP Hsr Hfd Hpad HN Hhp Hlp Hb Hc L. assert (HN0 : (0 < N)%nat) by lia.
  assert (HF : (2 <= rbins N)%nat) by (unfold rbins; pose proof (Nat.div_le_lower_bound N 2 1 ltac:(lia) ltac:(lia)); lia).
  destruct (whiten_spec fmax (mk [B; ch; N] (fun _ => 0)) psd B ch N fd sr pad wl W hp lp crop eq_refl HP Hsr Hfd Hpad HN Hhp Hlp) as [r0 [_ [_ G0]]].
  destruct (G0 b c Hb Hc) as [g [Ig _]]. clear r0 G0. exists g. split; [exact Ig|].
  assert (K : forall w x, In (w, x) d -> exists y, whiten fmax x psd fd sr hp lp crop = Ok y /\ shape y = [B; ch; L] /\
     forall t, (t < L)%nat -> get y [b; c; t] = Some (filtered N sr (fun k => sqrt 2 * Cmod (response (rbins N) pad wl W g k)) (fun t => elt x [b; c; t]) (t + if crop then pad else 0))).
  { intros w0 x Hin. destruct (whiten_spec fmax x psd B ch N fd sr pad wl W hp lp crop (SX w0 x Hin) HP Hsr Hfd Hpad HN Hhp Hlp) as [y [Ey [Sy G]]].
    exists y. split; [exact Ey|]. split; [exact Sy|]. intros t Ht. destruct (G b c Hb Hc) as [g' [Ig' G']]. rewrite G' by exact Ht. f_equal.
    unfold filtered. f_equal. apply irfft_ext. intros k Hk. do 4 f_equal. apply response_ext; [exact HF|]. intros k' Hk'.
    destruct (Ig k' Hk') as [A1 A2], (Ig' k' Hk') as [A3 A4]. destruct (dropped_dec (rbins N) sr hp lp k') as [D|D]; [rewrite A1, A3 by exact D|rewrite A2, A4 by exact D]; reflexivity. }
  split; [intros w0 x Hin; destruct (K w0 x Hin) as [y [Ey [Sy _]]]; exists y; split; assumption|].
  intros r y Hy HC HS i j Hi Hj. set (o := if crop then pad else 0%nat).
  assert (HL : (L + o <= N)%nat) by (unfold L, o; destruct crop; lia).
  rewrite (expect_ext d _ (fun x => filtered N sr (fun k => sqrt 2 * Cmod (response (rbins N) pad wl W g k)) (fun t => elt x [b; c; t]) (i + o) *
      filtered N sr (fun k => sqrt 2 * Cmod (response (rbins N) pad wl W g k)) (fun t => elt x [b; c; t]) (j + o))).
  - rewrite (filtered_noise d (fun x t => elt x [b; c; t]) N r HN0 HC) by (assumption || lia). f_equal. apply Rsum_ext. intros k Hk.
    destruct (Nat.eqb_spec k 0); [reflexivity|].
    assert (HK : (0 < fold N k < rbins N)%nat). { unfold fold, rbins. pose proof (Nat.div_mod N 2 ltac:(lia)). pose proof (Nat.mod_upper_bound N 2 ltac:(lia)). lia. }
    rewrite (HS (fold N k) HK), spectrum_fold by lia. rewrite !plus_INR.
    replace (INR i + INR o - (INR j + INR o)) with (INR i - INR j) by ring.
    replace ((sqrt 2 * Cmod (response (rbins N) pad wl W g (fold N k))) ^ 2) with ((sqrt 2 * sqrt 2) * Cmod (response (rbins N) pad wl W g (fold N k)) ^ 2) by ring.
    rewrite sqrt_sqrt by lra. unfold Rdiv. ring.
  - intros w0 x Hin. destruct (K w0 x Hin) as [y' [Ey [Sy G]]]. rewrite (Hy w0 x Hin) in Ey. injection Ey as Ey. rewrite Ey.
    pose proof (G i Hi) as Gi. pose proof (G j Hj) as Gj.
    rewrite get_inb in Gi by (rewrite Sy; cbn; repeat split; assumption). rewrite get_inb in Gj by (rewrite Sy; cbn; repeat split; assumption).
    injection Gi as Gi. injection Gj as Gj. rewrite Gi, Gj. reflexivity.
Qed.
(** unit variance and whiteness up to the relative error of the truncated filter *)
Theorem whitened_covariance_bound N (P : nat -> R) eps i j : (i < N)%nat -> (j < N)%nat -> 0 <= eps -> (forall k, (0 < k < rbins N)%nat -> Rabs (P k - 1) <= eps) ->
  Rabs (/ INR N * Rsum N (fun k => if (k =? 0)%nat then 0 else P (fold N k) * cos (2 * PI * INR k * (INR i - INR j) / INR N)) - ((if (i =? j)%nat then 1 else 0) - / INR N)) <= eps.
Proof.
  intros Hi Hj He HP. assert (NP : 0 < INR N) by (apply lt_0_INR; lia).
  pose proof (cos_sum N i j Hi Hj) as CS.
  replace (/ INR N * Rsum N (fun k => if (k =? 0)%nat then 0 else P (fold N k) * cos (2 * PI * INR k * (INR i - INR j) / INR N)) - ((if (i =? j)%nat then 1 else 0) - / INR N))
    with (/ INR N * Rsum N (fun k => if (k =? 0)%nat then 0 else (P (fold N k) - 1) * cos (2 * PI * INR k * (INR i - INR j) / INR N))).
  - rewrite Rabs_mult, (Rabs_right (/ INR N)) by (apply Rle_ge, Rlt_le, Rinv_0_lt_compat; assumption).
    apply (Rmult_le_reg_l (INR N)); [assumption|]. rewrite <- Rmult_assoc, Rinv_r, Rmult_1_l by lra.
    assert (Q : forall n f, (forall k, (k < n)%nat -> Rabs (f k) <= eps) -> Rabs (Rsum n f) <= INR n * eps).
    { induction n as [|n IH]; intros f Hf; [cbn; rewrite Rabs_R0; lra|]. cbn [Rsum]. eapply Rle_trans; [apply Rabs_triang|].
      rewrite S_INR. pose proof (IH f ltac:(intros; apply Hf; lia)). pose proof (Hf n ltac:(lia)). lra. }
    apply Q. intros k Hk. destruct (Nat.eqb_spec k 0); [rewrite Rabs_R0; exact He|]. rewrite Rabs_mult.
    assert (HK : (0 < fold N k < rbins N)%nat). { unfold fold, rbins. pose proof (Nat.div_mod N 2 ltac:(lia)). pose proof (Nat.mod_upper_bound N 2 ltac:(lia)). lia. }
    pose proof (HP _ HK). set (th := 2 * PI * INR k * (INR i - INR j) / INR N). assert (Rabs (cos th) <= 1) by (apply Rabs_le; pose proof (COS_bound th); lra).
    pose proof (Rabs_pos (cos th)). pose proof (Rabs_pos (P (fold N k) - 1)). nra.
  - rewrite (Rsum_ext N (fun k => if (k =? 0)%nat then 0 else (P (fold N k) - 1) * cos (2 * PI * INR k * (INR i - INR j) / INR N))
      (fun k => (if (k =? 0)%nat then 0 else P (fold N k) * cos (2 * PI * INR k * (INR i - INR j) / INR N)) + -1 * (if (k =? 0)%nat then 0 else cos (2 * PI * INR k * (INR i - INR j) / INR N)))).
    + rewrite Rsum_plus, Rsum_scal, CS. destruct (i =? j)%nat; field; lra.
    + intros k _. destruct (k =? 0)%nat; ring.
Qed.
(** the output of whiten is white with unit variance, up to the lost mean (1/N) and the relative error eps of the truncated filter *)
Theorem whitened_noise_close fmax psd B ch N fd sr pad wl W (hp lp : option R) (crop : bool) (d : dist (tensor R)) b c r y eps :
  (forall w x, In (w, x) d -> shape x = [B; ch; N]) -> psd_ok psd B ch -> 0 < sr -> fd_ok fd sr pad wl W -> (1 <= pad)%nat -> (2 * pad < N)%nat ->
  match hp with Some f => 0 <= f | None => True end -> match lp with Some f => 0 <= f | None => True end -> (b < B)%nat -> (c < ch)%nat ->
  circular_noise d (fun x t => elt x [b; c; t]) N r ->
  (forall k, (0 < k < rbins N)%nat -> eff_psd psd (rbins N) b c k = 2 * spectrum N r k / sr) -> 0 <= eps ->
  (forall g, inv_amp (rbins N) sr hp lp (eff_psd psd (rbins N) b c) g ->
     forall k, (0 < k < rbins N)%nat -> Rabs (eff_psd psd (rbins N) b c k * Cmod (response (rbins N) pad wl W g k) ^ 2 - 1) <= eps) ->
  (forall w x, In (w, x) d -> whiten fmax x psd fd sr hp lp crop = Ok (y x)) ->
  forall i j, (i < if crop then N - 2 * pad else N)%nat -> (j < if crop then N - 2 * pad else N)%nat ->
    Rabs (expect d (fun x => elt (y x) [b; c; i] * elt (y x) [b; c; j]) - ((if (i =? j)%nat then 1 else 0) - / INR N)) <= eps.
Proof.
  intros SX HP Hsr Hfd Hpad HN Hhp Hlp Hb Hc HC HS He HR Hy i j Hi Hj.
  destruct (whitened_noise fmax psd B ch N fd sr pad wl W hp lp crop d b c SX HP Hsr Hfd Hpad HN Hhp Hlp Hb Hc) as (g & Ig & _ & K).
  rewrite (K r y Hy HC HS i j Hi Hj).
  apply (whitened_covariance_bound N (fun k => eff_psd psd (rbins N) b c k * Cmod (response (rbins N) pad wl W g k) ^ 2) eps i j);
    [destruct crop; lia|destruct crop; lia|exact He|]. exact (HR g Ig).
Qed.
(** ** the hypotheses can be met: noise with any given spectrum exists *)
Lemma white_circular {A} (d : dist A) s N sigma : white_noise d s N sigma -> circular_noise d s N (fun t => if (t =? 0)%nat then sigma ^ 2 else 0).
Proof.
  intros H i j Hi Hj. rewrite (H i j Hi Hj). unfold croll.
  destruct (Nat.eqb_spec i j) as [->|Ne]; [rewrite Z.sub_diag, Zmod_0_l; reflexivity|].
  replace (Z.to_nat ((Z.of_nat i - Z.of_nat j) mod Z.of_nat N) =? 0)%nat with false; [reflexivity|]. symmetry. apply Nat.eqb_neq.
  pose proof (small_mod N (Z.of_nat i - Z.of_nat j) ltac:(lia)) as E. pose proof (Z.mod_pos_bound (Z.of_nat i - Z.of_nat j) (Z.of_nat N) ltac:(lia)).
  destruct (Z.eqb_spec ((Z.of_nat i - Z.of_nat j) mod Z.of_nat N) 0) as [Z0|Z0]; [symmetry in E; apply Z.eqb_eq in E; lia|lia].
Qed.
Theorem noise_with_spectrum_exists N (P : nat -> R) : (0 < N)%nat -> (forall k, 0 <= P k) ->
  exists (d : dist (tensor R)) r, mass d = 1 /\ (forall w x, In (w, x) d -> 0 <= w /\ shape x = [1; 1; N]%nat) /\
    circular_noise d (fun x t => elt x [0; 0; t]%nat) N r /\ forall k, (0 < k < N)%nat -> spectrum N r k = P (fold N k).
Proof.
  intros HN HP. assert (NN : INR N <> 0) by (apply not_0_INR; lia).
  set (H := fun k => sqrt (P k)).
  set (S' := fun k : nat => if (k =? 0)%nat then 0 else P (fold N k)).
  set (r := fun t : nat => / INR N * Rsum N (fun k => S' k * cos (2 * PI * INR k * INR t / INR N))).
  exists (map (fun wx => (fst wx, mk [1; 1; N]%nat (fun i => filtered N 1 H (snd wx) (last i 0%nat)))) (signs 1 N)), r. split; [|split; [|split]].
  - unfold mass. rewrite lsum_map. cbn [fst]. transitivity (expect (signs 1 N) (fun _ => 1)); [unfold expect; apply lsum_ext; intros; ring|apply signs_mass].
  - intros u x Hin. apply in_map_iff in Hin as ([v y] & E & Hin). cbn [fst snd] in E. injection E as <- <-. split; [|reflexivity].
    clear - Hin. revert v y Hin. induction N as [|n IH]; cbn [signs]; intros v y Hin; [destruct Hin as [E|[]]; injection E as <- _; lra|].
    unfold dbind in Hin. apply in_flat_map in Hin as ([v' y'] & H1 & H2). specialize (IH v' y' H1). cbn in H2. destruct H2 as [E|[E|[]]]; injection E as <- _; lra.
  - intros i j Hi Hj. unfold expect. rewrite lsum_map. cbn [fst snd elt last].
    pose proof (filtered_noise (signs 1 N) (fun x => x) N _ HN (white_circular _ _ N 1 (signs_white 1 N)) 1 H i j ltac:(lra) Hi Hj) as E.
    unfold expect in E. rewrite E. unfold croll, r. f_equal. apply Rsum_ext. intros k Hk. unfold S'. destruct (Nat.eqb_spec k 0); [ring|].
    unfold H. replace (sqrt (P (fold N k)) ^ 2) with (sqrt (P (fold N k)) * sqrt (P (fold N k))) by ring. rewrite sqrt_sqrt by apply HP.
    assert (SP : spectrum N (fun t => if (t =? 0)%nat then 1 ^ 2 else 0) k = 1).
    { unfold spectrum. rewrite (Rsum_single N 0); [|lia|intros t Ht Hn; replace (t =? 0)%nat with false by lia; ring].
      rewrite Nat.eqb_refl. cbn [INR]. rewrite Rmult_0_r. replace (0 / INR N) with 0 by (field; exact NN). rewrite cos_0. ring. }
    rewrite SP. replace (P (fold N k) * 1 / 1) with (P (fold N k)) by field. f_equal.
    destruct (Nat.le_gt_cases j i).
    + rewrite Z.mod_small by lia. rewrite <- minus_INR by lia. do 4 f_equal. f_equal. lia.
    + replace ((Z.of_nat i - Z.of_nat j) mod Z.of_nat N)%Z with (Z.of_nat i - Z.of_nat j + Z.of_nat N)%Z by (apply (Z.mod_unique_pos _ _ (-1)); lia).
      rewrite (INR_IZR_INZ (Z.to_nat _)), Z2Nat.id by lia. rewrite plus_IZR, minus_IZR, <- !INR_IZR_INZ.
      replace (2 * PI * INR k * (INR i - INR j + INR N) / INR N) with (2 * PI * INR k * (INR i - INR j) / INR N + 2 * INR k * PI) by (field; exact NN).
      rewrite cos_period. reflexivity.
  - intros k Hk.
    assert (Hh : forall l, (0 < l < N)%nat -> RtoC (S' (N - l)%nat) = Cconj (RtoC (S' l))).
    { intros l Hl. rewrite Cconj_R. unfold S', fold. replace (N - l =? 0)%nat with false by lia. replace (l =? 0)%nat with false by lia. do 2 f_equal. lia. }
    assert (Er : forall t, RtoC (r t) = idft N (fun k => RtoC (S' k)) t).
    { intros t. assert (I0 : Im (idft N (fun k => RtoC (S' k)) t) = 0) by (apply idft_herm_real; [assumption|reflexivity|assumption]).
      assert (R0 : Re (idft N (fun k => RtoC (S' k)) t) = r t).
      { unfold idft, r. rewrite Re_scal, Re_Csum. f_equal. apply Rsum_ext. intros l _. rewrite Re_scal. f_equal.
        unfold w, cis, Re; cbn [fst]. rewrite mult_IZR, <- !INR_IZR_INZ. f_equal. unfold Rdiv. ring. }
      destruct (idft N (fun k => RtoC (S' k)) t) as [y1 y2]. cbn in I0, R0. subst. reflexivity. }
    assert (E : rfft N r k = RtoC (S' k)).
    { unfold rfft. rewrite <- (dft_idft N (fun k => RtoC (S' k)) k) by lia. unfold dft. apply Csum_ext. intros t _. rewrite Er. reflexivity. }
    rewrite rfft_re_im in E. apply (f_equal fst) in E. cbn [fst RtoC] in E.
    change (spectrum N r k) with (Rsum N (fun t => r t * tcos N k t)). rewrite E. unfold S'. replace (k =? 0)%nat with false by lia. reflexivity.
Qed.
(** the flat case meets the hypotheses of [whitened_noise_close] with eps = 0: white noise comes out with covariance delta_ij - 1/N *)
Theorem whitened_white_noise fmax psd B ch N s sr pad (crop : bool) (d : dist (tensor R)) b c sigma y :
  (forall w x, In (w, x) d -> shape x = [B; ch; N]) -> psd_ok psd B ch -> 0 < sr -> 0 < sigma ->
  INR pad <= s * sr / 2 < INR pad + 1 -> (1 <= pad)%nat -> (2 * pad < N)%nat -> Nat.Even (rbins N) -> (b < B)%nat -> (c < ch)%nat ->
  (forall k, (k < rbins N)%nat -> eff_psd psd (rbins N) b c k = 2 * sigma ^ 2 / sr) ->
  white_noise d (fun x t => elt x [b; c; t]) N sigma ->
  (forall w x, In (w, x) d -> whiten fmax x psd (Seconds s) sr None None crop = Ok (y x)) ->
  forall i j, (i < if crop then N - 2 * pad else N)%nat -> (j < if crop then N - 2 * pad else N)%nat ->
    expect d (fun x => elt (y x) [b; c; i] * elt (y x) [b; c; j]) = (if (i =? j)%nat then 1 else 0) - / INR N.
Proof.
  intros SX HP Hsr Hsig Hs Hpad HN HE Hb Hc Hflat HW Hy i j Hi Hj.
  assert (HF : (2 <= rbins N)%nat) by (unfold rbins; pose proof (Nat.div_le_lower_bound N 2 1 ltac:(lia) ltac:(lia)); lia).
  assert (NN : INR N <> 0) by (apply not_0_INR; lia).
  pose proof (pow_lt sigma 2 Hsig) as S2. assert (PP : 0 < 2 * sigma ^ 2 / sr) by (apply Rdiv_lt_0_compat; lra).
  enough (K : Rabs (expect d (fun x => elt (y x) [b; c; i] * elt (y x) [b; c; j]) - ((if (i =? j)%nat then 1 else 0) - / INR N)) <= 0).
  { pose proof (Rabs_pos (expect d (fun x => elt (y x) [b; c; i] * elt (y x) [b; c; j]) - ((if (i =? j)%nat then 1 else 0) - / INR N))) as K2.
    assert (K3 := Rle_antisym _ _ K K2). destruct (Req_dec (expect d (fun x => elt (y x) [b; c; i] * elt (y x) [b; c; j]) - ((if (i =? j)%nat then 1 else 0) - / INR N)) 0) as [Z|Z]; [lra|].
    exfalso. exact (Rabs_no_R0 _ Z K3). }
  apply (whitened_noise_close fmax psd B ch N (Seconds s) sr pad (2 * pad) (hann (2 * pad)) None None crop d b c (fun t => if (t =? 0)%nat then sigma ^ 2 else 0));
    try assumption; try exact I; try lra.
  - cbn. repeat split; lra.
  - apply white_circular. exact HW.
  - intros k Hk. rewrite Hflat by lia. f_equal. f_equal. unfold spectrum. rewrite (Rsum_single N 0); [|lia|intros t Ht Hn; replace (t =? 0)%nat with false by lia; ring].
    rewrite Nat.eqb_refl. cbn [INR]. rewrite Rmult_0_r. replace (0 / INR N) with 0 by (field; exact NN). rewrite cos_0. ring.
  - intros g Ig k Hk.
    assert (Hg : forall k, (k < rbins N)%nat -> g k = 1 / sqrt (2 * sigma ^ 2 / sr)).
    { intros k' Hk'. destruct (Ig k' Hk') as [_ I2]. rewrite I2; [rewrite Hflat by assumption; reflexivity|].
      intros [[]|[[]|[O _]]]. destruct HE as [u Hu], O as [v Hv]. lia. }
    rewrite (response_const (rbins N) pad (2 * pad) (hann (2 * pad)) g (1 / sqrt (2 * sigma ^ 2 / sr)) k HF Hpad (hann_mid pad Hpad) Hg), Hflat by lia.
    pose proof (sqrt_lt_R0 _ PP) as SQ. pose proof (sqrt_sqrt _ (Rlt_le _ _ PP)) as SS.
    rewrite Cmod_R, (Rabs_pos_eq (1 / sqrt (2 * sigma ^ 2 / sr))) by (apply Rlt_le, Rdiv_lt_0_compat; lra).
    set (q := sqrt (2 * sigma ^ 2 / sr)) in *. rewrite <- SS. replace (q * q * (1 / q) ^ 2 - 1) with 0 by (field; lra). rewrite Rabs_R0. lra.
Qed.
