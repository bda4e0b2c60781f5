(** Property C85: heterodyning a TaylorF2 signal removes exactly the leading term of its phase. *)
From Coq Require Import String Reals Lra.
From Coquelicot Require Import Coquelicot.
From Verif Require Import Base Tensor Rutil Slicing_model Norm_model Dft Gw_model Trans_model Bcast Whiten_props Het_props Conv_model Conv_props Wave_model Wave_props Tf2_model Tf2_props.
Local Open Scope R_scope.

(** ** specification *)
(** the orbital velocity of total mass M at gravitational-wave frequency f *)
Definition velocity (M f : R) : R := Rpower (PI * (M * MTSUN_SI * f)) (1 / 3).
(** the post-Newtonian corrections relative to the leading term, in powers of the velocity *)
Definition pn_corrections (c : tf2c) (v : R) : R :=
  p2 c * v ^ 2 + p3 c * v ^ 3 + p4 c * v ^ 4 + (p5 c + p5l c * ln v) * v ^ 5 + (p6 c + p6l c * ln v) * v ^ 6 + p7 c * v ^ 7.

(** ** the leading term *)
Lemma chirp_eta m1 m2 : 0 < m1 -> 0 < m2 -> Rpower (chirp_mass m1 m2) (5 / 3) = m1 * m2 / (m1 + m2) ^ 2 * Rpower (m1 + m2) (5 / 3).
Proof.
  intros H1 H2. assert (P12 : 0 < m1 * m2) by (apply Rmult_lt_0_compat; assumption). assert (Ps : 0 < m1 + m2) by lra.
  unfold chirp_mass, Rdiv at 1. rewrite <- Rpower_Ropp, <- Rpower_mult_distr by apply Rpower_pos. rewrite !Rpower_mult.
  replace (3 / 5 * (5 / 3)) with 1 by field. rewrite Rpower_1 by assumption.
  assert (E2 : / (m1 + m2) ^ 2 = Rpower (m1 + m2) (- (2))) by (rewrite Rpower_Ropp; f_equal; rewrite <- (Rpower_pow 2) by exact Ps; f_equal; cbn [INR]; lra).
  unfold Rdiv at 3. rewrite E2, (Rmult_assoc (m1 * m2)), <- Rpower_plus. do 2 f_equal. field.
Qed.
Theorem chirp_phase_leading m1 m2 f : 0 < m1 -> 0 < m2 -> 0 < f ->
  chirp_phase MTSUN_SI (chirp_mass m1 m2) f = 3 / (128 * (m1 * m2 / (m1 + m2) ^ 2)) / velocity (m1 + m2) f ^ 5.
Proof.
  intros H1 H2 Hf. pose proof PI_RGT_0 as HP. pose proof MTSUN_pos as HT. assert (Ps : 0 < m1 + m2) by lra.
  assert (Pe : 0 < m1 * m2 / (m1 + m2) ^ 2) by (apply Rdiv_lt_0_compat; [nra|apply pow_lt; lra]).
  assert (Pc : 0 < chirp_mass m1 m2) by (unfold chirp_mass; apply Rdiv_lt_0_compat; apply Rpower_pos).
  assert (Pu : 0 < PI * MTSUN_SI * f) by (apply Rmult_lt_0_compat; [apply Rmult_lt_0_compat|]; assumption).
  unfold chirp_phase, velocity. rewrite <- (Rpower_pow 5) by apply Rpower_pos. rewrite Rpower_mult. replace (1 / 3 * INR 5) with (5 / 3) by (cbn [INR]; lra).
  rewrite Rpower_Ropp.
  replace (PI * (chirp_mass m1 m2 * MTSUN_SI) * f) with (chirp_mass m1 m2 * (PI * MTSUN_SI * f)) by ring.
  replace (PI * ((m1 + m2) * MTSUN_SI * f)) with ((m1 + m2) * (PI * MTSUN_SI * f)) by ring.
  rewrite <- (Rpower_mult_distr (chirp_mass m1 m2)) by assumption. rewrite <- (Rpower_mult_distr (m1 + m2)) by assumption. rewrite chirp_eta by assumption.
  assert (0 < Rpower (m1 + m2) (5 / 3)) by apply Rpower_pos. assert (0 < Rpower (PI * MTSUN_SI * f) (5 / 3)) by apply Rpower_pos.
  field. repeat split; lra.
Qed.
(** the TaylorF2 phase is the heterodyne phase of its own chirp mass times (1 + corrections) *)
Theorem tf2_psi_chirp m1 m2 chi1 chi2 f : 0 < m1 -> 0 < m2 -> 0 < f ->
  tf2_psi f m1 m2 chi1 chi2 =
  chirp_phase MTSUN_SI (chirp_mass m1 m2) f * (1 + pn_corrections (tf2_coeffs m1 m2 chi1 chi2) (velocity (m1 + m2) f)).
Proof.
  intros H1 H2 Hf. pose proof MTSUN_pos as HT. rewrite chirp_phase_leading by assumption.
  assert (Ps : 0 < m1 + m2) by lra. assert (PM : 0 < (m1 + m2) * MTSUN_SI * f) by (apply Rmult_lt_0_compat; [apply Rmult_lt_0_compat|]; assumption).
  unfold tf2_psi. rewrite tf2_phase_series by exact PM. fold (velocity (m1 + m2) f).
  set (v := velocity (m1 + m2) f). assert (Pv : 0 < v) by apply Rpower_pos.
  assert (EN : p_N (tf2_coeffs m1 m2 chi1 chi2) = 3 / (128 * (m1 * m2 / (m1 + m2) ^ 2))).
  { unfold tf2_coeffs. cbv zeta. cbn [p_N]. f_equal. f_equal. field. lra. }
  unfold pn_series, pn_corrections. rewrite EN. generalize (tf2_coeffs m1 m2 chi1 chi2). intros c.
  assert (Pe : 0 < m1 * m2 / (m1 + m2) ^ 2) by (apply Rdiv_lt_0_compat; [nra|apply pow_lt; lra]).
  generalize dependent (m1 * m2 / (m1 + m2) ^ 2). intros e _ Pe. clearbody v. field. split; lra.
Qed.
(** ** the module applied to a signal *)
(** the spectrum of the input (divided by the sample rate) is the plus polarisation of TaylorF2 in bin k; the bank contains the chirp masses cm *)
Theorem heterodyne_taylorf2 sr kl cm M n m x B ch b c q k mc mr chi1 chi2 dist phic incl f_ref : shape cm = [M] -> INR n <= kl * sr < INR n + 1 -> (2 <= n)%nat ->
  0 < sr -> het_create MTSUN_SI sr kl cm "freq" = Ok m -> shape x = [B; ch; n] -> (b < B)%nat -> (c < ch)%nat -> (q < M)%nat -> (0 < k < rbins n)%nat ->
  0 < mc -> 0 < mr -> 0 < dist -> 0 < f_ref ->
  let fk := INR k * (sr / INR n) in
  rfft n (fun t => elt x [b; c; t]) k = Cmult (RtoC sr) (snd (tf2_one fk mc mr chi1 chi2 dist phic incl f_ref)) ->
  exists Y m1 m2, het_forward m x = Ok (None, Some Y) /\ 0 < m1 /\ 0 < m2 /\ chirp_mass m1 m2 = mc /\ m2 / m1 = mr /\
    let C := tf2_coeffs m1 m2 chi1 chi2 in
    get Y [b; c; q; k] = Some (Cmult (RtoC (- spa_amplitude fk mc dist * ((1 + cos incl ^ 2) / 2)))
      (cis (PI / 4 + 2 * phic
            + chirp_phase MTSUN_SI mc f_ref * (1 + pn_corrections C (velocity (m1 + m2) f_ref))
            - chirp_phase MTSUN_SI mc fk * pn_corrections C (velocity (m1 + m2) fk)
            + (chirp_phase MTSUN_SI (elt cm [q]) fk - chirp_phase MTSUN_SI mc fk)))).
Proof.
  intros Sc HN Hn Hsr E Sx Hb Hc Hq Hk Hmc Hmr Hd Hfr fk HX.
  destruct (heterodyne_create MTSUN_SI sr kl cm M n "freq" Sc HN ltac:(lia)) as [H _].
  destruct H as [m' [E' [M1 [M2 [M3 M4]]]]]; [auto|]. rewrite E in E'. injection E' as <-.
  destruct (het_both_spec m x B ch M n Sx Hn M2) as [y [Y [EB [SY [Sy [EY Ey]]]]]]. unfold het_forward. rewrite EB, M4. cbn [bind].
  assert (Hfk : 0 < fk) by (unfold fk; apply Rmult_lt_0_compat; [apply lt_0_INR; lia|apply Rdiv_lt_0_compat; [assumption|apply lt_0_INR; lia]]).
  unfold tf2_one in HX. pose proof (components_spec mc mr Hmc Hmr) as K. destruct (components mc mr) as [m1 m2]. destruct K as [P1 [P2 [QR [CM _]]]].
  exists Y, m1, m2. split; [reflexivity|]. split; [exact P1|]. split; [exact P2|]. split; [exact CM|]. split; [exact QR|]. set (C0 := tf2_coeffs m1 m2 chi1 chi2).
  rewrite get_inb by (rewrite SY; cbn; lia). f_equal. rewrite EY by (assumption || lia). replace (k =? 0)%nat with false by lia.
  rewrite HX, M3, M1 by (assumption || lia). fold fk. cbn [snd].
  rewrite tf2_htilde_spec by assumption. cbv zeta. rewrite !tf2_psi_chirp by assumption. fold C0. rewrite !CM.
  set (A := spa_amplitude fk mc dist). generalize (chirp_phase MTSUN_SI (elt cm [q]) fk) (chirp_phase MTSUN_SI mc fk) (chirp_phase MTSUN_SI mc f_ref)
    (pn_corrections C0 (velocity (m1 + m2) fk)) (pn_corrections C0 (velocity (m1 + m2) f_ref)). intros u p r d e.
  set (th := PI / 4 + _ - _).
  replace (PI / 4 + 2 * phic + r * (1 + e) - p * d + (u - p)) with (th + u) by (unfold th; ring).
  rewrite cis_plus. replace ((- A * cos th, - A * sin th) : Complex.C) with (Cmult (RtoC (- A)) (cis th)) by (unfold Cmult, RtoC, cis; cbn [fst snd]; f_equal; ring).
  replace (5 / 10 * (1 + cos incl * cos incl)) with ((1 + cos incl ^ 2) / 2) by field. rewrite RtoC_mult.
  assert (SR : Cmult (RtoC (/ sr)) (RtoC sr) = RtoC 1) by (rewrite <- RtoC_mult; f_equal; field; lra).
  transitivity (Cmult (Cmult (RtoC (/ sr)) (RtoC sr)) (Cmult (Cmult (RtoC (- A)) (RtoC ((1 + cos incl ^ 2) / 2))) (Cmult (cis th) (cis u)))); [ring|].
  rewrite SR. ring.
Qed.
(** the residual of the right template is small compared with the removed phase at low velocities *)
Theorem corrections_small c : exists K, 0 < K /\ forall v, 0 < v <= 1 -> Rabs (pn_corrections c v) <= K * v ^ 2.
Proof.
  assert (L : forall v, 0 < v <= 1 -> Rabs (ln v * v) <= 1).
  { intros v Hv. rewrite Rabs_left1.
    - assert (- ln v = ln (/ v)) by (rewrite ln_Rinv by lra; ring). assert (ln (/ v) <= / v - 1).
      { rewrite <- (ln_exp (/ v - 1)). apply Rcomplements.ln_le; [apply Rinv_0_lt_compat; lra|]. pose proof (exp_ineq1_le (/ v - 1)). lra. }
      assert (v * / v = 1) by (field; lra). nra.
    - assert (ln v <= 0) by (rewrite <- ln_1; apply Rcomplements.ln_le; lra). nra. }
  exists (Rabs (p2 c) + Rabs (p3 c) + Rabs (p4 c) + Rabs (p5 c) + Rabs (p5l c) + Rabs (p6 c) + Rabs (p6l c) + Rabs (p7 c) + 1).
  split. { pose proof (Rabs_pos (p2 c)). pose proof (Rabs_pos (p3 c)). pose proof (Rabs_pos (p4 c)). pose proof (Rabs_pos (p5 c)). pose proof (Rabs_pos (p5l c)). pose proof (Rabs_pos (p6 c)). pose proof (Rabs_pos (p6l c)). pose proof (Rabs_pos (p7 c)). lra. }
  intros v Hv. specialize (L v Hv). unfold pn_corrections.
  replace (p2 c * v ^ 2 + p3 c * v ^ 3 + p4 c * v ^ 4 + (p5 c + p5l c * ln v) * v ^ 5 + (p6 c + p6l c * ln v) * v ^ 6 + p7 c * v ^ 7)
    with ((p2 c + p3 c * v + p4 c * v ^ 2 + p5 c * v ^ 3 + p5l c * (v ^ 2 * (ln v * v)) + p6 c * v ^ 4 + p6l c * (v ^ 3 * (ln v * v)) + p7 c * v ^ 5) * v ^ 2) by ring.
  rewrite Rabs_mult, (Rabs_right (v ^ 2)) by (apply Rle_ge, pow_le; lra). apply Rmult_le_compat_r; [apply pow_le; lra|].
  assert (T : forall a w, Rabs w <= 1 -> Rabs (a * w) <= Rabs a). { intros a w Hw. rewrite Rabs_mult. pose proof (Rabs_pos a). nra. }
  assert (V : forall j, Rabs (v ^ j) <= 1). { intros j. rewrite Rabs_right by (apply Rle_ge, pow_le; lra). rewrite <- (pow1 j). apply pow_incr. lra. }
  assert (W : forall j, Rabs (v ^ j * (ln v * v)) <= 1). { intros j. rewrite Rabs_mult. pose proof (V j). pose proof (Rabs_pos (v ^ j)). pose proof (Rabs_pos (ln v * v)). nra. }
  pose proof (T (p3 c) v ltac:(rewrite Rabs_right; lra)) as T3. pose proof (T (p4 c) _ (V 2%nat)) as T4. pose proof (T (p5 c) _ (V 3%nat)) as T5. pose proof (T (p5l c) _ (W 2%nat)) as T5l.
  pose proof (T (p6 c) _ (V 4%nat)) as T6. pose proof (T (p6l c) _ (W 3%nat)) as T6l. pose proof (T (p7 c) _ (V 5%nat)) as T7.
  assert (G : forall a b A B, Rabs a <= A -> Rabs b <= B -> Rabs (a + b) <= A + B). { intros a b A B Ha Hb. eapply Rle_trans; [apply Rabs_triang|]. lra. }
  pose proof (G _ _ _ _ (G _ _ _ _ (G _ _ _ _ (G _ _ _ _ (G _ _ _ _ (G _ _ _ _ (G _ _ _ _ (Rle_refl (Rabs (p2 c))) T3) T4) T5) T5l) T6) T6l) T7) as GG. lra.
Qed.
(** a real series with this spectrum exists, for every length *)
Theorem taylorf2_series_exists n sr mc mr chi1 chi2 dist phic incl f_ref : (1 <= n)%nat ->
  exists x : nat -> R, forall k, (0 < k)%nat -> (2 * k < n)%nat ->
    rfft n x k = Cmult (RtoC sr) (snd (tf2_one (INR k * (sr / INR n)) mc mr chi1 chi2 dist phic incl f_ref)).
Proof.
  intros Hn. exists (irfft n (fun k => Cmult (RtoC sr) (snd (tf2_one (INR k * (sr / INR n)) mc mr chi1 chi2 dist phic incl f_ref)))).
  intros k Hk H2. rewrite rfft_irfft; [| |lia].
  - replace (k =? 0)%nat with false by lia. replace (2 * k =? n)%nat with false by lia. reflexivity.
  - unfold rbins. pose proof (Nat.div_mod n 2 ltac:(lia)). pose proof (Nat.mod_upper_bound n 2 ltac:(lia)). lia.
Qed.
