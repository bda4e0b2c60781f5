(** C112: general relativity has no scale: k times the masses, at 1/k of every frequency, is the same waveform, k^2 times as large in the frequency domain
    (k times as large in the time domain, where it is k times as slow). *)
From Coq Require Import Reals Lra ZArith Lia.
From Coquelicot Require Import Coquelicot.
From Verif Require Import Base Tensor Rutil Dft Gw_model Gw_props Conv_model Conv_props Wave_model Wave_props Bounds_props Qt_model Qt_props Qt2_props Iir_model Iir_props Gen_model Gen_row Gen_props Gen_main.
From Verif Require Import Tf2_model Tf2_props Phd_fits Phd_model Phd_main Php_fits Php_geom Php_model Php_core Php_main Php_final Gen_appr Const_props.
Local Open Scope R_scope.

(** ** frequency domain, one binary and one frequency *)
Lemma components_scale k mc q : components (k * mc) q = (k * fst (components mc q), k * snd (components mc q)).
Proof. unfold components. cbn [fst snd]. unfold Rdiv. f_equal; ring. Qed.
Lemma coeffs_scale k m1 m2 c1 c2 : 0 < k -> 0 < m1 -> 0 < m2 -> tf2_coeffs (k * m1) (k * m2) c1 c2 = tf2_coeffs m1 m2 c1 c2.
Proof.
  intros Hk H1 H2. unfold tf2_coeffs. assert (E1 : k * m1 * (k * m2) / (k * m1 + k * m2) / (k * m1 + k * m2) = m1 * m2 / (m1 + m2) / (m1 + m2)) by (field; split; nra).
  assert (E2 : k * m1 / (k * m1 + k * m2) = m1 / (m1 + m2)) by (field; split; nra). assert (E3 : k * m2 / (k * m1 + k * m2) = m2 / (m1 + m2)) by (field; split; nra). rewrite E1, E2, E3. reflexivity.
Qed.
Lemma amplitude_scale k Mf m1 m2 eta d : tf2_amplitude Mf (k * m1) (k * m2) eta d = k ^ 2 * tf2_amplitude Mf m1 m2 eta d.
Proof. unfold tf2_amplitude, Rdiv. ring. Qed.
Lemma ratio_scale k a b : 0 < k -> 0 < a -> 0 < b -> a * b / (a + b) / (a + b) = k * a * (k * b) / (k * a + k * b) / (k * a + k * b). Proof. intros. field. split; nra. Qed.
Lemma ratio_scale2 k a b : 0 < k -> 0 < a -> 0 < b -> a * b / (a + b) ^ 2 = k * a * (k * b) / (k * a + k * b) ^ 2. Proof. intros. field. split; nra. Qed.
Lemma freq_scale k a b f : 0 < k -> (k * a + k * b) * (f / k) = (a + b) * f. Proof. intros. field. lra. Qed.
Lemma Cscale_pair c x y : Cmult (RtoC c) (x, y) = (c * x, c * y). Proof. unfold Cmult, RtoC. cbn [fst snd]. f_equal; ring. Qed.

Theorem tf2_mass_scaling k f mc q chi1 chi2 dist phic incl f_ref : 0 < k -> 0 < mc -> 0 < q ->
  tf2_one (f / k) (k * mc) q chi1 chi2 dist phic incl (f_ref / k) = times (RtoC (k ^ 2)) (tf2_one f mc q chi1 chi2 dist phic incl f_ref).
Proof.
  intros Hk Hm Hq. pose proof (components_spec mc q Hm Hq) as HC. unfold tf2_one. rewrite components_scale. destruct (components mc q) as [m1 m2]. destruct HC as (H1 & H2 & _). cbn [fst snd].
  assert (E : tf2_htilde (f / k) (k * m1) (k * m2) chi1 chi2 dist phic (f_ref / k) = Cmult (RtoC (k ^ 2)) (tf2_htilde f m1 m2 chi1 chi2 dist phic f_ref)).
  { unfold tf2_htilde. cbv zeta. assert (HT : 0 < MTSUN_SI) by (unfold MTSUN_SI; lra). rewrite coeffs_scale by assumption.
    replace ((k * m1 * MTSUN_SI + k * m2 * MTSUN_SI) * (f / k)) with ((m1 * MTSUN_SI + m2 * MTSUN_SI) * f) by (field; lra). replace ((k * m1 * MTSUN_SI + k * m2 * MTSUN_SI) * (f_ref / k)) with ((m1 * MTSUN_SI + m2 * MTSUN_SI) * f_ref) by (field; lra).
    replace (k * m1 * MTSUN_SI * (k * m2 * MTSUN_SI) / (k * m1 * MTSUN_SI + k * m2 * MTSUN_SI) / (k * m1 * MTSUN_SI + k * m2 * MTSUN_SI)) with (m1 * MTSUN_SI * (m2 * MTSUN_SI) / (m1 * MTSUN_SI + m2 * MTSUN_SI) / (m1 * MTSUN_SI + m2 * MTSUN_SI)) by (rewrite !(Rmult_assoc k m1 MTSUN_SI), !(Rmult_assoc k m2 MTSUN_SI); apply ratio_scale; try assumption; apply Rmult_lt_0_compat; assumption).
    rewrite amplitude_scale, Cscale_pair. f_equal; ring. }
  rewrite E. set (h := tf2_htilde _ _ _ _ _ _ _ _). clearbody h. unfold times. cbn [fst snd]. f_equal; ring.
Qed.

(** IMRPhenomD: only the two masses of its parameters change, and they enter through their ratios *)
Definition heavier (k : R) (p : dpar) : dpar := mkd (k * d_m1 p) (k * d_m2 p) (d_eta p) (d_Seta p) (d_chi1 p) (d_chi2 p) (d_chi12 p) (d_chi22 p) (d_xi p) (d_fRD p) (d_fDM p).
Lemma ins_phase_scale k p Mf : 0 < k -> 0 < d_m1 p -> 0 < d_m2 p -> ins_phase (heavier k p) Mf = ins_phase p Mf.
Proof.
  intros Hk H1 H2. unfold ins_phase, sub3PNSS, heavier. cbn [d_m1 d_m2 d_eta d_chi1 d_chi2 d_xi]. rewrite coeffs_scale by assumption.
  assert (E2 : k * d_m1 p / (k * d_m1 p + k * d_m2 p) = d_m1 p / (d_m1 p + d_m2 p)) by (field; split; nra). assert (E3 : k * d_m2 p / (k * d_m1 p + k * d_m2 p) = d_m2 p / (d_m1 p + d_m2 p)) by (field; split; nra).
  rewrite E2, E3. reflexivity.
Qed.
Lemma int_phase_scale k p Mf : int_phase (heavier k p) Mf = int_phase p Mf. Proof. reflexivity. Qed.
Lemma mrd_phase_scale k p Mf : mrd_phase (heavier k p) Mf = mrd_phase p Mf. Proof. reflexivity. Qed.
Lemma peak_scale k p : pd_peak (heavier k p) = pd_peak p. Proof. reflexivity. Qed.
Lemma pd_amp_scale k p Mf : pd_amp (heavier k p) Mf = pd_amp p Mf. Proof. reflexivity. Qed.
Lemma pd_phase_scale k p Mf : 0 < k -> 0 < d_m1 p -> 0 < d_m2 p -> pd_phase (heavier k p) Mf = pd_phase p Mf.
Proof.
  intros Hk H1 H2. assert (E2 : C2Int (heavier k p) = C2Int p) by (unfold C2Int; rewrite ins_phase_scale by assumption; reflexivity). assert (E1 : C1Int (heavier k p) = C1Int p) by (unfold C1Int; rewrite ins_phase_scale, E2 by assumption; reflexivity).
  assert (EJ : rd_join (heavier k p) = rd_join p) by reflexivity.
  assert (E3 : C2MRD (heavier k p) = C2MRD p) by (unfold C2MRD; rewrite E2, EJ, int_phase_scale, mrd_phase_scale; reflexivity). assert (E4 : C1MRD (heavier k p) = C1MRD p) by (unfold C1MRD; rewrite E1, E2, E3, EJ, int_phase_scale, mrd_phase_scale; reflexivity).
  unfold pd_phase. rewrite E1, E2, E3, E4, EJ, ins_phase_scale, int_phase_scale, mrd_phase_scale by assumption. reflexivity.
Qed.
Lemma total_scale k mc q : pd_total (k * mc) q = k * pd_total mc q. Proof. unfold pd_total, Rdiv. ring. Qed.
Lemma total_pos mc q : 0 < mc -> 0 < q -> 0 < pd_total mc q.
Proof. intros. unfold pd_total. apply Rdiv_lt_0_compat; [apply Rmult_lt_0_compat; [assumption|]|]; unfold Rpower; apply exp_pos. Qed.
Lemma pd_eta_scale k mc q : 0 < k -> 0 < mc -> 0 < q -> pd_eta (k * mc) q = pd_eta mc q.
Proof. intros Hk Hm Hq. unfold pd_eta. rewrite total_scale. pose proof (total_pos mc q Hm Hq). f_equal. field. split; lra. Qed.
Lemma pd_params_scale k mc q chi1 chi2 : 0 < k -> 0 < mc -> 0 < q -> pd_params (k * mc) q chi1 chi2 = heavier k (pd_params mc q chi1 chi2).
Proof.
  intros Hk Hm Hq. unfold pd_params. rewrite total_scale, pd_eta_scale by assumption. cbv zeta. destruct (fring_fdamp _ _ _) as [a b]. unfold heavier. cbn [d_m1 d_m2 d_eta d_Seta d_chi1 d_chi2 d_chi12 d_chi22 d_xi d_fRD d_fDM].
  unfold Rdiv. rewrite (Rmult_assoc k), (Rmult_assoc k). reflexivity.
Qed.
Lemma pd_masses_pos mc q chi1 chi2 : 0 < mc -> 0 < q -> 0 < d_m1 (pd_params mc q chi1 chi2) /\ 0 < d_m2 (pd_params mc q chi1 chi2).
Proof.
  intros Hm Hq. pose proof (total_pos mc q Hm Hq) as HT. unfold pd_params. cbv zeta. destruct (fring_fdamp _ _ _) as [a b]. cbn [d_m1 d_m2]. assert (0 < pd_total mc q / (1 + q)) by (apply Rdiv_lt_0_compat; lra). split; [assumption|apply Rmult_lt_0_compat; assumption].
Qed.
Theorem pd_mass_scaling k f mc q chi1 chi2 dist phic incl f_ref : 0 < k -> 0 < mc -> 0 < q ->
  pd_one (f / k) (k * mc) q chi1 chi2 dist phic incl (f_ref / k) = times (RtoC (k ^ 2)) (pd_one f mc q chi1 chi2 dist phic incl f_ref).
Proof.
  intros Hk Hm Hq. destruct (pd_masses_pos mc q chi1 chi2 Hm Hq) as [H1 H2].
  assert (E : pd_htilde (f / k) (k * mc) q chi1 chi2 dist phic (f_ref / k) = Cmult (RtoC (k ^ 2)) (pd_htilde f mc q chi1 chi2 dist phic f_ref)).
  { unfold pd_htilde, pd_Psi. rewrite pd_params_scale, total_scale by assumption. set (p := pd_params mc q chi1 chi2) in *. set (M := pd_total mc q). cbv zeta.
    replace (k * M * MTSUN_SI * (f / k)) with (M * MTSUN_SI * f) by (field; lra). replace (k * M * MTSUN_SI * (f_ref / k)) with (M * MTSUN_SI * f_ref) by (field; lra).
    rewrite !pd_phase_scale by assumption. rewrite pd_amp_scale, mrd_phase_scale, peak_scale. change (d_m1 (heavier k p)) with (k * d_m1 p). change (d_m2 (heavier k p)) with (k * d_m2 p). change (d_eta (heavier k p)) with (d_eta p).
    rewrite amplitude_scale, Cscale_pair. f_equal; ring. }
  unfold pd_one. rewrite E. set (h := pd_htilde _ _ _ _ _ _ _ _). clearbody h. unfold times. cbn [fst snd]. cbv zeta. f_equal; ring.
Qed.

(** IMRPhenomPv2: the geometry at the reference frequency, the ringdown frequencies and the twist *)
Lemma convert_scale k m1 m2 f_ref phic incl s1 s2 : 0 < k -> 0 < m1 -> 0 < m2 -> convert_spins (k * m1) (k * m2) (f_ref / k) phic incl s1 s2 = convert_spins m1 m2 f_ref phic incl s1 s2.
Proof.
  intros Hk H1 H2. assert (EJ : pp_J0 (k * m1) (k * m2) (f_ref / k) s1 s2 = let J := pp_J0 m1 m2 f_ref s1 s2 in V (k ^ 2 * vx J) (k ^ 2 * vy J) (k ^ 2 * vz J)).
  { unfold pp_J0. cbv zeta. cbn [vx vy vz]. replace (k * m1 * (k * m2) / ((k * m1 + k * m2) * (k * m1 + k * m2))) with (m1 * m2 / ((m1 + m2) * (m1 + m2))) by (field; split; nra).
    replace (PI * ((k * m1 + k * m2) * MTSUN_SI) * (f_ref / k)) with (PI * ((m1 + m2) * MTSUN_SI) * f_ref) by (field; lra). set (L := L2PNR _ _). f_equal; ring. }
  assert (EC : pp_chip (k * m1) (k * m2) s1 s2 = pp_chip m1 m2 s1 s2).
  { unfold pp_chip. cbv zeta. replace (3 * (k * m2) / (2 * (k * m1))) with (3 * m2 / (2 * m1)) by (field; split; lra). replace (3 * (k * m1) / (2 * (k * m2))) with (3 * m1 / (2 * m2)) by (field; split; lra).
    set (A1 := 2 + 3 * m2 / (2 * m1)). set (A2 := 2 + 3 * m1 / (2 * m2)). assert (P2 : 0 < A2) by (unfold A2; assert (0 < 3 * m1 / (2 * m2)) by (apply Rdiv_lt_0_compat; lra); lra).
    set (u := sqrt (vx s1 ^ 2 + _)). set (v := sqrt (vx s2 ^ 2 + _)).
    replace (A1 * (k * m1 * (k * m1) * u)) with (k ^ 2 * (A1 * (m1 * m1 * u))) by ring. replace (A2 * (k * m2 * (k * m2) * v)) with (k ^ 2 * (A2 * (m2 * m2 * v))) by ring. rewrite RmaxRmult by nra. field. repeat split; lra. }
  unfold convert_spins. rewrite EJ, EC. cbv zeta. cbn [vx vy vz]. set (J := pp_J0 m1 m2 f_ref s1 s2). assert (K2 : 0 < k ^ 2) by (apply pow_lt; exact Hk).
  replace (k ^ 2 * vx J * (k ^ 2 * vx J) + k ^ 2 * vy J * (k ^ 2 * vy J) + k ^ 2 * vz J * (k ^ 2 * vz J)) with (k ^ 2 * k ^ 2 * (vx J * vx J + vy J * vy J + vz J * vz J)) by ring.
  rewrite sqrt_mult_alt by nra. rewrite sqrt_square by lra. set (n := sqrt (vx J * vx J + vy J * vy J + vz J * vz J)). rewrite (atan2_scale (k ^ 2)) by exact K2.
  replace (k ^ 2 * vz J / (k ^ 2 * n)) with (vz J / n).
  2:{ destruct (Req_dec n 0) as [->|N]; [rewrite Rmult_0_r; unfold Rdiv; rewrite Rinv_0; ring|field; split; [exact N|lra]]. }
  reflexivity.
Qed.
Lemma fRD_scale k m1 m2 c1 c2 cp : 0 < k -> 0 < m1 -> 0 < m2 -> phP_fRD_fdamp (k * m1) (k * m2) c1 c2 cp = rmap (fun p => (fst p / k, snd p / k)) (phP_fRD_fdamp m1 m2 c1 c2 cp).
Proof.
  intros Hk H1 H2. assert (HT : 0 < MTSUN_SI) by (unfold MTSUN_SI; lra). unfold phP_fRD_fdamp, FinalSpin_inplane. cbv zeta. assert (0 < m1 * MTSUN_SI) by nra. assert (0 < m2 * MTSUN_SI) by nra.
  replace (k * m1 * (k * m2) / ((k * m1 + k * m2) * (k * m1 + k * m2))) with (m1 * m2 / ((m1 + m2) * (m1 + m2))) by (field; split; nra).
  replace (k * m1 / (k * m1 + k * m2)) with (m1 / (m1 + m2)) by (field; split; nra).
  replace (k * m1 * MTSUN_SI * (k * m2 * MTSUN_SI) / (k * m1 * MTSUN_SI + k * m2 * MTSUN_SI) ^ 2) with (m1 * MTSUN_SI * (m2 * MTSUN_SI) / (m1 * MTSUN_SI + m2 * MTSUN_SI) ^ 2) by (rewrite !(Rmult_assoc k m1 MTSUN_SI), !(Rmult_assoc k m2 MTSUN_SI); apply ratio_scale2; assumption).
  set (e := PhenomInternal_EradRational0815 _ _ _ _). set (x := _ * sqrt _). clearbody e x. destruct (pp_interp qnm_a qnm_fring x) as [a|]; [|reflexivity]. cbn [bind]. destruct (pp_interp qnm_a qnm_fdamp x) as [b|]; [|reflexivity]. cbn [bind rmap fst snd].
  replace (k * m1 * MTSUN_SI + k * m2 * MTSUN_SI) with (k * (m1 * MTSUN_SI + m2 * MTSUN_SI)) by ring. set (Ms := m1 * MTSUN_SI + m2 * MTSUN_SI). assert (0 < Ms) by (unfold Ms; lra). unfold Rdiv. rewrite (Rinv_mult k Ms). do 2 f_equal; ring.
Qed.
Theorem pp_mass_scaling k f mc q s1 s2 dist phic incl f_ref tc : 0 < k -> 0 < mc -> 0 < q ->
  pp_one (f / k) (k * mc) q s1 s2 dist phic incl (f_ref / k) tc = rmap (times (RtoC (k ^ 2))) (pp_one f mc q s1 s2 dist phic incl f_ref tc).
Proof.
  intros Hk Hm Hq. pose proof (components_spec mc q Hm Hq) as HC. unfold pp_one. rewrite components_scale. destruct (components mc q) as [ml ms]. destruct HC as (Hl & Hs & _). cbn [fst snd]. cbv zeta.
  rewrite convert_scale by assumption. set (pc := convert_spins ms ml f_ref phic incl s2 s1).
  replace (k * ml / (k * ms)) with (ml / ms) by (field; split; lra).
  replace ((k * ms * pc_chi1 pc + k * ml * pc_chi2 pc) / (k * ms + k * ml)) with ((ms * pc_chi1 pc + ml * pc_chi2 pc) / (ms + ml)) by (field; split; nra).
  replace (k * ms * (k * ml) / ((k * ms + k * ml) * (k * ms + k * ml))) with (ms * ml / ((ms + ml) * (ms + ml))) by (field; split; nra).
  replace (PI * ((k * ms + k * ml) * MTSUN_SI) * (f_ref / k)) with (PI * ((ms + ml) * MTSUN_SI) * f_ref) by (field; lra).
  unfold PhenomPOne. rewrite fRD_scale by assumption. destruct (phP_fRD_fdamp ml ms _ _ _) as [[fRD fDM]|e]; [|reflexivity]. cbn [rmap bind fst snd]. cbv zeta.
  set (eta := ms * ml / _). set (xi := - 1 + chiPN _ _ _ _). set (Se := sqrt (1 - 4 * eta)).
  replace ((k * ms + k * ml) * MTSUN_SI * (fRD / k)) with ((ms + ml) * MTSUN_SI * fRD) by (field; lra). replace ((k * ms + k * ml) * MTSUN_SI * (fDM / k)) with ((ms + ml) * MTSUN_SI * fDM) by (field; lra).
  replace ((k * ms + k * ml) * MTSUN_SI * (f / k)) with ((ms + ml) * MTSUN_SI * f) by (field; lra).
  set (p := mkd ml ms eta Se (pc_chi2 pc) (pc_chi1 pc) (pc_chi1 pc * pc_chi1 pc) (pc_chi2 pc * pc_chi2 pc) xi ((ms + ml) * MTSUN_SI * fRD) ((ms + ml) * MTSUN_SI * fDM)).
  change (mkd (k * ml) (k * ms) eta Se (pc_chi2 pc) (pc_chi1 pc) (pc_chi1 pc * pc_chi1 pc) (pc_chi2 pc * pc_chi2 pc) xi ((ms + ml) * MTSUN_SI * fRD) ((ms + ml) * MTSUN_SI * fDM)) with (heavier k p).
  rewrite pd_phase_scale by assumption. rewrite pd_amp_scale.
  assert (ED : diffRD (heavier k p) ((k * ms + k * ml) * MTSUN_SI) (fRD / k) = k * diffRD p ((ms + ml) * MTSUN_SI) fRD).
  { assert (ER : forall j, RDphase (heavier k p) ((k * ms + k * ml) * MTSUN_SI) (fRD / k) j = RDphase p ((ms + ml) * MTSUN_SI) fRD j).
    { intros j. unfold RDphase. rewrite pd_phase_scale by assumption. do 2 f_equal. set (c := 8 / 10 + _). clearbody c. field. lra. }
    unfold diffRD. cbv zeta. rewrite !ER. set (d1 := RDphase p _ _ (498 + 1 + 1)). set (d2 := RDphase p _ _ (498 + 1)). set (d3 := RDphase p _ _ 498). set (d4 := RDphase p _ _ (499 + 1 + 1)). set (d5 := RDphase p _ _ (499 + 1)). set (d6 := RDphase p _ _ 499). clearbody d1 d2 d3 d4 d5 d6.
    replace (2 * ((12 / 10 * (fRD / k) - 8 / 10 * (fRD / k)) / 999)) with (/ k * (2 * ((12 / 10 * fRD - 8 / 10 * fRD) / 999))) by (field; lra). set (D := 2 * ((12 / 10 * fRD - 8 / 10 * fRD) / 999)). clearbody D.
    unfold Rdiv. rewrite (Rinv_mult (/ k) D), Rinv_inv. ring. }
  rewrite ED. set (dd := diffRD p _ _). clearbody dd.
  replace (2 * PI * (f / k) * (k * dd / (2 * PI))) with (2 * PI * f * (dd / (2 * PI))) by (pose proof PI_RGT_0; field; split; lra).
  replace (f / k * ((k * ms + k * ml) * MTSUN_SI) * tc) with (f * ((ms + ml) * MTSUN_SI) * tc) by (field; lra).
  unfold TwistUp. cbv zeta. replace (PI * (f / k * MTSUN_SI * (k * ms + k * ml))) with (PI * (f * MTSUN_SI * (ms + ml))) by (field; lra).
  set (ph := fst (pd_phase p _) - _). set (A := get_Amp0 _ _ * fst (pd_amp p _)). clearbody ph A.
  replace (A * ((k * ms + k * ml) * MTSUN_SI) ^ 2 / (dist * MPC_SEC)) with (k ^ 2 * (A * ((ms + ml) * MTSUN_SI) ^ 2 / (dist * MPC_SEC))) by (unfold Rdiv; ring). set (B := A * _ / _). clearbody B.
  destruct (Wignerd _ _ _ _) as [cB sB]. set (T2 := T2m _ _ _ _). set (Tm := Tm2m _ _ _ _). set (e := cis_ (- (2 * _))). set (z1 := RtoC (cos (2 * pc_zeta _))). set (z2 := RtoC (sin (2 * pc_zeta _))). set (c1 := cis_ _). set (c2 := (cos _, - sin _) : Complex.C).
  cbn [rmap]. unfold times. cbn [fst snd].
  replace (k ^ 2 * B * cos (- ph), k ^ 2 * B * sin (- ph)) with (Cmult (RtoC (k ^ 2)) (B * cos (- ph), B * sin (- ph))) by (rewrite Cscale_pair; f_equal; ring).
  set (h := (B * cos (- ph), B * sin (- ph)) : Complex.C). unfold Cdiv. set (i2 := Cinv (RtoC 2)). clearbody T2 Tm e z1 z2 c1 c2 h i2. f_equal. f_equal; ring.
Qed.

(** the modules on a batch: same errors, and k^2 times the values *)
Section Batch.
Variables (k : R) (f mc q : list R).
Hypothesis Hk : 0 < k.
Hypothesis Hm : forall i, (i < List.length mc)%nat -> 0 < nth i mc 0 /\ 0 < nth i q 0.
Lemma nth_k l i : nth i (map (Rmult k) l) 0 = k * nth i l 0.
Proof. replace 0 with (k * 0) at 1 by ring. apply map_nth. Qed.
Theorem tf2_batch_scaling chi1 chi2 dist phic incl f_ref :
  tf2_forward (map (fun x => x / k) f) (map (Rmult k) mc) q chi1 chi2 dist phic incl (f_ref / k) = rmap (map (map (times (RtoC (k ^ 2))))) (tf2_forward f mc q chi1 chi2 dist phic incl f_ref).
Proof.
  unfold tf2_forward. rewrite map_length. destruct (forallb _ _); [|reflexivity]. cbn [rmap]. f_equal. rewrite map_map. apply map_ext_in. intros i Hi. apply in_seq in Hi. rewrite !map_map. apply map_ext. intros x. rewrite nth_k. destruct (Hm i) as [A B]; [lia|]. apply tf2_mass_scaling; assumption.
Qed.
Theorem pd_batch_scaling chi1 chi2 dist phic incl f_ref :
  pd_forward (map (fun x => x / k) f) (map (Rmult k) mc) q chi1 chi2 dist phic incl (f_ref / k) = rmap (map (map (times (RtoC (k ^ 2))))) (pd_forward f mc q chi1 chi2 dist phic incl f_ref).
Proof.
  unfold pd_forward. rewrite map_length. destruct (forallb _ _); [|reflexivity].
  match goal with |- (if existsb ?F ?l then _ else _) = rmap _ (if existsb ?G ?l then _ else _) => replace (existsb F l) with (existsb G l) end.
  2:{ assert (K : forall (A : Type) (F G : A -> bool) l, (forall x, In x l -> F x = G x) -> existsb F l = existsb G l) by (intros A F G l H; induction l as [|a l IH]; [reflexivity|]; cbn; rewrite (H a), IH by (intros; apply H; cbn; tauto) || (left; reflexivity); reflexivity).
      apply K. intros i Hi. apply in_seq in Hi. destruct (Hm i) as [A B]; [lia|]. cbv beta zeta. rewrite nth_k, pd_eta_scale by assumption. reflexivity. }
  destruct (existsb _ _); [reflexivity|]. cbn [rmap]. f_equal. rewrite map_map. apply map_ext_in. intros i Hi. apply in_seq in Hi. rewrite !map_map. apply map_ext. intros x. rewrite nth_k. destruct (Hm i) as [A B]; [lia|]. apply pd_mass_scaling; assumption.
Qed.
Lemma sequence_rmap {A B} (h : A -> B) l : sequence (map (rmap h) l) = rmap (map h) (sequence l).
Proof. induction l as [|[a|e] l IH]; [reflexivity| |reflexivity]. cbn [map sequence rmap bind]. rewrite IH. destruct (sequence l); reflexivity. Qed.
Theorem pp_batch_scaling s1 s2 dist phic incl f_ref tc :
  pp_forward (map (fun x => x / k) f) (map (Rmult k) mc) q s1 s2 dist phic incl (f_ref / k) tc = rmap (map (map (times (RtoC (k ^ 2))))) (pp_forward f mc q s1 s2 dist phic incl f_ref tc).
Proof.
  unfold pp_forward. rewrite map_length, <- sequence_rmap, map_map. f_equal. apply map_ext_in. intros i Hi. apply in_seq in Hi. rewrite <- sequence_rmap, !map_map. f_equal. apply map_ext. intros x. rewrite nth_k. destruct (Hm i) as [A B]; [lia|]. apply pp_mass_scaling; assumption.
Qed.
End Batch.

(** ** time domain: the generator *)
(** 1/k of the sample rate and of the minimum frequency, k times the duration and the padding; the cut-off of the high-pass, relative to the sample rate, is the same,
    so scipy's design (a function of that ratio) returns the same coefficients *)
Definition slower (k : R) (g : gen) : gen := mkgen (g_sr g / k) (k * g_dur g) (g_fmin g / k) (k * g_rpad g) (g_a g) (g_b g).
Definition massive (k : R) (r : row) : row := mkrow (k * m_1 r) (k * m_2 r) (s_1 r) (s_2 r).
Theorem slower_filter k g : 0 < k -> 0 < g_sr g -> cutoff (slower k g) / g_sr (slower k g) = cutoff g / g_sr g.
Proof.
  intros Hk Hs. unfold cutoff, slower. cbn [g_sr g_fmin]. replace (PI * (g_fmin g / k) / (g_sr g / k)) with (PI * g_fmin g / g_sr g) by (field; split; lra). cbv zeta. set (w := atan _). clearbody w. pose proof PI_RGT_0. field. repeat split; lra.
Qed.
Section Generator.
Variables (k : R) (g : gen).
Hypothesis Hk : 0 < k.
Hypothesis Hg : good_gen g.
Hypothesis Hs : 2 <= g_sr g / k.
Lemma slower_good : good_gen (slower k g).
Proof.
  destruct Hg as (A & [B1 B2] & D). unfold good_gen, slower. cbn [g_sr g_fmin g_dur]. assert (IK : 0 < / k) by (apply Rinv_0_lt_compat, Hk). repeat split; [exact Hs|apply Rdiv_lt_0_compat; assumption| |apply Rmult_le_pos; lra].
  replace (g_sr g / k / 2) with (g_sr g / 2 / k) by (unfold Rdiv; ring). apply Rmult_le_compat_r; lra.
Qed.
Section OneRow.
Variable r : row.
Hypothesis Hr : good_row r.
Lemma massive_good : good_row (massive k r).
Proof. destruct Hr as (A & B & D). unfold good_row, massive. cbn [m_1 m_2 s_1 s_2]. split; [apply Rmult_lt_0_compat; assumption|]. split; [apply Rmult_lt_0_compat; assumption|exact D]. Qed.
Lemma kg_scale m : kg (k * m) = k * kg m. Proof. unfold kg. ring. Qed.
Lemma kgs : 0 < kg (m_1 r) /\ 0 < kg (m_2 r). Proof. destruct Hr as (A & B & _). unfold kg. assert (0 < MSUN) by (unfold MSUN; lra). split; apply Rmult_lt_0_compat; assumption. Qed.
Lemma r_isco : row_isco (massive k r) = row_isco r / k.
Proof. destruct kgs. unfold row_isco, massive. cbn [m_1 m_2]. rewrite !kg_scale. apply isco_scaling; assumption. Qed.
Lemma Rmin_div a b : Rmin (a / k) (b / k) = Rmin a b / k.
Proof. assert (IK : 0 < / k) by (apply Rinv_0_lt_compat, Hk). unfold Rmin, Rdiv. destruct (Rle_dec a b) as [L|L]; destruct (Rle_dec (a * / k) (b * / k)) as [L'|L']; try reflexivity; exfalso; [apply L', Rmult_le_compat_r; lra|apply L; apply Rmult_le_reg_r with (/ k); assumption]. Qed.
Lemma r_fmin : row_fmin (slower k g) (massive k r) = row_fmin g r / k.
Proof. unfold row_fmin. rewrite r_isco. unfold slower. cbn [g_fmin]. apply Rmin_div. Qed.
Lemma fm0 : 0 < row_fmin g r. Proof. apply fmin_range; [exact Hr|apply Hg]. Qed.
Lemma r_tchirp : row_tchirp (slower k g) (massive k r) = k * row_tchirp g r.
Proof. destruct kgs. unfold row_tchirp. rewrite r_fmin. unfold massive. cbn [m_1 m_2 s_1 s_2]. rewrite !kg_scale. apply chirp_time_scaling; try assumption. apply fm0. Qed.
Lemma r_tmerge : row_tmerge (massive k r) = k * row_tmerge r.
Proof.
  destruct kgs as [K1 K2]. unfold row_tmerge, massive. cbn [m_1 m_2 s_1 s_2]. rewrite !kg_scale. assert (HT : 0 < MTSUN_SI) by (unfold MTSUN_SI; lra). assert (HM : 0 < MSUN) by (unfold MSUN; lra).
  unfold merge_time_bound, ringdown_time_bound. cbv zeta. set (a := kg (m_1 r)) in *. set (b := kg (m_2 r)) in *. set (w := 15251 / 10000 + _). set (Q := 7000 / 10000 + _). clearbody a b w Q.
  replace ((k * a + k * b) * MTSUN_SI / MSUN) with (k * ((a + b) * MTSUN_SI / MSUN)) by (unfold Rdiv; ring). set (X := (a + b) * MTSUN_SI / MSUN). clearbody X. unfold Rdiv. rewrite (Rinv_mult k X), !(Rinv_mult w), (Rinv_mult (/ k)), !Rinv_inv. ring.
Qed.
Lemma r_textra : row_textra (slower k g) (massive k r) = k * row_textra g r.
Proof. unfold row_textra. rewrite r_fmin. pose proof fm0. field. split; lra. Qed.
Lemma tchirp0 : 0 < row_tchirp g r.
Proof. destruct kgs. unfold row_tchirp. destruct (chirp_time_above_newtonian (row_fmin g r) (kg (m_1 r)) (kg (m_2 r)) (s_1 r) (s_2 r) fm0) as [A B]; try assumption. lra. Qed.
Lemma r_fstart : row_fstart (slower k g) (massive k r) = row_fstart g r / k.
Proof.
  destruct kgs. pose proof tchirp0. unfold row_fstart. rewrite r_tchirp. unfold massive. cbn [m_1 m_2]. rewrite !kg_scale. replace ((1 + 1 / 10) * (k * row_tchirp g r)) with (k * ((1 + 1 / 10) * row_tchirp g r)) by ring.
  apply start_frequency_scaling; try assumption. nra.
Qed.
Lemma fs0 : 0 < row_fstart g r. Proof. apply fstart_range; [exact Hr|apply Hg]. Qed.
Lemma r_time : row_time (slower k g) (massive k r) = k * row_time g r.
Proof.
  destruct kgs. unfold row_time. rewrite r_fstart, r_tmerge, r_textra. unfold massive. cbn [m_1 m_2 s_1 s_2]. rewrite !kg_scale. rewrite chirp_time_scaling; try assumption; [ring|apply fs0].
Qed.
Lemma r_samples : row_time (slower k g) (massive k r) * g_sr (slower k g) = row_time g r * g_sr g.
Proof. rewrite r_time. unfold slower. cbn [g_sr]. field. lra. Qed.
Lemma taper_scale L j : (0 < L)%nat -> taper (slower k g) L (massive k r) j = taper g L r j.
Proof.
  intros HL. apply lt_0_INR in HL. destruct Hg as (Sr & _). unfold taper. rewrite r_fstart, r_fmin. unfold slower. cbn [g_sr].
  assert (IK : 0 < / k) by (apply Rinv_0_lt_compat, Hk).
  replace (row_fmin g r / k / (g_sr g / k / INR L)) with (row_fmin g r / (g_sr g / INR L)) by (field; repeat split; lra). replace (row_fstart g r / k / (g_sr g / k / INR L)) with (row_fstart g r / (g_sr g / INR L)) by (field; repeat split; lra).
  replace (INR j * (g_sr g / k / INR L)) with (INR j * (g_sr g / INR L) / k) by (field; split; lra). set (x := INR j * (g_sr g / INR L)). set (y := row_fstart g r).
  destruct (Rlt_dec (x / k) (y / k)) as [A|A]; destruct (Rlt_dec x y) as [B|B]; try reflexivity; exfalso; [apply B; apply Rmult_lt_reg_r with (/ k); assumption|apply A; apply Rmult_lt_compat_r; assumption].
Qed.
Lemma start_scale t : start_gain (slower k g) t = start_gain g t.
Proof. destruct Hg as (Sr & [F _] & _). unfold start_gain, ntaper_start, slower. cbn [g_sr g_fmin]. replace (g_sr g / k / (g_fmin g / k)) with (g_sr g / g_fmin g) by (field; split; lra). reflexivity. Qed.
Lemma end_scale j : end_gain (slower k g) (massive k r) j = end_gain g r j.
Proof.
  destruct Hg as (Sr & _). assert (IP : 0 < row_isco r) by (apply isco_pos, Hr). unfold end_gain, ntaper_end. rewrite r_isco. unfold slower. cbn [g_sr]. replace (g_sr g / k / (row_isco r / k)) with (g_sr g / row_isco r) by (field; split; lra). reflexivity.
Qed.
Lemma series_scale L (h h' : R -> C) c t : (0 < L)%nat -> (forall f, 0 < f -> h' (f / k) = Cmult (RtoC c) (h f)) -> series (slower k g) L (massive k r) h' t = c / k * series g L r h t.
Proof.
  intros HL H. destruct Hg as (Sr & _). unfold series. rewrite start_scale, end_scale. unfold slower at 1 2 3. cbn [g_sr g_rpad]. replace (k * g_rpad g * (g_sr g / k)) with (g_rpad g * g_sr g) by (field; lra).
  assert (E : croll L (- rround (g_rpad g * g_sr g)) (irfft L (spectrum (slower k g) L (massive k r) h')) t = c * croll L (- rround (g_rpad g * g_sr g)) (irfft L (spectrum g L r h)) t).
  { unfold croll. rewrite <- irfft_scal. apply irfft_ext'. intros j Hj. unfold spectrum. destruct (j =? L / 2)%nat; [apply injective_projections; cbn; ring|]. rewrite taper_scale by exact HL.
    destruct j as [|j].
    - unfold taper. replace (INR 0 * (g_sr g / INR L)) with 0 by (cbn; ring). pose proof fs0. destruct (Rlt_dec 0 (row_fstart g r)) as [_|N]; [|contradiction]. apply injective_projections; cbn; ring.
    - unfold slower. cbn [g_sr]. assert (LI : 0 < INR L) by (apply lt_0_INR, HL). replace (INR (S j) * (g_sr g / k / INR L)) with (INR (S j) * (g_sr g / INR L) / k) by (field; split; lra).
      rewrite H; [apply injective_projections; cbn; ring|]. apply Rmult_lt_0_compat; [apply lt_0_INR; lia|]. apply Rdiv_lt_0_compat; lra. }
  rewrite E. unfold Rdiv. ring.
Qed.
End OneRow.

(** the two runs: same shapes, and every sample of the second is c times that of the first *)
Definition scaled_run (rs : list row) (approx approx' : list R -> res (list (list (C * C)))) (c : R) : Prop :=
  exists hc hp hc' hp' n, gen_forward g approx rs = Ok (hc, hp) /\ gen_forward (slower k g) approx' (map (massive k) rs) = Ok (hc', hp') /\
    shape hc = [List.length rs; n] /\ shape hp = [List.length rs; n] /\ shape hc' = [List.length rs; n] /\ shape hp' = [List.length rs; n] /\
    forall i t, (i < List.length rs)%nat -> (t < n)%nat -> elt hc' [i; t] = c * elt hc [i; t] /\ elt hp' [i; t] = c * elt hp [i; t].
Lemma run_eq rs A A' c d : c = d -> scaled_run rs A A' c -> scaled_run rs A A' d. Proof. intros ->. exact (fun H => H). Qed.
Theorem generator_scaling rs q q' approx ap approx' ap' c : g_sr g = 2 * INR q -> g_sr g / k = 2 * INR q' -> rs <> [] -> (forall r, In r rs -> good_row r) ->
  List.length (g_a g) = List.length (g_b g) -> rowwise approx ap (List.length rs) -> rowwise approx' ap' (List.length rs) ->
  (forall i f, (i < List.length rs)%nat -> 0 < f -> ap' i (f / k) = times (RtoC c) (ap i f)) ->
  scaled_run rs approx approx' (c / k).
Proof.
  intros Hq Hq' Hne Hrs Hab Ha Ha' H.
  assert (Hne' : map (massive k) rs <> []) by (destruct rs; [contradiction|discriminate]).
  assert (Hrs' : forall r, In r (map (massive k) rs) -> good_row r) by (intros r' Hin; apply in_map_iff in Hin as (r & <- & Hin); apply massive_good; apply Hrs, Hin).
  rewrite <- (map_length (massive k) rs) in Ha'.
  destruct (gen_forward_spec g rs q Hg Hq Hne Hrs Hab approx ap Ha) as (p & hc & hp & E & Sc & Sp & U & W & V0).
  destruct (gen_forward_spec (slower k g) (map (massive k) rs) q' slower_good Hq' Hne' Hrs' Hab approx' ap' Ha') as (p' & hc' & hp' & E' & Sc' & Sp' & U' & W' & V').
  assert (p' = p).
  { eapply (frame_unique g rs); try eassumption.
    - intros r Hin. rewrite <- r_samples by (apply Hrs, Hin). apply U'. apply in_map, Hin.
    - destruct W' as (r' & Hin & L'). apply in_map_iff in Hin as (r & <- & Hin). exists r. split; [exact Hin|]. rewrite r_samples in L' by (apply Hrs, Hin). exact L'. }
  subst p'. clear U' W' U W. rewrite map_length in *. cbv zeta in *. set (L := (2 ^ p)%nat) in *.
  assert (ED : g_dur (slower k g) * g_sr (slower k g) = g_dur g * g_sr g) by (unfold slower; cbn [g_dur g_sr]; field; lra). rewrite ED in *. set (len := Z.to_nat (Z.of_nat L + rtrunc (g_dur g * g_sr g - INR L))) in *.
  exists hc, hp, hc', hp', len. split; [exact E|]. split; [exact E'|]. split; [exact Sc|]. split; [exact Sp|]. split; [exact Sc'|]. split; [exact Sp'|].
  intros i t Hi Ht. destruct (nth_error rs i) as [r|] eqn:Er; [|apply nth_error_None in Er; lia]. destruct (V0 i r t Er Ht) as [V1 V2].
  destruct (V' i (massive k r) t (map_nth_error _ _ _ Er) Ht) as [V1' V2']. rewrite V1, V2, V1', V2'.
  assert (LP : (0 < L)%nat) by (unfold L; pose proof (Nat.pow_nonzero 2 p ltac:(lia)); lia). assert (Gr : good_row r) by (apply Hrs; eapply nth_error_In; exact Er).
  assert (K : forall (h h' : R -> C), (forall f, 0 < f -> h' (f / k) = Cmult (RtoC c) (h f)) -> filtfilt (g_a (slower k g)) (g_b (slower k g)) len (at_end 0 L len (series (slower k g) L (massive k r) h')) t = c / k * filtfilt (g_a g) (g_b g) len (at_end 0 L len (series g L r h)) t).
  { intros h h' He. unfold slower at 1 2. cbn [g_a g_b]. rewrite (filtfilt_ext _ _ len _ (fun s => c / k * at_end 0 L len (series g L r h) s + 0 * 0) t); [|intros s Hs'|exact Ht].
    - rewrite (filtfilt_linear (g_a g) (g_b g) len (at_end 0 L len (series g L r h)) (fun _ => 0)). ring.
    - unfold at_end. destruct (s + L <? len)%nat; [ring|]. rewrite (series_scale r Gr L h h' c) by assumption. ring. }
  split; apply K; intros f Hf; rewrite (H i f Hi Hf); reflexivity.
Qed.
Section Approximants.
Variables (rs : list row) (q0 q0' : nat).
Hypothesis Hq : g_sr g = 2 * INR q0.
Hypothesis Hq' : g_sr g / k = 2 * INR q0'.
Hypothesis Hne : rs <> [].
Hypothesis Hrs : forall r, In r rs -> good_row r.
Hypothesis Hab : List.length (g_a g) = List.length (g_b g).
Lemma nth_scale l i : nth i (map (Rmult k) l) 0 = k * nth i l 0.
Proof. replace 0 with (k * 0) at 1 by ring. apply map_nth. Qed.
(** k times the masses: k times the strain at every sample; at k times the distance: the same samples *)
Theorem generated_mass mc q chi1 chi2 dist phic incl f_ref : List.length mc = List.length rs -> same_len (List.length mc) [q; chi1; chi2; dist; phic; incl] ->
  (forall i, (i < List.length mc)%nat -> physical (nth i mc 0) (nth i q 0) (nth i chi1 0) (nth i chi2 0) /\ 0 < nth i dist 0) ->
  let run A A' c := scaled_run rs (fun fs => A fs mc q chi1 chi2 dist phic incl f_ref) (fun fs => A' fs (map (Rmult k) mc) q chi1 chi2) c in
  run tf2_forward (fun fs mc q c1 c2 => tf2_forward fs mc q c1 c2 dist phic incl (f_ref / k)) k /\
  run pd_forward (fun fs mc q c1 c2 => pd_forward fs mc q c1 c2 dist phic incl (f_ref / k)) k /\
  run tf2_forward (fun fs mc q c1 c2 => tf2_forward fs mc q c1 c2 (map (Rmult k) dist) phic incl (f_ref / k)) 1 /\
  run pd_forward (fun fs mc q c1 c2 => pd_forward fs mc q c1 c2 (map (Rmult k) dist) phic incl (f_ref / k)) 1.
Proof.
  intros Hlen HS HP run. assert (LM : List.length (map (Rmult k) mc) = List.length mc) by apply map_length.
  assert (HS1 : same_len (List.length (map (Rmult k) mc)) [q; chi1; chi2; dist; phic; incl]) by (rewrite LM; exact HS).
  assert (HS2 : same_len (List.length (map (Rmult k) mc)) [q; chi1; chi2; map (Rmult k) dist; phic; incl]).
  { rewrite LM. intros l Hl. cbn [In] in Hl. repeat destruct Hl as [<-|Hl]; try contradiction; try (apply HS; cbn; tauto). rewrite map_length. apply HS; cbn; tauto. }
  assert (HP1 : forall i, (i < List.length (map (Rmult k) mc))%nat -> physical (nth i (map (Rmult k) mc) 0) (nth i q 0) (nth i chi1 0) (nth i chi2 0)).
  { intros i Hi. rewrite LM in Hi. destruct (HP i Hi) as [(A & B) _]. rewrite nth_scale. split; [apply Rmult_lt_0_compat; assumption|exact B]. }
  assert (X1 : k = k ^ 2 / k) by (field; lra). assert (X2 : 1 = k / k) by (field; lra). assert (X3 : / k * k ^ 2 = k) by (field; lra).
  assert (RT := tf2_rowwise mc q chi1 chi2 dist phic incl f_ref HS). assert (RP := pd_rowwise mc q chi1 chi2 dist phic incl f_ref HS (fun i Hi => proj1 (HP i Hi))). rewrite Hlen in RT, RP.
  assert (T1 := tf2_rowwise (map (Rmult k) mc) q chi1 chi2 dist phic incl (f_ref / k) HS1). assert (T2 := tf2_rowwise (map (Rmult k) mc) q chi1 chi2 (map (Rmult k) dist) phic incl (f_ref / k) HS2). rewrite LM, Hlen in T1, T2.
  assert (P1 := pd_rowwise (map (Rmult k) mc) q chi1 chi2 dist phic incl (f_ref / k) HS1 HP1). assert (P2 := pd_rowwise (map (Rmult k) mc) q chi1 chi2 (map (Rmult k) dist) phic incl (f_ref / k) HS2 HP1). rewrite LM, Hlen in P1, P2.
  assert (CT : forall (a b : R) (z : C), Cmult (RtoC a) (Cmult (RtoC b) z) = Cmult (RtoC (a * b)) z) by (intros; rewrite RtoC_mult; ring).
  unfold run. repeat split.
  - apply (run_eq _ _ _ (k ^ 2 / k)); [symmetry; exact X1|]. eapply generator_scaling; try eassumption. intros i f Hi Hf. rewrite <- Hlen in Hi. cbv beta. rewrite nth_scale. destruct (HP i Hi) as ((A & B & _) & _). apply tf2_mass_scaling; assumption.
  - apply (run_eq _ _ _ (k ^ 2 / k)); [symmetry; exact X1|]. eapply generator_scaling; try eassumption. intros i f Hi Hf. rewrite <- Hlen in Hi. cbv beta. rewrite nth_scale. destruct (HP i Hi) as ((A & B & _) & _). apply pd_mass_scaling; assumption.
  - apply (run_eq _ _ _ (k / k)); [symmetry; exact X2|]. eapply generator_scaling; try eassumption. intros i f Hi Hf. rewrite <- Hlen in Hi. cbv beta. rewrite !nth_scale. destruct (HP i Hi) as ((A & B & _) & D).
    assert (Hfk : 0 < f / k) by (apply Rdiv_lt_0_compat; assumption). assert (Hmk : 0 < k * nth i mc 0) by (apply Rmult_lt_0_compat; assumption).
    pose proof (tf2_distance (f / k) (k * nth i mc 0) (nth i q 0) (nth i chi1 0) (nth i chi2 0) (nth i dist 0) (nth i phic 0) (nth i incl 0) (f_ref / k) k Hfk Hmk B D Hk) as KD. rewrite (tf2_mass_scaling k f) in KD by assumption.
    destruct (tf2_one f _ _ _ _ (nth i dist 0) _ _ f_ref) as [u v]. unfold times in *. cbn [fst snd] in *. rewrite KD, !CT, X3. reflexivity.
  - apply (run_eq _ _ _ (k / k)); [symmetry; exact X2|]. eapply generator_scaling; try eassumption. intros i f Hi Hf. rewrite <- Hlen in Hi. cbv beta. rewrite !nth_scale. destruct (HP i Hi) as ((A & B & _) & D).
    assert (Hfk : 0 < f / k) by (apply Rdiv_lt_0_compat; assumption). assert (Hmk : 0 < k * nth i mc 0) by (apply Rmult_lt_0_compat; assumption).
    rewrite (pd_one_hom (f_ref / k) (f / k) _ _ _ _ (nth i dist 0) _ (nth i phic 0) _ (nth i incl 0) _ (/ k) 1); try ring; [|apply pd_distance; try assumption; apply (proj1 (HP i Hi))].
    cbv zeta. rewrite (pd_mass_scaling k f) by assumption. destruct (pd_one f _ _ _ _ (nth i dist 0) _ _ f_ref) as [u v]. unfold times. cbn [fst snd]. rewrite Rmult_1_r, !CT, X3. reflexivity.
Qed.
Theorem generated_mass_p mc q s1 s2 dist phic incl f_ref tc : List.length mc = List.length rs ->
  (forall i, (i < List.length mc)%nat -> pp_physical (nth i mc 0) (nth i q 0) (nth i s1 (V 0 0 0)) (nth i s2 (V 0 0 0)) /\ 0 < nth i dist 0) ->
  scaled_run rs (fun fs => pp_forward fs mc q s1 s2 dist phic incl f_ref tc) (fun fs => pp_forward fs (map (Rmult k) mc) q s1 s2 dist phic incl (f_ref / k) tc) k.
Proof.
  intros Hlen HP. assert (X1 : k = k ^ 2 / k) by (field; lra). assert (LM : List.length (map (Rmult k) mc) = List.length mc) by apply map_length.
  assert (R1 := pp_rowwise mc q s1 s2 dist phic incl f_ref tc HP). rewrite Hlen in R1.
  assert (HP' : forall i, (i < List.length (map (Rmult k) mc))%nat -> pp_physical (nth i (map (Rmult k) mc) 0) (nth i q 0) (nth i s1 (V 0 0 0)) (nth i s2 (V 0 0 0)) /\ 0 < nth i dist 0).
  { intros i Hi. rewrite LM in Hi. destruct (HP i Hi) as [(A & B) D]. rewrite nth_scale. split; [split; [apply Rmult_lt_0_compat; assumption|exact B]|exact D]. }
  assert (R2 := pp_rowwise (map (Rmult k) mc) q s1 s2 dist phic incl (f_ref / k) tc HP'). rewrite LM, Hlen in R2.
  apply (run_eq _ _ _ (k ^ 2 / k)); [symmetry; exact X1|]. eapply generator_scaling; try eassumption. intros i f Hi Hf. cbv beta. rewrite <- Hlen in Hi. destruct (HP i Hi) as [(A & (B & _) & _) D]. rewrite nth_scale. unfold pp_value. rewrite pp_mass_scaling by assumption.
  destruct (pp_one f _ _ _ _ _ _ _ _ _) as [[u v]|e]; cbn [rmap]; [reflexivity|]. unfold times. cbn [fst snd]. f_equal; ring.
Qed.
End Approximants.
End Generator.

(** ** cases *)
(** twice the masses, twice the distance, half the rates: a binary of 60 and 40 solar masses sampled at 1024 Hz from 10 Hz has the samples of one of 30 and 20 at 2048 Hz from 20 Hz *)
Example mass_scaling_ex : let g := mkgen 2048 8 20 (1 / 2) [1; - (1 / 2)] [1; -1] in let rs := [mkrow 30 20 0 (1 / 2); mkrow 2 1 0 0] in
  scaled_run 2 g rs (fun fs => pd_forward fs [21; 1] [2 / 3; 1 / 2] [0; 0] [1 / 2; 0] [100; 100] [0; 0] [0; 0] 20)
    (fun fs => pd_forward fs [2 * 21; 2 * 1] [2 / 3; 1 / 2] [0; 0] [1 / 2; 0] [2 * 100; 2 * 100] [0; 0] [0; 0] (20 / 2)) 1.
Proof.
  cbv zeta. refine (proj2 (proj2 (proj2 (generated_mass 2 _ _ _ _ _ 1024 512 _ _ _ _ _ [21; 1] [2 / 3; 1 / 2] [0; 0] [1 / 2; 0] [100; 100] [0; 0] [0; 0] 20 _ _ _)))).
  - lra.
  - unfold good_gen; cbn [g_sr g_fmin g_dur]; lra.
  - cbn [g_sr]; lra.
  - cbn [g_sr]. rewrite INR_IZR_INZ. change (Z.of_nat 1024) with 1024%Z. lra.
  - cbn [g_sr]. rewrite INR_IZR_INZ. change (Z.of_nat 512) with 512%Z. lra.
  - discriminate.
  - intros r [<-|[<-|[]]]; unfold good_row; cbn [m_1 m_2 s_1 s_2]; lra.
  - reflexivity.
  - reflexivity.
  - intros l Hl. repeat (destruct Hl as [<-|Hl]; [reflexivity|]). destruct Hl.
  - intros [|[|i]] Hi; [unfold physical; cbn [nth]; lra|unfold physical; cbn [nth]; lra|cbn in Hi; lia].
Qed.
