(** Property C57: the published ingredients with the parameters IMRPhenomD derives from chirp mass, mass ratio and spins. *)
From Coq Require Import Reals Lra ZArith.
From Coquelicot Require Import Coquelicot.
From Verif Require Import Base Rutil Conv_model Conv_props Wave_props Tf2_model Tf2_props Tf2b_props Phd_fits Phd_data Phd_delta Phd_model Phd_props Phd_bounds Phd_main Pub_props.
Local Open Scope R_scope.

(** with m2 <= m1: symmetric mass ratio, mass asymmetry, spins and effective spin are those of the component masses *)
Theorem pd_params_published mc q chi1 chi2 : 0 < mc -> 0 < q <= 1 ->
  let p := pd_params mc q chi1 chi2 in let m1 := fst (components mc q) in let m2 := snd (components mc q) in
  d_eta p = pub_eta m1 m2 /\ d_Seta p = pub_delta m1 m2 /\ d_chi1 p = chi1 /\ d_chi2 p = chi2
  /\ d_chi12 p = chi1 * chi1 /\ d_chi22 p = chi2 * chi2
  /\ d_xi p + 1 = pub_x1 m1 m2 * chi1 + pub_x2 m1 m2 * chi2 - 38 / 113 * pub_eta m1 m2 * (chi1 + chi2)
  /\ d_fRD p = interp1 qnm_a qnm_fring (FinalSpin0815 (d_eta p) (d_eta p * d_eta p) chi1 chi2) / (1 - PhenomInternal_EradRational0815 (d_eta p) (d_eta p * d_eta p) chi1 chi2)
  /\ d_fDM p = interp1 qnm_a qnm_fdamp (FinalSpin0815 (d_eta p) (d_eta p * d_eta p) chi1 chi2) / (1 - PhenomInternal_EradRational0815 (d_eta p) (d_eta p * d_eta p) chi1 chi2).
Proof.
  intros Hm [Hq Hq1] p m1 m2.
  destruct (pd_masses mc q chi1 chi2 Hm Hq) as (E & Ee & _). fold p in E, Ee.
  assert (E1 : m1 = d_m1 p) by (unfold m1; rewrite <- E; reflexivity). assert (E2 : m2 = d_m2 p) by (unfold m2; rewrite <- E; reflexivity).
  assert (P : 0 < m1 /\ 0 < m2) by (pose proof (components_spec mc q Hm Hq) as K; unfold m1, m2; destruct (components mc q); cbn [fst snd]; tauto). destruct P as [P1 P2].
  assert (E3 : d_m2 p = d_m1 p * q) by (unfold p, pd_params; destruct (fring_fdamp _ _ _); reflexivity). rewrite <- E1, <- E2 in E3.
  assert (L : m2 <= m1) by (rewrite E3; nra).
  assert (He : d_eta p = pub_eta m1 m2) by (unfold pub_eta; rewrite Ee, E1, E2; reflexivity).
  assert (Hs : d_Seta p = pub_delta m1 m2).
  { rewrite <- pub_sqrt by lra. rewrite <- He. unfold p, pd_params. destruct (fring_fdamp _ _ _); reflexivity. }
  split; [exact He|]. split; [exact Hs|].
  assert (Hx : d_xi p + 1 = chiPN (d_Seta p) (d_eta p) chi1 chi2). { unfold p, pd_params. destruct (fring_fdamp _ _ _). cbn [d_xi d_Seta d_eta]. ring. }
  repeat split; try (unfold p, pd_params; destruct (fring_fdamp _ _ _); reflexivity).
  - rewrite Hx, Hs, He. apply pd_chi_pn; assumption.
Qed.
(** so below the amplitude join the strain amplitude is the Newtonian one times the published series *)
Theorem pd_amplitude_published mc q chi1 chi2 Mf : 0 < mc -> 0 < q <= 1 -> - 1 <= chi1 <= 1 -> - 1 <= chi2 <= 1 -> 0 < Mf <= 14 / 1000 ->
  let p := pd_params mc q chi1 chi2 in let m1 := fst (components mc q) in let m2 := snd (components mc q) in
  let eta := pub_eta m1 m2 in let delta := pub_delta m1 m2 in let chis := pub_chis chi1 chi2 in let chia := pub_chia chi1 chi2 in
  let x := pub_x1 m1 m2 * chi1 + pub_x2 m1 m2 * chi2 - 38 / 113 * eta * (chi1 + chi2) - 1 in
  let v := Rpower (PI * Mf) (1 / 3) in
  fst (pd_amp p Mf) = 1 + pubA2 eta * v ^ 2 + pubA3 eta delta chis chia * v ^ 3 + pubA4 eta delta chis chia * v ^ 4
    + pubA5 eta delta chis chia * v ^ 5 + pubA6 eta delta chis chia * v ^ 6
    + rho1_fun eta (eta * eta) x * Rpower Mf (7 / 3) + rho2_fun eta (eta * eta) x * Rpower Mf (8 / 3) + rho3_fun eta (eta * eta) x * Rpower Mf 3.
Proof.
  intros Hm Hq B1 B2 HM p m1 m2 eta delta chis chia x v.
  destruct (pd_params_published mc q chi1 chi2 Hm Hq) as (He & Hs & C1 & C2 & S1 & S2 & Hx & _). fold p m1 m2 in He, Hs, C1, C2, S1, S2, Hx.
  destruct (pd_joins mc q chi1 chi2) as (_ & _ & J & _); [exact Hm|tauto|assumption|assumption|]. fold p in J.
  assert (A : fst (pd_amp p Mf) = fst (ins_amp p Mf)).
  { unfold pd_amp, le_, gt_. cbn [fst]. unfold amp_join in *. destruct (Rle_dec Mf (14 / 1000)); [|lra]. destruct (Rlt_dec (14 / 1000) Mf); [lra|]. destruct (Rlt_dec (pd_peak p) Mf); [lra|]. cbn [theta]. ring. }
  rewrite A, pd_inspiral_amplitude by (rewrite ?C1, ?C2; tauto || assumption). cbv zeta. rewrite He, Hs, C1, C2.
  replace (d_xi p) with x by (unfold x, eta in *; lra). reflexivity.
Qed.

(** ** the phase *)
(** up to 0.018 the phase is the TaylorF2 series without the quadratic-in-spin 3PN terms, plus the four fitted terms (Khan et al. eq. 28) *)
Theorem pd_inspiral_coefficients mc q chi1 chi2 : 0 < mc -> 0 < q <= 1 ->
  let p := pd_params mc q chi1 chi2 in let m1 := fst (components mc q) in let m2 := snd (components mc q) in
  let eta := pub_eta m1 m2 in let delta := pub_delta m1 m2 in let chis := pub_chis chi1 chi2 in let chia := pub_chia chi1 chi2 in
  let c := tf2_coeffs m1 m2 chi1 chi2 in
  (p_N (ins_c p), p2 (ins_c p), p3 (ins_c p), p4 (ins_c p)) = (p_N c, p2 c, p3 c, p4 c)
  /\ (p5 (ins_c p), p5l (ins_c p), p6l (ins_c p), p7 (ins_c p)) = (p5 c, p5l c, p6l c, p7 c)
  /\ p6 (ins_c p) = 11583231236531 / 4694215680 - 6848 / 21 * (EulerGamma + ln 4) - 640 / 3 * PI ^ 2
            + (- 15737765635 / 3048192 + 2255 / 12 * PI ^ 2) * eta + 76055 / 1728 * eta ^ 2 - 127825 / 1296 * eta ^ 3
            + (2270 / 3 * PI * delta * chia + (2270 / 3 * PI - 520 * PI * eta) * chis).
Proof.
  intros Hm Hq p m1 m2 eta delta chis chia c.
  destruct (pd_params_published mc q chi1 chi2 Hm Hq) as (He & Hs & E1 & E2 & _). fold p m1 m2 in He, Hs, E1, E2.
  destruct (pd_masses mc q chi1 chi2 Hm (proj1 Hq)) as (E & _). fold p in E.
  assert (M1 : d_m1 p = m1) by (unfold m1; rewrite <- E; reflexivity). assert (M2 : d_m2 p = m2) by (unfold m2; rewrite <- E; reflexivity).
  assert (P : 0 < m1 /\ 0 < m2) by (pose proof (components_spec mc q Hm (proj1 Hq)) as K; unfold m1, m2; destruct (components mc q); cbn [fst snd]; tauto). destruct P as [P1 P2].
  unfold ins_c, ss3. rewrite M1, M2, E1, E2. fold c. unfold drop_ss3. cbn [p_N p2 p3 p4 p5 p5l p6 p6l p7].
  split; [reflexivity|]. split; [reflexivity|].
  destruct (tf2_spin_coefficients m1 m2 chi1 chi2 P1 P2) as (_ & _ & _ & _ & _ & _ & _ & K & _). fold eta delta chis chia c in K. rewrite K, He. fold eta.
  unfold pn_ss3, pub_x1, pub_x2. cbv zeta. field. lra.
Qed.
(** between 0.018 and half the ringdown frequency, and above: the published slopes (eqs. 16 and 14), up to the constant that joins them *)
Theorem pd_phase_slopes mc q chi1 chi2 : 0 < mc -> 0 < q -> - 1 <= chi1 <= 1 -> - 1 <= chi2 <= 1 ->
  let p := pd_params mc q chi1 chi2 in let eta := d_eta p in let e2 := eta * eta in let xi := d_xi p in let fR := d_fRD p in let fD := d_fDM p in
  exists c2 c3, forall x, 0 < x -> is_derive (fun x => fst (pd_phase p x)) x (
    if Rle_dec x (18 / 1000) then
      snd (tf2_phase (ins_c p) x) + (sigma1Fit eta e2 xi + sigma2Fit eta e2 xi * Rpower x (1 / 3) + sigma3Fit eta e2 xi * Rpower x (2 / 3) + sigma4Fit eta e2 xi * x) / eta
    else if Rle_dec x (fR / 2) then (beta1Fit eta e2 xi + beta2Fit eta e2 xi / x + beta3Fit eta e2 xi / x ^ 4) / eta + c2
    else (alpha1Fit eta e2 xi + alpha2Fit eta e2 xi / x ^ 2 + alpha3Fit eta e2 xi * Rpower x (- (1 / 4))
          + alpha4Fit eta e2 xi * fD / (fD ^ 2 + (x - alpha5Fit eta e2 xi * fR) ^ 2)) / eta + c3).
Proof.
  intros Hm Hq B1 B2 p eta e2 xi fR fD.
  exists (C2Int p), (C2MRD p). intros x Hx.
  destruct (pd_phase_C1 mc q chi1 chi2 Hm Hq B1 B2 x Hx) as [D _]. fold p in D.
  assert (Pe : 0 < eta) by (apply (p_eta_pos mc q chi1 chi2); assumption).
  assert (HD : 0 < fD). { destruct (pd_ringdown mc q chi1 chi2 Hm Hq B1 B2) as (_ & K & _). unfold fD, p. lra. }
  revert D. unfold pd_slope, piece3. unfold phi_join, rd_join. change (d_fRD p) with fR. replace (5 / 10 * fR) with (fR / 2) by field.
  destruct (Rle_dec x (18 / 1000)) as [L|L]; [|destruct (Rle_dec x (fR / 2)) as [L'|L']]; intros D.
  - assert (HI : eta_is p) by (apply p_eta_is; assumption). rewrite (ins_phase_tf2 p Pe x HI Hx) in D. exact D.
  - replace ((beta1Fit eta e2 xi + beta2Fit eta e2 xi / x + beta3Fit eta e2 xi / x ^ 4) / eta + C2Int p) with (snd (int_phase p x) + C2Int p); [exact D|].
    unfold int_phase. cbv zeta. cbn [snd]. change (d_eta p) with eta. change (eta * eta) with e2. change (d_xi p) with xi. field. lra.
  - match goal with |- is_derive _ _ ?g => replace g with (snd (mrd_phase p x) + C2MRD p); [exact D|] end.
    unfold mrd_phase. cbv zeta. cbn [snd]. change (d_eta p) with eta. change (eta * eta) with e2. change (d_xi p) with xi. change (d_fRD p) with fR. change (d_fDM p) with fD.
    generalize (alpha1Fit eta e2 xi) (alpha2Fit eta e2 xi) (alpha3Fit eta e2 xi) (alpha4Fit eta e2 xi) (alpha5Fit eta e2 xi) (C2MRD p) (Rpower x (- (1 / 4))). intros a1 a2 a3 a4 a5 k r.
    assert (Q : 0 < (x - a5 * fR) ^ 2 + fD ^ 2) by (pose proof (pow2_ge_0 (x - a5 * fR)); pose proof (pow_lt fD 2 HD); lra).
    field. split; [lra|]. split; lra.
Qed.
(** the matching frequency of the amplitude is where the ringdown amplitude is stationary (gamma2 <= 1; otherwise the maximum does not exist
    and fRD - fDM gamma3 / gamma2 is used) *)
Theorem pd_peak_stationary mc q chi1 chi2 : 0 < mc -> 0 < q -> - 1 <= chi1 <= 1 -> - 1 <= chi2 <= 1 ->
  let p := pd_params mc q chi1 chi2 in let g2 := gamma2_fun (d_eta p) (d_eta p * d_eta p) (d_xi p) in let g3 := gamma3_fun (d_eta p) (d_eta p * d_eta p) (d_xi p) in
  (g2 <= 1 -> is_derive (fun x => fst (pd_amp p x)) (pd_peak p) 0)
  /\ (1 < g2 -> pd_peak p = d_fRD p - d_fDM p * g3 / g2).
Proof.
  intros Hm Hq B1 B2 p g2 g3.
  destruct (pd_ringdown mc q chi1 chi2 Hm Hq B1 B2) as (A & B & D). fold p in A, B, D.
  destruct (pd_joins mc q chi1 chi2 Hm Hq B1 B2) as (_ & _ & J & _). fold p in J.
  pose proof (p_gamma mc q chi1 chi2 Hm Hq B1 B2) as G. fold p in G. fold g2 g3 in G. destruct G as (G1 & G2 & G3).
  assert (Q2 : 1 / 5 <= g2).
  { pose proof (gamma_ranges _ _ _ (p_eta_range mc q Hm Hq) B1 B2) as G. unfold g2.
    replace (d_eta p) with (pd_eta mc q) by (unfold p, pd_params; destruct (fring_fdamp _ _ _); reflexivity).
    replace (d_xi p) with (- 1 + chiPN (sqrt (Rmax (1 - 4 * pd_eta mc q) 0)) (pd_eta mc q) chi1 chi2) by (unfold p, pd_params; destruct (fring_fdamp _ _ _); reflexivity). tauto. }
  assert (PP : pd_peak p = d_fRD p + d_fDM p * (- 1 + sqrt (Rmax (1 - g2 ^ 2) 0)) * g3 / g2).
  { unfold pd_peak. fold g2 g3. apply Rabs_pos_eq. pose proof (peak_factor g2 ltac:(lra)) as F. set (r := sqrt (Rmax (1 - g2 ^ 2) 0)) in *.
    replace (d_fDM p * (-1 + r) * g3 / g2) with (- (d_fDM p * g3 * ((1 - r) / g2))) by (field; lra). set (k := (1 - r) / g2) in *. clearbody k g3. clear - A B D F G2 G3. generalize dependent (d_fRD p). generalize dependent (d_fDM p). intros fd Hd fr Hr Hf. assert (fd * g3 <= 3 / 2 * fd) by nra. assert (0 <= fd * g3) by nra. assert (fd * g3 * k <= fd * g3) by nra. lra. }
  split; intros Hg.
  - destruct (pd_amp_C1 mc q chi1 chi2 Hm Hq B1 B2 (pd_peak p)) as [K _]; [unfold amp_join in J; lra|]. fold p in K.
    assert (Z : snd (pd_amp p (pd_peak p)) = 0); [|rewrite Z in K; exact K].
    assert (KI : snd (pd_amp p (pd_peak p)) = snd (mrd_amp p (pd_peak p))).
    { unfold pd_amp. cbn [snd]. rewrite (theta_piece3 amp_join (pd_peak p) (fun x => snd (ins_amp p x)) (fun x => snd (int_amp p x)) (fun x => snd (mrd_amp p x)) (pd_peak p) J). unfold piece3.
      destruct (Rle_dec (pd_peak p) amp_join); [lra|]. destruct (Rle_dec (pd_peak p) (pd_peak p)); [|lra].
      rewrite int_amp_poly. cbn [snd]. apply delta_slope_f3; lra. }
    rewrite KI. unfold mrd_amp. cbv zeta. cbn [snd]. fold g2 g3. set (g1 := gamma1_fun _ _ _) in *.
    assert (U : pd_peak p - d_fRD p = d_fDM p * g3 * ((- 1 + sqrt (1 - g2 ^ 2)) / g2)) by (rewrite PP, Rmax_left by nra; field; lra).
    rewrite U. set (r := sqrt (1 - g2 ^ 2)) in *. assert (R2 : r * r = 1 - g2 ^ 2) by (apply sqrt_sqrt; nra). assert (R0 : 0 <= r) by apply sqrt_pos.
    assert (NE : r <> 1) by (intros ->; nra).
    set (EX := exp _). assert (PE : 0 < EX) by apply exp_pos. set (u := (- 1 + r) / g2). set (d := d_fDM p * g3). assert (Pd : 0 < d) by (unfold d; nra).
    assert (Eu : g2 * u = - 1 + r) by (unfold u; field; lra).
    assert (Q : g2 * (u * u + 1) = - (2 * u)). { apply Rmult_eq_reg_l with g2; [|lra]. replace (g2 * (g2 * (u * u + 1))) with ((g2 * u) ^ 2 + g2 ^ 2) by ring. replace (g2 * - (2 * u)) with (- 2 * (g2 * u)) by ring. rewrite Eu. nra. }
    assert (P1 : 0 < u * u + 1) by nra.
    assert (Z0 : d * u * - (2) * d_fDM p * g1 * g3 / (d * u * (d * u) + d * d) - g2 * g1 = 0).
    { replace (d * u * - (2) * d_fDM p * g1 * g3) with (d * d * g1 * (- (2 * u))) by (unfold d; ring). rewrite <- Q. field. nra. }
    rewrite Z0. unfold Rdiv. ring.
  - rewrite PP, Rmax_right by nra. rewrite sqrt_0. field. lra.
Qed.
