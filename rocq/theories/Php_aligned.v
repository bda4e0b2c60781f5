(** IMRPhenomPv2: aligned spins, dependence on distance, time and reference phase. *)
From Coq Require Import Reals Lra ZArith.
From Coquelicot Require Import Coquelicot.
From Verif Require Import Base Rutil Conv_model Conv_props Wave_props Tf2_model Tf2_props Phd_fits Phd_data Phd_delta Phd_model Phd_props Phd_bounds Phd_main Php_fits Php_model Php_props Php_geom Php_twist Php_core Php_main.
Local Open Scope R_scope.

(** ** aligned spins *)
(** with no in-plane spin the two precession angles advance together *)
Theorem pp_angles_aligned q chil w : pp_alpha q chil 0 w = pp_epsilon q chil 0 w.
Proof.
  assert (E3 : alphacoeff3 q chil 0 = epsiloncoeff3 q chil 0) by (unfold alphacoeff3, epsiloncoeff3; cbv zeta; unfold Rdiv; ring).
  assert (E4 : alphacoeff4 q chil 0 = epsiloncoeff4 q chil 0) by (unfold alphacoeff4, epsiloncoeff4; cbv zeta; unfold Rdiv; ring).
  assert (E5 : alphacoeff5 q chil 0 = epsiloncoeff5 q chil 0) by (unfold alphacoeff5, epsiloncoeff5; cbv zeta; unfold Rdiv; ring).
  unfold pp_alpha, pp_epsilon. rewrite E3, E4, E5. reflexivity.
Qed.
Definition up (chi : R) : vec := V 0 0 chi.
Lemma up_ball chi : - 1 <= chi <= 1 -> in_ball (up chi).
Proof. intros H. unfold in_ball, vdot, up. cbn [vx vy vz]. nra. Qed.
Lemma chip_aligned m1 m2 c1 c2 : 0 < m1 -> 0 < m2 -> pp_chip m1 m2 (up c1) (up c2) = 0.
Proof.
  intros H1 H2. unfold pp_chip, up. cbn [vx vy vz]. replace (0 ^ 2 + 0 ^ 2) with 0 by ring. rewrite sqrt_0, !Rmult_0_r, Rmax_left by lra. unfold Rdiv. ring.
Qed.
(** the parameters are those of IMRPhenomD, except that the squares of the two spins are exchanged *)
Definition swap_squares (p : dpar) : dpar := mkd (d_m1 p) (d_m2 p) (d_eta p) (d_Seta p) (d_chi1 p) (d_chi2 p) (d_chi22 p) (d_chi12 p) (d_xi p) (d_fRD p) (d_fDM p).
Theorem pp_params_aligned mc q chi1 chi2 : 0 < mc -> 0 < q <= 1 -> pp_params mc q (up chi1) (up chi2) = swap_squares (pd_params mc q chi1 chi2).
Proof.
  intros Hm Hq. destruct (masses mc q (up chi1) (up chi2) Hm Hq) as (A & B & QQ & _). destruct (eta_pp mc q (up chi1) (up chi2) Hm Hq) as (He & ES).
  assert (EP : d_eta (pd_params mc q chi1 chi2) = fst (components mc q) * snd (components mc q) / ((fst (components mc q) + snd (components mc q)) * (fst (components mc q) + snd (components mc q)))).
  { destruct (pd_masses mc q chi1 chi2 Hm ltac:(lra)) as (E1 & E2 & _). rewrite E2. rewrite <- E1. cbn [fst snd]. f_equal. ring. }
  set (eta := fst (components mc q) * snd (components mc q) / _) in *.
  assert (EE : pd_eta mc q = eta) by (rewrite <- EP; unfold pd_params; destruct (fring_fdamp _ _ _); reflexivity).
  unfold pp_params. cbv zeta. fold eta. rewrite chip_aligned by lra. unfold up. cbn [vz].
  assert (AF : FinalSpin_inplane (fst (components mc q)) (snd (components mc q)) chi1 chi2 0 = FinalSpin0815 eta (eta * eta) chi1 chi2).
  { unfold FinalSpin_inplane. cbv zeta. fold eta. set (af := FinalSpin0815 _ _ _ _). replace (0 * _ * _ * (0 * _ * _) + af * af) with (af * af) by ring. clearbody af.
    destruct (Rle_dec 0 af) as [H|H]; [rewrite sqrt_square by exact H; ring|]. replace (af * af) with ((- af) * (- af)) by ring. rewrite sqrt_square by lra. ring. }
  rewrite AF. unfold pd_params, swap_squares, fring_fdamp. cbn [d_m1 d_m2 d_eta d_Seta d_chi1 d_chi2 d_chi12 d_chi22 d_xi d_fRD d_fDM]. rewrite EE, ES. reflexivity.
Qed.
Lemma swap_phase p x : pd_phase (swap_squares p) x = pd_phase p x. Proof. reflexivity. Qed.

Section Aligned.
Variables mc q chi1 chi2 f_ref phic incl : R.
Hypothesis Hm : 0 < mc.
Hypothesis Hq : 0 < q <= 1.
Hypothesis H1 : - 1 <= chi1 <= 1.
Hypothesis H2 : - 1 <= chi2 <= 1.
Hypothesis HJ : 0 < vz (pp_J mc q f_ref (up chi1) (up chi2)).
Hypothesis Hi : 0 < incl < PI.
Let cv := pp_conv mc q f_ref (up chi1) (up chi2) phic incl.
Lemma aligned_geometry : pc_thetaJN cv = incl /\ pc_alpha0 cv = 0 /\ pc_phi_aligned cv = 0 /\ cis_ (2 * pc_zeta cv) = RtoC (- (1)) /\ cis_ (- (2 * pc_zeta cv)) = RtoC (- (1)) /\ pc_chip cv = 0.
Proof.
  destruct (J_components mc q f_ref (up chi1) (up chi2) Hm Hq) as (JX & JY & _ & A & B). cbv zeta in *. set (ml := fst (components mc q)) in *. set (ms := snd (components mc q)) in *.
  set (J := pp_J mc q f_ref (up chi1) (up chi2)) in *. unfold up in JX, JY. cbn [vx vy] in JX, JY. rewrite !Rmult_0_r, Rplus_0_l in JX, JY.
  assert (EJ : J = V 0 0 (vz J)) by (apply vec_eq; [exact JX|exact JY|reflexivity]). assert (EN : vnorm J = vz J). { unfold vnorm, vdot. rewrite JX, JY. replace (0 * 0 + 0 * 0 + vz J * vz J) with (vz J * vz J) by ring. apply sqrt_square. lra. }
  assert (A00 : atan2 0 0 = 0). { unfold atan2. cbv zeta. replace (0 * 0 + 0 * 0) with 0 by ring. rewrite sqrt_0. destruct (Req_EM_T 0 0); [reflexivity|lra]. }
  set (N := direction incl (PI / 2 - phic)). 
  assert (RT : forall v, pp_rot ms ml f_ref phic incl (up chi2) (up chi1) v = rotate_z (- atan2 (vy N) (vx N)) v).
  { intros v. unfold pp_rot. fold N. change (pp_J0 ms ml f_ref (up chi2) (up chi1)) with J. rewrite JX, JY, A00, EN. replace (vz J / vz J) with 1 by (field; lra). rewrite acos_1.
    assert (ID : forall u, rotate_y (- 0) (rotate_z (- 0) u) = u) by (intros u; unfold rotate_y, rotate_z; rewrite Ropp_0, cos_0, sin_0; apply vec_eq; cbn [vx vy vz]; ring). rewrite !ID. reflexivity. }
  assert (UN : vdot N N = 1) by apply direction_unit. pose proof (azimuth_zero N UN) as AZ. assert (VN : vz N = cos incl) by reflexivity. rewrite VN, acos_cos in AZ by lra.
  set (psi := - atan2 (vy N) (vx N)) in *. 
  assert (SI : 0 < sin incl) by (apply sin_gt_0; lra).
  assert (PS : cos (psi + (PI / 2 - phic)) = 1 /\ sin (psi + (PI / 2 - phic)) = 0).
  { unfold N in AZ. rewrite rotate_z_direction in AZ. pose proof (f_equal vx AZ) as X. pose proof (f_equal vy AZ) as Y. unfold direction in X, Y. cbn [vx vy] in X, Y. rewrite cos_0 in X. rewrite sin_0 in Y. split; apply Rmult_eq_reg_l with (sin incl); lra. }
  destruct (conv_fields ms ml f_ref phic incl (up chi2) (up chi1)) as (_ & _ & F3 & F4 & F5 & F6 & F7). cbv zeta in F7. change (convert_spins ms ml f_ref phic incl (up chi2) (up chi1)) with cv in *. fold N in F4, F7. rewrite (RT N), AZ in F4. rewrite (RT (V 0 0 1)) in F5. rewrite (RT N), (RT (pp_X phic incl)), AZ in F7.
  change (pp_J0 ms ml f_ref (up chi2) (up chi1)) with J in F6.
  split; [rewrite F4; unfold direction; cbn [vz]; apply acos_cos; lra|].
  split; [rewrite F5; unfold rotate_z; cbn [vx vy vz]; replace (0 * sin psi + 0 * cos psi) with 0 by ring; replace (0 * cos psi - 0 * sin psi) with 0 by ring; exact A00|].
  split; [rewrite F6, JX, JY, A00; ring|].
  assert (EX : rotate_z psi (pp_X phic incl) = V (- cos incl) 0 (sin incl)).
  { assert (K : pp_X phic incl = vscale (- (1)) (direction (incl + PI / 2) (PI / 2 - phic))). { unfold pp_X, direction, vscale. cbn [vx vy vz]. rewrite cos_minus, sin_minus, cos_plus, sin_plus, cos_PI2, sin_PI2. apply vec_eq; cbn [vx vy vz]; ring. }
    rewrite K, (rot_scale _ (rotate_z_rot psi)), rotate_z_direction. destruct PS as [P1 P2]. unfold direction. rewrite P1, P2, cos_plus, sin_plus, cos_PI2, sin_PI2. apply vec_eq; unfold vscale; cbn [vx vy vz]; ring. }
  rewrite EX in F7. unfold direction in F7. cbn [vx vy vz] in F7. rewrite cos_0 in F7. pose proof (sc incl) as S.
  replace (- cos incl * cos incl - sin incl * (sin incl * 1)) with (- (1)) in F7 by lra. rewrite Ropp_0 in F7.
  destruct (atan2_spec (- (1)) 0) as [Z1 Z2]. rewrite <- F7 in Z1, Z2. replace (0 * 0 + - (1) * - (1)) with 1 in Z1, Z2 by ring. rewrite sqrt_1, Rmult_1_l in Z1, Z2.
  assert (D1 : cos (2 * pc_zeta cv) = - (1)) by (rewrite cos_2a, Z1, Z2; ring). assert (D2 : sin (2 * pc_zeta cv) = 0) by (rewrite sin_2a, Z1, Z2; ring).
  split; [unfold cis_, RtoC; rewrite D1, D2; reflexivity|]. split; [unfold cis_, RtoC; rewrite cos_neg, sin_neg, D1, D2, Ropp_0; reflexivity|].
  rewrite F3. apply chip_aligned; lra.
Qed.
Lemma C4_cis a r : Cmult (cis_ (- (2 * a))) (C4 (Cmult (cis_ a) (RtoC r))) = Cmult (cis_ (2 * a)) (RtoC (r ^ 4)).
Proof.
  unfold C4. transitivity (Cmult (cis_ (- (2 * a))) (Cmult (Cmult (Cmult (cis_ a) (cis_ a)) (Cmult (cis_ a) (cis_ a))) (Cmult (Cmult (RtoC r) (RtoC r)) (Cmult (RtoC r) (RtoC r))))); [ring|].
  rewrite !cis_mul, <- !RtoC_mult. rewrite Cmult_assoc, cis_mul. f_equal; f_equal; ring.
Qed.
Section Strain.
Variables dist tc : R.
Hypothesis Hd : 0 < dist.
Let P := pd_params mc q chi1 chi2.
(** closed form: an aligned-spin waveform seen at the inclination asked for *)
Definition al_phase (f : R) : R := PI / 4 - fst (pd_phase P (pp_mass mc q * f)) - f * (diffRD P (pp_mass mc q) (d_fRD P / pp_mass mc q) + pp_mass mc q * tc).
Theorem pp_aligned_form f : 0 < f ->
  let h := Cmult (RtoC (- (spa_amplitude f mc dist * fst (pd_amp (swap_squares P) (pp_mass mc q * f))))) (cis_ (al_phase f)) in
  pp_one f mc q (up chi1) (up chi2) dist phic incl f_ref tc = Ok (Copp (Cmult Ci (Cmult h (RtoC (cos incl)))), Cmult h (RtoC ((1 + cos incl ^ 2) / 2))).
Proof.
  intros Hf h. destruct (pp_one_form mc q f_ref (up chi1) (up chi2) Hm Hq (up_ball _ H1) (up_ball _ H2) dist phic incl tc Hd f Hf) as (hc & hp & E & E1 & E2).
  destruct aligned_geometry as (G1 & G2 & G3 & G4 & G5 & G6). fold (pp_conv mc q f_ref (up chi1) (up chi2) phic incl) in E1, E2. fold cv in E1, E2. rewrite G5 in E1. rewrite G4 in E2.
  destruct (masses mc q (up chi1) (up chi2) Hm Hq) as (A & B & _).
  assert (CH : pp_chip (snd (components mc q)) (fst (components mc q)) (up chi2) (up chi1) = 0) by (apply chip_aligned; lra).
  assert (CB : pp_cosb mc q (up chi1) (up chi2) f = 1). { unfold pp_cosb, pp_Sp. rewrite CH. replace (0 * (fst (components mc q) / (fst (components mc q) + snd (components mc q))) ^ 2 / _) with 0 by (unfold Rdiv; ring). replace (1 + 0 ^ 2) with 1 by ring. rewrite sqrt_1. field. }
  assert (AE : pp_al mc q f_ref (up chi1) (up chi2) phic incl f = pp_ep mc q f_ref (up chi1) (up chi2) f).
  { unfold pp_al, pp_ep. fold (pp_conv mc q f_ref (up chi1) (up chi2) phic incl). fold cv. rewrite G2, CH, !pp_angles_aligned. ring. }
  set (ep := pp_ep mc q f_ref (up chi1) (up chi2) f) in *. pose proof Kn_pos as PK.
  assert (T : pp_T2 mc q f_ref (up chi1) (up chi2) phic incl f = Cmult (cis_ (2 * ep)) (RtoC (Kn * (1 - cos incl) ^ 2)) /\ pp_Tm2 mc q f_ref (up chi1) (up chi2) phic incl f = Cmult (cis_ (2 * ep)) (RtoC (Kn * (1 + cos incl) ^ 2))).
  { unfold pp_T2, pp_Tm2. fold (pp_conv mc q f_ref (up chi1) (up chi2) phic incl). fold cv. rewrite G1, AE, CB. replace ((1 + 1) / 2) with 1 by field. replace ((1 - 1) / 2) with 0 by field. rewrite sqrt_1, sqrt_0, T2m_closed, Tm2m_closed, !Rmult_0_l, !Rmult_1_l.
    replace (Cminus (Cmult (cis_ ep) (RtoC (sin (incl / 2)))) (RtoC 0)) with (Cmult (cis_ ep) (RtoC (sin (incl / 2)))) by ring. rewrite Cplus_0_r, !C4_cis.
    assert (S := sc (incl / 2)). assert (Ec : cos incl = cos (incl / 2) * cos (incl / 2) - sin (incl / 2) * sin (incl / 2)) by (rewrite <- cos_2a; f_equal; field).
    assert (M1 : (1 - cos incl) ^ 2 = 4 * sin (incl / 2) ^ 4). { replace (1 - cos incl) with (2 * sin (incl / 2) ^ 2) by (rewrite Ec; nra). ring. } assert (M2 : (1 + cos incl) ^ 2 = 4 * cos (incl / 2) ^ 4). { replace (1 + cos incl) with (2 * cos (incl / 2) ^ 2) by (rewrite Ec; nra). ring. }
    rewrite M1, M2, !RtoC_mult. split; ring. }
  destruct T as [T2 Tm2]. rewrite Tm2 in E1. rewrite T2 in E2.
  assert (LN : pp_line mc q f_ref (up chi1) (up chi2) phic incl tc f = al_phase f).
  { unfold pp_line. fold (pp_conv mc q f_ref (up chi1) (up chi2) phic incl). fold cv. rewrite G3. fold (pp_mass mc q). rewrite (pp_params_aligned mc q chi1 chi2 Hm Hq), swap_phase. unfold al_phase. fold P.
    change (diffRD (swap_squares P) (pp_mass mc q) (d_fRD (swap_squares P) / pp_mass mc q)) with (diffRD P (pp_mass mc q) (d_fRD P / pp_mass mc q)). ring. }
  assert (GG : forall k, Cmult (RtoC (- (1))) (Cmult (pp_G mc q f_ref (up chi1) (up chi2) dist phic incl tc f) (Cmult (cis_ (2 * ep)) (RtoC (Kn * k)))) = Cmult h (RtoC (k / 2))).
  { intros k. unfold pp_G, h. fold (pp_mass mc q). rewrite LN, (pp_params_aligned mc q chi1 chi2 Hm Hq). fold P. fold ep. set (s := spa_amplitude f mc dist * fst (pd_amp (swap_squares P) (pp_mass mc q * f))).
    transitivity (Cmult (Cmult (RtoC (- (1))) (Cmult (RtoC (s / (2 * Kn))) (RtoC (Kn * k)))) (Cmult (cis_ (al_phase f - 2 * ep)) (cis_ (2 * ep)))); [ring|]. rewrite cis_mul. replace (al_phase f - 2 * ep + 2 * ep) with (al_phase f) by ring.
    rewrite <- !RtoC_mult. replace (- (1) * (s / (2 * Kn) * (Kn * k))) with (- s * (k / 2)) by (field; lra). rewrite RtoC_mult. ring. }
  rewrite GG in E1, E2. rewrite E. do 2 f_equal.
  - assert (K : Cmult (RtoC 2) (Cmult Ci hc) = Cmult h (RtoC (2 * cos incl))).
    { transitivity (Cminus (Cplus hp (Cmult Ci hc)) (Cminus hp (Cmult Ci hc))); [replace (RtoC 2) with (Cplus (RtoC 1) (RtoC 1)) by (rewrite <- RtoC_plus; f_equal; ring); ring|]. rewrite E1, E2. replace (RtoC (2 * cos incl)) with (Cminus (RtoC ((1 + cos incl) ^ 2 / 2)) (RtoC ((1 - cos incl) ^ 2 / 2))) by (rewrite <- RtoC_minus; f_equal; field). ring. }
    assert (K2 : Cmult Ci hc = Cmult h (RtoC (cos incl))). { transitivity (Cmult (RtoC (/ 2)) (Cmult (RtoC 2) (Cmult Ci hc))); [rewrite Cmult_assoc, <- RtoC_mult; replace (/ 2 * 2) with 1 by field; ring|]. rewrite K. transitivity (Cmult h (Cmult (RtoC (/ 2)) (RtoC (2 * cos incl)))); [ring|]. rewrite <- RtoC_mult. do 2 f_equal. field. }
    rewrite <- K2. assert (I2 : Cmult Ci Ci = Copp (RtoC 1)) by (unfold Cmult, Ci, Copp, RtoC; cbn [fst snd]; f_equal; ring). transitivity (Copp (Cmult (Cmult Ci Ci) hc)); [rewrite I2; ring|ring].
  - assert (K : Cmult (RtoC 2) hp = Cmult h (RtoC (1 + cos incl ^ 2))).
    { transitivity (Cplus (Cplus hp (Cmult Ci hc)) (Cminus hp (Cmult Ci hc))); [replace (RtoC 2) with (Cplus (RtoC 1) (RtoC 1)) by (rewrite <- RtoC_plus; f_equal; ring); ring|]. rewrite E1, E2. replace (RtoC (1 + cos incl ^ 2)) with (Cplus (RtoC ((1 + cos incl) ^ 2 / 2)) (RtoC ((1 - cos incl) ^ 2 / 2))) by (rewrite <- RtoC_plus; f_equal; field). ring. }
    transitivity (Cmult (RtoC (/ 2)) (Cmult (RtoC 2) hp)); [rewrite Cmult_assoc, <- RtoC_mult; replace (/ 2 * 2) with 1 by field; ring|]. rewrite K. transitivity (Cmult h (Cmult (RtoC (/ 2)) (RtoC (1 + cos incl ^ 2)))); [ring|]. rewrite <- RtoC_mult. do 2 f_equal. field.
Qed.
End Strain.
End Aligned.
