(** IMRPhenomPv2: the strain of a physical precessing binary. *)
From Coq Require Import Reals Lra ZArith.
From Coquelicot Require Import Coquelicot.
From Verif Require Import Base Rutil Conv_model Conv_props Wave_props Tf2_model Tf2_props Phd_fits Phd_data Phd_delta Phd_model Phd_props Phd_bounds Phd_main Php_fits Php_model Php_props Php_geom Php_twist.
Local Open Scope R_scope.

(** ** the amplitude scale *)
Lemma chirp_Rpower m1 m2 : 0 < m1 -> 0 < m2 -> let eta := m1 * m2 / ((m1 + m2) * (m1 + m2)) in
  Rpower (chirp_mass m1 m2 * MTSUN_SI) (5 / 6) = Rpower eta (1 / 2) * Rpower ((m1 + m2) * MTSUN_SI) (5 / 6).
Proof.
  intros H1 H2 eta. pose proof MTSUN_pos as HT. assert (P12 : 0 < m1 * m2) by (apply Rmult_lt_0_compat; assumption). assert (Ps : 0 < m1 + m2) by lra.
  assert (PM : 0 < (m1 + m2) * MTSUN_SI) by (apply Rmult_lt_0_compat; assumption).
  assert (CE : chirp_mass m1 m2 * MTSUN_SI = Rpower eta (3 / 5) * ((m1 + m2) * MTSUN_SI)).
  { unfold chirp_mass.
    assert (Ee : eta = m1 * m2 * Rpower (m1 + m2) (- (2))). { rewrite Rpower_Ropp. replace (Rpower (m1 + m2) 2) with ((m1 + m2) ^ 2) by (rewrite <- (Rpower_pow 2) by exact Ps; f_equal; cbn [INR]; lra). unfold eta. field. lra. }
    rewrite Ee. rewrite <- (Rpower_mult_distr (m1 * m2) (Rpower (m1 + m2) (- (2)))) by (try exact P12; apply Rpower_pos). rewrite Rpower_mult. replace (- (2) * (3 / 5)) with (- (6 / 5)) by lra.
    unfold Rdiv at 1. rewrite <- Rpower_Ropp. rewrite <- (Rpower_1 (m1 + m2)) at 3 by exact Ps.
    replace (Rpower (m1 * m2) (3 / 5) * Rpower (m1 + m2) (- (6 / 5)) * (Rpower (m1 + m2) 1 * MTSUN_SI)) with (Rpower (m1 * m2) (3 / 5) * (Rpower (m1 + m2) (- (6 / 5)) * Rpower (m1 + m2) 1) * MTSUN_SI) by ring.
    rewrite <- Rpower_plus. do 3 f_equal. lra. }
  rewrite CE, <- Rpower_mult_distr by (try exact PM; apply Rpower_pos). rewrite Rpower_mult. do 2 f_equal. lra.
Qed.
(** the prefactor is the Newtonian stationary-phase amplitude over 2 sqrt (5 / 64 pi) *)
Lemma Amp0_spec m1 m2 f dist : 0 < m1 -> 0 < m2 -> 0 < f -> 0 < dist -> let eta := m1 * m2 / ((m1 + m2) * (m1 + m2)) in let Ms := (m1 + m2) * MTSUN_SI in
  get_Amp0 (Ms * f) eta * Ms ^ 2 / (dist * MPC_SEC) = spa_amplitude f (chirp_mass m1 m2) dist / (2 * Kn).
Proof.
  intros H1 H2 Hf Hd eta Ms. pose proof MTSUN_pos as HT. pose proof MPC_pos as HD. pose proof PI_RGT_0 as HP. pose proof Kn_pos as HK.
  assert (PM : 0 < Ms) by (apply Rmult_lt_0_compat; lra). assert (Pe : 0 < eta) by (apply Rdiv_lt_0_compat; nra).
  unfold spa_amplitude. rewrite chirp_Rpower by assumption. fold eta Ms. unfold get_Amp0. rewrite (sqrt_mult_alt (2 / 3)) by lra. rewrite (sqrt_Rpower eta Pe).
  rewrite <- (Rpower_mult_distr Ms f) by assumption. assert (MM : Rpower Ms (5 / 6) = Rpower Ms (- (7 / 6)) * Ms ^ 2). { rewrite <- (Rpower_pow 2) by exact PM. rewrite <- Rpower_plus. f_equal. cbn [INR]. lra. }
  rewrite MM. assert (CC : sqrt (2 / 3) * Rpower PI (- (1 / 6)) * (2 * Kn) = sqrt (5 / 24) * Rpower PI (- (2 / 3))).
  { assert (E1 : Kn = sqrt (5 / 64) * Rpower PI (- (1 / 2))). { unfold Kn. replace (5 / (64 * PI)) with (5 / 64 * / PI) by (field; lra). rewrite sqrt_mult_alt by lra. f_equal. rewrite (sqrt_Rpower (/ PI)) by (apply Rinv_0_lt_compat, HP). unfold Rpower. rewrite ln_Rinv by exact HP. f_equal. ring. }
    rewrite E1. replace (- (2 / 3)) with (- (1 / 6) + - (1 / 2)) by lra. rewrite Rpower_plus.
    replace (sqrt (5 / 24)) with (sqrt (2 / 3) * (2 * sqrt (5 / 64))); [ring|]. rewrite <- (sqrt_square 2) at 2 by lra. rewrite <- !sqrt_mult_alt by lra. f_equal. field. }
  set (a := sqrt (2 / 3)) in *. set (b := Rpower PI (- (1 / 6))) in *. set (r := sqrt (5 / 24)) in *. set (t := Rpower PI (- (2 / 3))) in *.
  set (x := Rpower eta (1 / 2)). set (y := Rpower Ms (- (7 / 6))). set (z := Rpower f (- (7 / 6))).
  transitivity (a * b * (2 * Kn) * x * (y * Ms ^ 2) * z / (dist * MPC_SEC) / (2 * Kn)); [field; repeat split; lra|]. rewrite CC. field. repeat split; lra.
Qed.

(** ** parameters *)
Definition pp_params (mc q : R) (s1 s2 : vec) : dpar :=
  let ml := fst (components mc q) in let ms := snd (components mc q) in
  let eta := ml * ms / ((ml + ms) * (ml + ms)) in
  let af := FinalSpin_inplane ml ms (vz s1) (vz s2) (pp_chip ms ml s2 s1) in
  let Erad := PhenomInternal_EradRational0815 eta (eta * eta) (vz s1) (vz s2) in
  mkd ml ms eta (sqrt (1 - 4 * eta)) (vz s1) (vz s2) (vz s2 * vz s2) (vz s1 * vz s1) (- 1 + chiPN (sqrt (1 - 4 * eta)) eta (vz s1) (vz s2))
    (interp1 qnm_a qnm_fring af / (1 - Erad)) (interp1 qnm_a qnm_fdamp af / (1 - Erad)).

Section Phys.
Variables mc q f_ref : R.
Variables s1 s2 : vec.
Hypothesis Hm : 0 < mc.
Hypothesis Hq : 0 < q <= 1.
Hypothesis B1 : in_ball s1.
Hypothesis B2 : in_ball s2.
Let ml := fst (components mc q).
Let ms := snd (components mc q).
Let Ms := (ml + ms) * MTSUN_SI.
Let eta := ml * ms / ((ml + ms) * (ml + ms)).
Let chip := pp_chip ms ml s2 s1.
Let p := pp_params mc q s1 s2.
Lemma masses : 0 < ms /\ ms <= ml /\ ms / ml = q /\ chirp_mass ml ms = mc.
Proof. pose proof (components_spec mc q Hm ltac:(lra)) as K. unfold ml, ms. destruct (components mc q) as [a b]. cbn [fst snd]. destruct K as (A & B & C0 & D & E). repeat split; try assumption. apply E. lra. Qed.
Lemma Ms_pp_pos : 0 < Ms. Proof. destruct masses as (A & B & _). apply Rmult_lt_0_compat; [lra|apply MTSUN_pos]. Qed.
Lemma eta_pp : 0 < eta <= 1 / 4 /\ sqrt (Rmax (1 - 4 * eta) 0) = sqrt (1 - 4 * eta).
Proof.
  destruct masses as (A & B & _). destruct (FinalSpin_mass ml ms 0 0 A B) as (He & _). fold eta in He. split; [exact He|]. rewrite Rmax_left by lra. reflexivity.
Qed.
Lemma spin_z : - 1 <= vz s1 <= 1 /\ - 1 <= vz s2 <= 1.
Proof. unfold in_ball, vdot in B1, B2. split; split; nra. Qed.
Lemma pp_fr : phP_fRD_fdamp ml ms (vz s1) (vz s2) chip = Ok (d_fRD p / Ms, d_fDM p / Ms).
Proof.
  unfold phP_fRD_fdamp. cbv zeta. destruct masses as (A & B & _). pose proof MTSUN_pos as HT. pose proof (pp_final_spin_range ml ms s1 s2 A B B1 B2) as FS. fold chip in FS.
  rewrite !pp_interp_qnm by lra. cbn [bind].
  assert (EM : ml * MTSUN_SI + ms * MTSUN_SI = Ms) by (unfold Ms; ring). rewrite EM.
  assert (EE : ml * MTSUN_SI * (ms * MTSUN_SI) / Ms ^ 2 = eta) by (unfold Ms, eta; field; lra). rewrite EE. reflexivity.
Qed.
(** ** ringdown, joins, smoothness (as for IMRPhenomD) *)
Theorem pp_ringdown : 46 / 1000 <= d_fRD p <= 182 / 1000 /\ 29 / 100000 <= d_fDM p <= 164 / 10000 /\ 3 * d_fDM p <= d_fRD p.
Proof.
  destruct masses as (A & B & _). pose proof (pp_final_spin_range ml ms s1 s2 A B B1 B2) as FS. destruct eta_pp as (He & _). destruct spin_z as (Z1 & Z2). pose proof (pd_radiated_energy_range eta _ _ He Z1 Z2) as ER.
  unfold p, pp_params. cbv zeta. cbn [d_fRD d_fDM]. fold ml ms. fold eta. set (af := FinalSpin_inplane _ _ _ _ _) in *. pose proof (qnm_fring_range af ltac:(lra)) as QA. pose proof (qnm_fdamp_range af ltac:(lra)) as QB.
  set (e := PhenomInternal_EradRational0815 _ _ _ _) in *. set (x := interp1 qnm_a qnm_fring _) in *. set (y := interp1 qnm_a qnm_fdamp _) in *.
  assert (I : 1 <= / (1 - e) <= 115 / 100). { split; [rewrite <- Rinv_1; apply Rinv_le_contravar; lra|]. apply Rmult_le_reg_r with (1 - e); [lra|]. rewrite Rinv_l by lra. lra. }
  unfold Rdiv. set (k := / (1 - e)) in *. clearbody x y k. split; [split; nra|]. split; [split; nra|]. nra.
Qed.
Lemma p_xi : d_eta p = eta /\ d_xi p = - 1 + chiPN (sqrt (Rmax (1 - 4 * eta) 0)) eta (vz s1) (vz s2).
Proof. destruct eta_pp as (_ & E). rewrite E. split; reflexivity. Qed.
Theorem pp_joins : phi_join < rd_join p /\ rd_join p < pd_peak p /\ amp_join < pd_peak p /\ pd_peak p <= d_fRD p.
Proof.
  destruct eta_pp as (He & _). destruct spin_z as (Z1 & Z2). destruct p_xi as (E1 & E2). pose proof (gamma_ranges eta _ _ He Z1 Z2) as (_ & G2 & G3). rewrite <- E2, <- E1 in G2, G3.
  destruct masses as (A & B & _). pose proof (pp_final_spin_range ml ms s1 s2 A B B1 B2) as FS. pose proof (pd_radiated_energy_range eta _ _ He Z1 Z2) as ER.
  assert (EK : exists k x y, d_fRD p = x * k /\ d_fDM p = y * k /\ 1 <= k /\ 46 / 1000 <= x /\ 0 < y <= 142 / 10000).
  { set (af := FinalSpin_inplane ml ms (vz s1) (vz s2) chip). pose proof (qnm_fring_range af ltac:(unfold af, chip; lra)) as QA. pose proof (qnm_fdamp_range af ltac:(unfold af, chip; lra)) as QB.
    exists (/ (1 - PhenomInternal_EradRational0815 eta (eta * eta) (vz s1) (vz s2))), (interp1 qnm_a qnm_fring af), (interp1 qnm_a qnm_fdamp af).
    split; [reflexivity|]. split; [reflexivity|]. split; [rewrite <- Rinv_1; apply Rinv_le_contravar; lra|]. lra. }
  destruct EK as (k & x & y & K1 & K2 & K3 & K4 & K5).
  unfold rd_join, pd_peak, phi_join, amp_join. set (g2 := gamma2_fun (d_eta p) _ _) in *. set (g3 := gamma3_fun (d_eta p) _ _) in *. clearbody g2 g3.
  pose proof (peak_factor g2 ltac:(lra)) as PF. set (c := (1 - sqrt (Rmax (1 - g2 ^ 2) 0)) / g2) in *.
  replace (d_fRD p + d_fDM p * (-1 + sqrt (Rmax (1 - g2 ^ 2) 0)) * g3 / g2) with (d_fRD p - d_fDM p * (c * g3)) by (unfold c; field; lra).
  assert (CG : 0 <= c * g3 <= 3 / 2) by (split; nra). set (h := c * g3) in *. clearbody c h. rewrite K1, K2. 
  assert (YH : 0 <= y * h <= 213 / 10000) by (split; nra).
  replace (x * k - y * k * h) with (k * (x - y * h)) by ring. assert (Z : 247 / 10000 <= x - y * h) by lra.
  assert (Z2' : x - y * h > 5 / 10 * x) by lra.
  assert (Z3 : x - y * h <= x) by lra. set (z := x - y * h) in *. clearbody z. rewrite Rabs_right by nra. repeat split; nra.
Qed.
Lemma pp_fDM : d_fDM p <> 0. Proof. destruct pp_ringdown as (_ & B & _). lra. Qed.
Theorem pp_phase_C1 : C1 (fun x => fst (pd_phase p x)) (pd_slope p).
Proof.
  apply phase_C1; [|reflexivity || idtac|apply pp_fDM|apply pp_joins].
  - destruct p_xi as (E & _). rewrite E. apply eta_pp.
  - unfold eta_is, p, pp_params. cbv zeta. cbn [d_eta d_m1 d_m2]. fold ml ms. destruct masses as (A & B & _). field. lra.
Qed.
Theorem pp_amp_C1 : C1 (fun x => fst (pd_amp p x)) (fun x => snd (pd_amp p x)).
Proof.
  apply amp_C1; [|apply pp_joins]. destruct eta_pp as (He & _). destruct spin_z as (Z1 & Z2). destruct p_xi as (E1 & E2). pose proof (gamma_ranges eta _ _ He Z1 Z2) as (_ & _ & G3). rewrite <- E2, <- E1 in G3.
  apply Rmult_integral_contrapositive_currified; [apply pp_fDM|]. lra.
Qed.

(** ** the strain *)
(** precession angles at frequency f *)
Let qq := ml / ms.
Definition pp_chil : R := (1 + ml / ms) / (ml / ms) * ((ms * vz s2 + ml * vz s1) / (ms + ml)).
Definition pp_w (f : R) : R := PI * (f * MTSUN_SI * (ml + ms)).
Definition pp_Sp : R := chip * (ml / (ml + ms)) ^ 2.
Definition pp_SL : R := vz s1 * (ml / (ml + ms)) ^ 2 + vz s2 * (ms / (ml + ms)) ^ 2.
Definition pp_cosb (f : R) : R := 1 / sqrt (1 + (pp_Sp / (L2PNR (Rpower (pp_w f) (1 / 3)) eta + pp_SL)) ^ 2).
Section One.
Variables dist phic incl tc : R.
Hypothesis Hd : 0 < dist.
Let pc := convert_spins ms ml f_ref phic incl s2 s1.
Definition pp_al (f : R) : R := pp_alpha qq pp_chil chip (pp_w f) - pp_alpha qq pp_chil chip (pp_w f_ref) + pc_alpha0 pc.
Definition pp_ep (f : R) : R := pp_epsilon qq pp_chil chip (pp_w f) - pp_epsilon qq pp_chil chip (pp_w f_ref).
Definition pp_line (f : R) : R := - fst (pd_phase p (Ms * f)) + 2 * pc_phi_aligned pc + PI / 4 - f * diffRD p Ms (d_fRD p / Ms) - f * Ms * tc.
Definition pp_G (f : R) : Complex.C := Cmult (RtoC (spa_amplitude f mc dist * fst (pd_amp p (Ms * f)) / (2 * Kn))) (cis_ (pp_line f - 2 * pp_ep f)).
Definition pp_T2 (f : R) : Complex.C := T2m (pp_al f) (sqrt ((1 + pp_cosb f) / 2)) (sqrt ((1 - pp_cosb f) / 2)) (Y2 (pc_thetaJN pc)).
Definition pp_Tm2 (f : R) : Complex.C := Tm2m (pp_al f) (sqrt ((1 + pp_cosb f) / 2)) (sqrt ((1 - pp_cosb f) / 2)) (Y2 (pc_thetaJN pc)).
Lemma polar a t u : (a * cos t, a * sin t) = Cmult (RtoC a) (cis_ t) /\ Cmult (cis_ t) (cis_ u) = cis_ (t + u).
Proof. split; [|apply cis_mul]. unfold cis_, Cmult, RtoC. cbn [fst snd]. f_equal; ring. Qed.
Theorem pp_one_form f : 0 < f -> exists hc hp, pp_one f mc q s1 s2 dist phic incl f_ref tc = Ok (hc, hp) /\
  Cplus hp (Cmult Ci hc) = Cmult (cis_ (- (2 * pc_zeta pc))) (Cmult (pp_G f) (pp_Tm2 f)) /\
  Cminus hp (Cmult Ci hc) = Cmult (cis_ (2 * pc_zeta pc)) (Cmult (pp_G f) (pp_T2 f)).
Proof.
  intros Hf. destruct masses as (A & B & _ & CM). pose proof MTSUN_pos as HT. pose proof Ms_pp_pos as PM. pose proof PI_RGT_0 as HP.
  unfold pp_one. replace (components mc q) with (ml, ms) by (unfold ml, ms; destruct (components mc q); reflexivity). cbv zeta. fold pc.
  destruct (conv_fields ms ml f_ref phic incl s2 s1) as (F1 & F2 & F3 & _). fold pc in F1, F2, F3. rewrite F1, F2, F3. change (pp_chip ms ml s2 s1) with chip.
  assert (EE : ms * ml / ((ms + ml) * (ms + ml)) = eta) by (unfold eta; field; lra). rewrite EE.
  unfold PhenomPOne. rewrite pp_fr. cbn [bind]. rewrite (Rplus_comm ms ml). change ((ml + ms) * MTSUN_SI) with Ms.
  assert (ER : Ms * (d_fRD p / Ms) = d_fRD p) by (field; lra). assert (ED : Ms * (d_fDM p / Ms) = d_fDM p) by (field; lra). rewrite ER, ED.
  set (p' := mkd ml ms eta (sqrt (1 - 4 * eta)) (vz s1) (vz s2) (vz s2 * vz s2) (vz s1 * vz s1) _ (d_fRD p) (d_fDM p)).
  assert (EP : p' = p) by reflexivity. rewrite EP. clear EP p'.
  unfold TwistUp. cbv zeta.
  assert (EQ : (1 + sqrt (1 - 4 * eta) - 2 * eta) / (2 * eta) = ml / ms).
  { destruct (FinalSpin_mass ml ms 0 0 A B) as (He & ES & _). fold eta in He, ES. rewrite Rmax_left in ES by lra. rewrite ES. unfold eta. field. repeat split; nra. }
  rewrite EQ. fold qq. assert (M1 : 1 / (1 + qq) = ms / (ml + ms)) by (unfold qq; field; lra). assert (M2 : qq / (1 + qq) = ml / (ml + ms)) by (unfold qq; field; lra). rewrite M1, M2.
  replace (chip * (ml / (ml + ms) * (ml / (ml + ms)))) with pp_Sp by (unfold pp_Sp; ring).
  replace (vz s2 * (ms / (ml + ms)) * (ms / (ml + ms)) + vz s1 * (ml / (ml + ms)) * (ml / (ml + ms))) with pp_SL by (unfold pp_SL; ring).
  change (PI * (f * MTSUN_SI * (ml + ms))) with (pp_w f). unfold Wignerd. cbv zeta. fold (pp_cosb f).
  replace (PI * Ms * f_ref) with (pp_w f_ref) by (unfold pp_w, Ms; ring).
  assert (EC : (1 + qq) / qq * ((ms * vz s2 + ml * vz s1) / (ml + ms)) = pp_chil) by (unfold pp_chil; rewrite (Rplus_comm ms ml); reflexivity). rewrite EC.
  replace (pp_alpha qq pp_chil chip (pp_w f) - (pp_alpha qq pp_chil chip (pp_w f_ref) - pc_alpha0 pc)) with (pp_al f) by (unfold pp_al; ring).
  fold (pp_ep f). fold (pp_T2 f). fold (pp_Tm2 f).
  replace (get_Amp0 (Ms * f) eta * fst (pd_amp p (Ms * f)) * Ms ^ 2 / (dist * MPC_SEC)) with (spa_amplitude f mc dist * fst (pd_amp p (Ms * f)) / (2 * Kn)).
  2:{ pose proof (Amp0_spec ml ms f dist ltac:(lra) A Hf Hd) as K. cbv zeta in K. fold eta Ms in K. rewrite CM in K. pose proof Kn_pos. pose proof MPC_pos.
      transitivity (spa_amplitude f mc dist / (2 * Kn) * fst (pd_amp p (Ms * f))); [field; lra|]. rewrite <- K. field. lra. }
  set (Am := spa_amplitude f mc dist * fst (pd_amp p (Ms * f)) / (2 * Kn)). set (ph := fst (pd_phase p (Ms * f)) - (2 * pc_phi_aligned pc + PI / 4)). set (D := diffRD p Ms (d_fRD p / Ms)).
  rewrite (proj1 (polar Am (- ph) 0)). replace (2 * PI * f * (D / (2 * PI))) with (f * D) by (field; lra).
  replace (cos (f * D), - sin (f * D)) with (cis_ (- (f * D))) by (unfold cis_; rewrite cos_neg, sin_neg; reflexivity).
  assert (GG : pp_G f = Cmult (RtoC Am) (Cmult (Cmult (cis_ (- (2 * pp_ep f))) (cis_ (- ph))) (Cmult (cis_ (- (f * D))) (cis_ (- (f * Ms * tc)))))).
  { unfold pp_G. fold Am. rewrite !cis_mul. do 2 f_equal. unfold pp_line, ph. fold D. ring. }
  set (T2 := pp_T2 f). set (Tm := pp_Tm2 f).
  eexists. eexists. split; [reflexivity|]. rewrite GG.
  set (g1 := cis_ (- (2 * pp_ep f))). set (g2 := cis_ (- ph)). set (g3 := cis_ (- (f * D))). set (g4 := cis_ (- (f * Ms * tc))). 
  set (z := 2 * pc_zeta pc).
  assert (CZ1 : cis_ (- z) = Cminus (RtoC (cos z)) (Cmult Ci (RtoC (sin z)))) by (unfold cis_, Cminus, Copp, Cplus, Cmult, Ci, RtoC; cbn [fst snd]; rewrite cos_neg, sin_neg; f_equal; ring).
  assert (CZ2 : cis_ z = Cplus (RtoC (cos z)) (Cmult Ci (RtoC (sin z)))) by (unfold cis_, Cplus, Cmult, Ci, RtoC; cbn [fst snd]; f_equal; ring).
  rewrite CZ1, CZ2. assert (I2 : Cmult Ci Ci = Copp (RtoC 1)) by (unfold Cmult, Ci, Copp, RtoC; cbn [fst snd]; f_equal; ring).
  set (cz := RtoC (cos z)). set (sz := RtoC (sin z)). set (AM := RtoC Am). set (ii := Ci) in *. clearbody g1 g2 g3 g4 cz sz AM ii T2 Tm.
  assert (N2 : RtoC 2 <> RtoC 0) by (intros E; apply RtoC_inj in E; lra). assert (E2 : RtoC 2 = Cplus (RtoC 1) (RtoC 1)) by (rewrite <- RtoC_plus; f_equal; ring). 
  unfold Cdiv. assert (H2 : Cmult (RtoC 2) (Cinv (RtoC 2)) = RtoC 1) by (apply Cinv_r, N2). set (h := Cinv (RtoC 2)) in *. rewrite E2 in H2. clearbody h.
  assert (H3 : h = Cplus (RtoC 1) (Copp h)) by (transitivity (Cplus (Cmult (Cplus (RtoC 1) (RtoC 1)) h) (Copp h)); [ring|rewrite H2; reflexivity]).
  set (W := Cmult AM (Cmult (Cmult g1 g2) (Cmult g3 g4))).
  split.
  - transitivity (Cmult W (Cmult (Cmult (Cplus (RtoC 1) (RtoC 1)) h) (Cmult (Cminus cz (Cmult ii sz)) Tm))); [|rewrite H2; ring]. unfold W. ring [I2].
  - transitivity (Cmult W (Cmult (Cmult (Cplus (RtoC 1) (RtoC 1)) h) (Cmult (Cplus cz (Cmult ii sz)) T2))); [|rewrite H2; ring]. unfold W. ring [I2].
Qed.
End One.
End Phys.
