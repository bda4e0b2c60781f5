(** Property C57: the IMRPhenomD waveform for every physical binary. *)
From Coq Require Import Reals Lra ZArith.
From Coquelicot Require Import Coquelicot.
From Verif Require Import Base Rutil Conv_model Conv_props Wave_props Tf2_model Tf2_props Phd_fits Phd_data Phd_delta Phd_model Phd_props Phd_bounds.
Local Open Scope R_scope.

(** ** the mass parameters *)
Lemma pd_total_pos mc q : 0 < mc -> 0 < pd_total mc q.
Proof. intros H. unfold pd_total. apply Rdiv_lt_0_compat; [apply Rmult_lt_0_compat; [exact H|]|]; apply Rpower_pos. Qed.
Theorem pd_eta_spec mc q : 0 < mc -> 0 < q -> pd_eta mc q = q / (1 + q) ^ 2.
Proof.
  intros Hm Hq. unfold pd_eta. assert (P1 : 0 < Rpower (1 + q) (12 / 10)) by apply Rpower_pos. assert (P2 : 0 < Rpower q (6 / 10)) by apply Rpower_pos.
  assert (E : mc / pd_total mc q = Rpower q (6 / 10) * Rpower (1 + q) (- (12 / 10))). { rewrite Rpower_Ropp. unfold pd_total. field. repeat split; lra. }
  rewrite E, <- Rpower_mult_distr by apply Rpower_pos. rewrite !Rpower_mult. replace (6 / 10 * (5 / 3)) with 1 by lra. rewrite Rpower_1 by exact Hq.
  replace (- (12 / 10) * (5 / 3)) with (- (2)) by lra. rewrite Rpower_Ropp. replace (Rpower (1 + q) 2) with ((1 + q) ^ 2) by (rewrite <- (Rpower_pow 2) by lra; f_equal; cbn [INR]; lra). reflexivity.
Qed.
Lemma eta_range q : 0 < q -> 0 < q / (1 + q) ^ 2 <= 1 / 4.
Proof.
  intros Hq. assert (P : 0 < (1 + q) ^ 2) by (apply pow_lt; lra). split; [apply Rdiv_lt_0_compat; lra|].
  apply Rmult_le_reg_r with ((1 + q) ^ 2); [exact P|]. unfold Rdiv at 1. rewrite Rmult_assoc, Rinv_l, Rmult_1_r by lra. pose proof (pow2_ge_0 (1 - q)). nra.
Qed.
Lemma peak_factor g : 0 < g -> 0 <= (1 - sqrt (Rmax (1 - g ^ 2) 0)) / g <= 1.
Proof.
  intros Hg. set (r := sqrt _). assert (Pr : 0 <= r) by apply sqrt_pos.
  assert (R1 : r <= 1). { unfold r. apply Rle_trans with (sqrt 1); [|rewrite sqrt_1; lra]. apply sqrt_le_1_alt. apply Rmax_lub; [pose proof (pow2_ge_0 g); lra|lra]. }
  assert (R2 : 1 - g <= r).
  { destruct (Rle_dec 1 g) as [H|H]; [lra|]. unfold r. rewrite Rmax_left by nra. rewrite <- (sqrt_Rsqr (1 - g)) by lra. apply sqrt_le_1_alt. unfold Rsqr. nra. }
  split; [apply Rmult_le_pos; [lra|apply Rlt_le, Rinv_0_lt_compat, Hg]|]. apply Rmult_le_reg_r with g; [exact Hg|]. unfold Rdiv. rewrite Rmult_assoc, Rinv_l, Rmult_1_r by lra. lra.
Qed.

Section Physical.
Variables mc q chi1 chi2 : R.
Hypothesis Hm : 0 < mc.
Hypothesis Hq : 0 < q.
Hypothesis H1 : - 1 <= chi1 <= 1.
Hypothesis H2 : - 1 <= chi2 <= 1.
Let p := pd_params mc q chi1 chi2.
Lemma p_eta : d_eta p = q / (1 + q) ^ 2.
Proof. unfold p, pd_params. destruct (fring_fdamp _ _ _) as [a b]. cbn [d_eta]. apply pd_eta_spec; assumption. Qed.
Lemma p_eta_pos : 0 < d_eta p. Proof. rewrite p_eta. apply eta_range, Hq. Qed.
(** the masses used are the component masses with the given chirp mass and ratio m2/m1 = q *)
Theorem pd_masses : (d_m1 p, d_m2 p) = components mc q /\ d_eta p = d_m1 p * d_m2 p / (d_m1 p + d_m2 p) ^ 2 /\ d_m1 p + d_m2 p = pd_total mc q.
Proof.
  assert (E : (d_m1 p, d_m2 p) = components mc q) by (unfold p, pd_params, components; destruct (fring_fdamp _ _ _); reflexivity). split; [exact E|]. rewrite p_eta.
  assert (E1 : d_m1 p = pd_total mc q / (1 + q)) by (unfold p, pd_params; destruct (fring_fdamp _ _ _); reflexivity).
  assert (E2 : d_m2 p = d_m1 p * q) by (unfold p, pd_params; destruct (fring_fdamp _ _ _); reflexivity).
  assert (P := pd_total_pos mc q Hm). assert (P1 : 0 < d_m1 p) by (rewrite E1; apply Rdiv_lt_0_compat; lra).
  split; [rewrite E2; field; split; [|lra]; apply Rgt_not_eq; nra|rewrite E2, E1; field; lra].
Qed.
Lemma p_m1_pos : 0 < d_m1 p /\ 0 < d_m2 p.
Proof. destruct pd_masses as [E _]. pose proof (components_spec mc q Hm Hq) as K. rewrite <- E in K. tauto. Qed.
Lemma p_eta_is : eta_is p.
Proof. destruct pd_masses as [_ [E _]]. destruct p_m1_pos. unfold eta_is. rewrite E. field. lra. Qed.
(** ** the remnant: ringdown and damping frequency *)
Lemma p_eta_range : 0 < pd_eta mc q <= 1 / 4.
Proof. rewrite pd_eta_spec by assumption. apply eta_range, Hq. Qed.
Theorem pd_ringdown : 46 / 1000 <= d_fRD p <= 182 / 1000 /\ 29 / 100000 <= d_fDM p <= 164 / 10000 /\ 3 * d_fDM p <= d_fRD p.
Proof.
  pose proof (pd_final_spin_range _ _ _ p_eta_range H1 H2) as FS. pose proof (pd_radiated_energy_range _ _ _ p_eta_range H1 H2) as ER.
  pose proof (qnm_fring_range _ FS) as A. pose proof (qnm_fdamp_range _ FS) as B.
  unfold p, pd_params, fring_fdamp. cbn [d_fRD d_fDM]. set (e := PhenomInternal_EradRational0815 _ _ _ _) in *. set (x := interp1 qnm_a qnm_fring _) in *. set (y := interp1 qnm_a qnm_fdamp _) in *.
  assert (I : 1 <= / (1 - e) <= 115 / 100). { split; [rewrite <- Rinv_1; apply Rinv_le_contravar; lra|]. apply Rmult_le_reg_r with (1 - e); [lra|]. rewrite Rinv_l by lra. lra. }
  unfold Rdiv. set (k := / (1 - e)) in *. clearbody x y k. split; [split; nra|]. split; [split; nra|]. nra.
Qed.
Theorem pd_joins : phi_join < rd_join p /\ rd_join p < pd_peak p /\ amp_join < pd_peak p /\ pd_peak p <= d_fRD p.
Proof.
  destruct pd_ringdown as (A & B & _). 
  assert (XE : exists eta xi, d_eta p = eta /\ d_xi p = xi /\ 1 / 5 <= gamma2_fun eta (eta * eta) xi /\ 1 <= gamma3_fun eta (eta * eta) xi <= 3 / 2).
  { exists (pd_eta mc q), (- 1 + chiPN (sqrt (Rmax (1 - 4 * pd_eta mc q) 0)) (pd_eta mc q) chi1 chi2). split; [unfold p, pd_params; destruct (fring_fdamp _ _ _); reflexivity|]. split; [unfold p, pd_params; destruct (fring_fdamp _ _ _); reflexivity|].
    exact (proj2 (gamma_ranges _ _ _ p_eta_range H1 H2)). }
  destruct XE as (eta & xi & E1 & E2 & G2 & G3). 
  pose proof (pd_final_spin_range _ _ _ p_eta_range H1 H2) as FS. pose proof (pd_radiated_energy_range _ _ _ p_eta_range H1 H2) as ER.
  pose proof (qnm_fring_range _ FS) as QA. pose proof (qnm_fdamp_range _ FS) as QB.
  assert (EK : exists k x y, d_fRD p = x * k /\ d_fDM p = y * k /\ 1 <= k /\ 46 / 1000 <= x /\ 0 < y <= 142 / 10000).
  { exists (/ (1 - PhenomInternal_EradRational0815 (pd_eta mc q) (pd_eta mc q * pd_eta mc q) chi1 chi2)), (interp1 qnm_a qnm_fring (FinalSpin0815 (pd_eta mc q) (pd_eta mc q * pd_eta mc q) chi1 chi2)), (interp1 qnm_a qnm_fdamp (FinalSpin0815 (pd_eta mc q) (pd_eta mc q * pd_eta mc q) chi1 chi2)).
    split; [reflexivity|]. split; [reflexivity|]. split; [rewrite <- Rinv_1; apply Rinv_le_contravar; lra|]. lra. }
  destruct EK as (k & x & y & K1 & K2 & K3 & K4 & K5).
  unfold rd_join, pd_peak, phi_join, amp_join. rewrite E1, E2. set (g2 := gamma2_fun eta (eta * eta) xi) in *. set (g3 := gamma3_fun eta (eta * eta) xi) in *. clearbody g2 g3.
  pose proof (peak_factor g2 ltac:(lra)) as PF. set (c := (1 - sqrt (Rmax (1 - g2 ^ 2) 0)) / g2) in *.
  replace (d_fRD p + d_fDM p * (-1 + sqrt (Rmax (1 - g2 ^ 2) 0)) * g3 / g2) with (d_fRD p - d_fDM p * (c * g3)) by (unfold c; field; lra).
  assert (CG : 0 <= c * g3 <= 3 / 2) by (split; nra). set (h := c * g3) in *. clearbody c h. rewrite K1, K2. 
  assert (YH : 0 <= y * h <= 213 / 10000) by (split; nra).
  replace (x * k - y * k * h) with (k * (x - y * h)) by ring. assert (Z : 247 / 10000 <= x - y * h) by lra.
  assert (Z2 : x - y * h > 5 / 10 * x) by lra.
  assert (Z3 : x - y * h <= x) by lra. set (z := x - y * h) in *. clearbody z. rewrite Rabs_right by nra. repeat split; nra.
Qed.
Lemma p_fDM : d_fDM p <> 0. Proof. destruct pd_ringdown as (_ & B & _). lra. Qed.
Lemma p_gamma : 1 / 1000 <= gamma1_fun (d_eta p) (d_eta p * d_eta p) (d_xi p) /\ 1 <= gamma3_fun (d_eta p) (d_eta p * d_eta p) (d_xi p) <= 3 / 2.
Proof.
  pose proof (gamma_ranges _ _ _ p_eta_range H1 H2) as G.
  replace (d_eta p) with (pd_eta mc q) by (unfold p, pd_params; destruct (fring_fdamp _ _ _); reflexivity).
  replace (d_xi p) with (- 1 + chiPN (sqrt (Rmax (1 - 4 * pd_eta mc q) 0)) (pd_eta mc q) chi1 chi2) by (unfold p, pd_params; destruct (fring_fdamp _ _ _); reflexivity). tauto.
Qed.
(** ** the phase is continuously differentiable in the frequency, through both joins *)
Theorem pd_phase_C1 : C1 (fun x => fst (pd_phase p x)) (pd_slope p).
Proof. apply phase_C1; [apply p_eta_pos|apply p_eta_is|apply p_fDM|apply pd_joins]. Qed.
Theorem pd_amp_C1 : C1 (fun x => fst (pd_amp p x)) (fun x => snd (pd_amp p x)).
Proof. apply amp_C1; [|apply pd_joins]. pose proof p_gamma as G. apply Rmult_integral_contrapositive_currified; [apply p_fDM|]. lra. Qed.
(** the amplitude factor is positive through merger and ringdown, with the ringdown Lorentzian *)
Theorem pd_amp_ringdown x : pd_peak p < x ->
  fst (pd_amp p x) = (let g1 := gamma1_fun (d_eta p) (d_eta p * d_eta p) (d_xi p) in let g2 := gamma2_fun (d_eta p) (d_eta p * d_eta p) (d_xi p) in let g3 := gamma3_fun (d_eta p) (d_eta p * d_eta p) (d_xi p) in
    g1 * (g3 * d_fDM p) / ((x - d_fRD p) ^ 2 + (g3 * d_fDM p) ^ 2) * exp (- (g2 * (x - d_fRD p) / (g3 * d_fDM p)))) /\ 0 < fst (pd_amp p x).
Proof.
  intros Hx. assert (HJ : amp_join < pd_peak p) by apply pd_joins. pose proof p_gamma as G. destruct pd_ringdown as (_ & B & _).
  assert (E : fst (pd_amp p x) = (let g1 := gamma1_fun (d_eta p) (d_eta p * d_eta p) (d_xi p) in let g2 := gamma2_fun (d_eta p) (d_eta p * d_eta p) (d_xi p) in let g3 := gamma3_fun (d_eta p) (d_eta p * d_eta p) (d_xi p) in
    g1 * (g3 * d_fDM p) / ((x - d_fRD p) ^ 2 + (g3 * d_fDM p) ^ 2) * exp (- (g2 * (x - d_fRD p) / (g3 * d_fDM p))))).
  { unfold pd_amp. cbn [fst]. rewrite (theta_piece3 amp_join (pd_peak p) (fun x => fst (ins_amp p x)) (fun x => fst (int_amp p x)) (fun x => fst (mrd_amp p x)) x HJ). unfold piece3.
    destruct (Rle_dec x amp_join); [lra|]. destruct (Rle_dec x (pd_peak p)); [lra|]. unfold mrd_amp. cbv zeta. cbn [fst].
    set (g1 := gamma1_fun _ _ _) in *. set (g2 := gamma2_fun _ _ _) in *. set (g3 := gamma3_fun _ _ _) in *. clearbody g1 g2 g3. rewrite exp_Ropp.
    replace ((x - d_fRD p) * g2 / (d_fDM p * g3)) with (g2 * (x - d_fRD p) / (g3 * d_fDM p)) by (field; lra). set (X := exp _). assert (PX : 0 < X) by apply exp_pos.
    assert (PG : 0 < g3 * d_fDM p) by nra. assert (PQ : 0 < (x - d_fRD p) ^ 2 + (g3 * d_fDM p) ^ 2) by (pose proof (pow2_ge_0 (x - d_fRD p)); pose proof (pow_lt _ 2 PG); lra).
    clearbody X. field. split; lra. }
  split; [exact E|]. rewrite E. cbv zeta. set (g1 := gamma1_fun _ _ _) in *. set (g2 := gamma2_fun _ _ _) in *. set (g3 := gamma3_fun _ _ _) in *. clearbody g1 g2 g3.
  assert (PG : 0 < g3 * d_fDM p) by nra. assert (PQ : 0 < (x - d_fRD p) ^ 2 + (g3 * d_fDM p) ^ 2) by (pose proof (pow2_ge_0 (x - d_fRD p)); pose proof (pow_lt _ 2 PG); lra).
  apply Rmult_lt_0_compat; [apply Rdiv_lt_0_compat; [nra|exact PQ]|apply exp_pos].
Qed.

(** ** the strain *)
Let Ms := pd_total mc q * MTSUN_SI.
Lemma Ms_pos : 0 < Ms. Proof. unfold Ms. apply Rmult_lt_0_compat; [apply pd_total_pos, Hm|apply MTSUN_pos]. Qed.
(** exactly: (Newtonian amplitude) x (amplitude factor) x exp(-i Psi), the phase vanishing (up to the coalescence phase) at the reference frequency *)
Definition pd_phase_of (f : R) : R := fst (pd_phase p (Ms * f)) - Ms * f * snd (mrd_phase p (pd_peak p)).
Theorem pd_htilde_spec f dist phic f_ref : 0 < f -> 0 < dist ->
  let A := spa_amplitude f mc dist * fst (pd_amp p (Ms * f)) in let th := 2 * phic - (pd_phase_of f - pd_phase_of f_ref) in
  pd_htilde f mc q chi1 chi2 dist phic f_ref = (A * cos th, A * sin th).
Proof.
  intros Hf Hd A th. unfold pd_htilde. cbv zeta. fold p. fold Ms. destruct p_m1_pos as [P1 P2]. destruct pd_masses as (EC & EE & ET).
  assert (EM : Ms = d_m1 p * MTSUN_SI + d_m2 p * MTSUN_SI) by (unfold Ms; rewrite <- ET; ring).
  assert (ES : d_eta p = d_m1 p * MTSUN_SI * (d_m2 p * MTSUN_SI) / Ms / Ms). { rewrite EE, EM. field. pose proof MTSUN_pos. split; [apply Rgt_not_eq; nra|lra]. }
  assert (EA : tf2_amplitude (Ms * f) (d_m1 p) (d_m2 p) (d_eta p) dist = - spa_amplitude f mc dist).
  { rewrite ES, EM. rewrite (tf2_amplitude_spec f (d_m1 p) (d_m2 p) dist Hf P1 P2 Hd). do 2 f_equal.
    pose proof (components_spec mc q Hm Hq) as K. rewrite <- EC in K. tauto. }
  rewrite EA. replace (- pd_Psi p Ms phic f_ref f) with th by (unfold th, pd_Psi, pd_phase_of; cbv zeta; ring).
  replace (- - spa_amplitude f mc dist * fst (pd_amp p (Ms * f))) with A by (unfold A; ring). reflexivity.
Qed.
Theorem pd_polarisations f dist phic incl f_ref : 0 < f -> 0 < dist ->
  let (hc, hp) := pd_one f mc q chi1 chi2 dist phic incl f_ref in
  let A := spa_amplitude f mc dist * Rabs (fst (pd_amp p (Ms * f))) in
  Cmod hp = A * ((1 + cos incl ^ 2) / 2) /\ Cmod hc = A * Rabs (cos incl) /\
  Cmult hc (RtoC ((1 + cos incl ^ 2) / 2)) = Cmult (Copp Ci) (Cmult hp (RtoC (cos incl))).
Proof.
  intros Hf Hd. unfold pd_one. rewrite pd_htilde_spec by assumption. cbv zeta. set (a := spa_amplitude f mc dist). assert (Pa : 0 < a) by (apply spa_pos; assumption). set (m := fst (pd_amp p (Ms * f))). set (th := 2 * phic - _).
  replace (5 / 10 * (1 + cos incl * cos incl)) with ((1 + cos incl ^ 2) / 2) by field. set (h := (a * m * cos th, a * m * sin th) : Complex.C).
  assert (MH : Cmod h = a * Rabs m) by (unfold h; rewrite Cmod_polar, Rabs_mult, (Rabs_right a) by lra; reflexivity).
  assert (CI : Cmod Ci = 1) by (unfold Cmod, Ci; cbn [fst snd]; replace (0 ^ 2 + 1 ^ 2) with 1 by ring; apply sqrt_1).
  split; [rewrite Cmod_mult, MH, Cmod_R; f_equal; apply Rabs_right; nra|]. split; [rewrite Cmod_opp, !Cmod_mult, CI, MH, Cmod_R; ring|]. ring.
Qed.
(** at the reference frequency the phase is twice the coalescence phase, whatever the masses and spins *)
Theorem pd_reference f_ref dist phic : 0 < f_ref -> 0 < dist -> exists A, pd_htilde f_ref mc q chi1 chi2 dist phic f_ref = (A * cos (2 * phic), A * sin (2 * phic)).
Proof. intros Hf Hd. rewrite pd_htilde_spec by assumption. cbv zeta. replace (2 * phic - (pd_phase_of f_ref - pd_phase_of f_ref)) with (2 * phic) by ring. eexists. reflexivity. Qed.
(** turning the coalescence phase by d rotates the strain by exp(2 i d); the strain is inversely proportional to the distance *)
Theorem pd_coalescence_phase f dist phic f_ref d : 0 < f -> 0 < dist -> pd_htilde f mc q chi1 chi2 dist (phic + d) f_ref = Cmult (cos (2 * d), sin (2 * d)) (pd_htilde f mc q chi1 chi2 dist phic f_ref).
Proof.
  intros Hf Hd. rewrite !pd_htilde_spec by assumption. cbv zeta. set (A := spa_amplitude f mc dist * fst (pd_amp p (Ms * f))). set (D := pd_phase_of f - pd_phase_of f_ref). clearbody A D.
  replace (2 * (phic + d) - D) with (2 * d + (2 * phic - D)) by ring. rewrite cos_plus, sin_plus. unfold Cmult. cbn [fst snd]. f_equal; ring.
Qed.
Theorem pd_distance f dist phic f_ref k : 0 < f -> 0 < dist -> 0 < k -> pd_htilde f mc q chi1 chi2 (k * dist) phic f_ref = Cmult (RtoC (/ k)) (pd_htilde f mc q chi1 chi2 dist phic f_ref).
Proof.
  intros Hf Hd Hk. rewrite !pd_htilde_spec by (try assumption; nra). cbv zeta.
  assert (E : spa_amplitude f mc (k * dist) = / k * spa_amplitude f mc dist) by (unfold spa_amplitude; pose proof MPC_pos; field; repeat split; lra).
  rewrite E. set (a := spa_amplitude f mc dist). set (m := fst (pd_amp p (Ms * f))). set (th := 2 * phic - _). clearbody a m th. unfold Cmult, RtoC. cbn [fst snd]. f_equal; ring.
Qed.
(** the linear-in-f term subtracted does not put the slope to zero at the peak frequency: what is left there is the join slope C2MRD *)
Theorem pd_peak_slope : is_derive pd_phase_of (pd_peak p / Ms) (Ms * C2MRD p).
Proof.
  assert (HM := Ms_pos). assert (HR : rd_join p < pd_peak p) by apply pd_joins. assert (HJ : phi_join < rd_join p) by apply pd_joins. assert (P0 : 0 < pd_peak p) by (unfold phi_join in HJ; lra).
  assert (E0 : Ms * (pd_peak p / Ms) = pd_peak p) by (field; lra).
  destruct (pd_phase_C1 (pd_peak p) P0) as [D _].
  assert (ES : pd_slope p (pd_peak p) = snd (mrd_phase p (pd_peak p)) + C2MRD p). { unfold pd_slope, piece3. destruct (Rle_dec (pd_peak p) phi_join); [lra|]. destruct (Rle_dec (pd_peak p) (rd_join p)); [lra|]. reflexivity. }
  rewrite ES in D. unfold pd_phase_of. set (t0 := snd (mrd_phase p (pd_peak p))) in *.
  replace (Ms * C2MRD p) with (Ms * (t0 + C2MRD p) - Ms * t0) by ring.
  apply (is_derive_minus (V := R_NormedModule) (fun f => fst (pd_phase p (Ms * f))) (fun f => Ms * f * t0)).
  - apply (is_derive_comp (V := R_NormedModule) (fun y => fst (pd_phase p y)) (fun f => Ms * f)); [rewrite E0; exact D|]. auto_derive; [exact I|ring].
  - auto_derive; [exact I|ring].
Qed.
End Physical.

(** ** exchanging the two bodies of an equal-mass binary changes nothing *)
Lemma pd_depends (a b : dpar) : d_eta a = d_eta b -> d_xi a = d_xi b -> d_fRD a = d_fRD b -> d_fDM a = d_fDM b ->
  (forall x, ins_phase a x = ins_phase b x) -> (forall x, ins_amp a x = ins_amp b x) -> (forall x, pd_phase a x = pd_phase b x) /\ (forall x, pd_amp a x = pd_amp b x) /\ pd_peak a = pd_peak b /\ (forall x, mrd_phase a x = mrd_phase b x).
Proof.
  intros E1 E2 E3 E4 IP IA.
  assert (I1 : forall x, int_phase a x = int_phase b x) by (intros x; unfold int_phase; rewrite E1, E2; reflexivity).
  assert (I2 : forall x, mrd_phase a x = mrd_phase b x) by (intros x; unfold mrd_phase; rewrite E1, E2, E3, E4; reflexivity).
  assert (PK : pd_peak a = pd_peak b) by (unfold pd_peak; rewrite E1, E2, E3, E4; reflexivity).
  assert (I3 : forall x, mrd_amp a x = mrd_amp b x) by (intros x; unfold mrd_amp; rewrite E1, E2, E3, E4; reflexivity).
  assert (J : rd_join a = rd_join b) by (unfold rd_join; rewrite E3; reflexivity).
  assert (K1 : C2Int a = C2Int b) by (unfold C2Int; rewrite IP, I1; reflexivity).
  assert (K2 : C1Int a = C1Int b) by (unfold C1Int; rewrite IP, I1, K1, E1; reflexivity).
  assert (K3 : C2MRD a = C2MRD b) by (unfold C2MRD; rewrite J, I1, I2, K1; reflexivity).
  assert (K4 : C1MRD a = C1MRD b) by (unfold C1MRD; rewrite J, I1, I2, K1, K2, K3, E1; reflexivity).
  split; [intros x; unfold pd_phase; rewrite IP, I1, I2, K1, K2, K3, K4, J, E1; reflexivity|]. split; [|split; assumption].
  intros x. unfold pd_amp. rewrite IA, I3, PK. assert (E : int_amp a x = int_amp b x) by (rewrite !int_amp_poly, PK, !IA, !I3, E1, E2; reflexivity). rewrite E. reflexivity.
Qed.
Theorem pd_equal_mass_exchange f mc chi1 chi2 dist phic incl f_ref : 0 < mc -> pd_one f mc 1 chi1 chi2 dist phic incl f_ref = pd_one f mc 1 chi2 chi1 dist phic incl f_ref.
Proof.
  intros Hm. assert (Hq : 0 < 1) by lra. set (a := pd_params mc 1 chi1 chi2). set (b := pd_params mc 1 chi2 chi1).
  assert (EE : pd_eta mc 1 = 1 / 4) by (rewrite pd_eta_spec by assumption; field).
  assert (ES : sqrt (Rmax (1 - 4 * (1 / 4)) 0) = 0) by (replace (1 - 4 * (1 / 4)) with 0 by lra; rewrite Rmax_left by lra; apply sqrt_0).
  assert (FF : fring_fdamp (1 / 4) chi1 chi2 = fring_fdamp (1 / 4) chi2 chi1).
  { unfold fring_fdamp. assert (A : FinalSpin0815 (1 / 4) (1 / 4 * (1 / 4)) chi1 chi2 = FinalSpin0815 (1 / 4) (1 / 4 * (1 / 4)) chi2 chi1) by (unfold FinalSpin0815; rewrite ES; cbv zeta; field).
    assert (B : PhenomInternal_EradRational0815 (1 / 4) (1 / 4 * (1 / 4)) chi1 chi2 = PhenomInternal_EradRational0815 (1 / 4) (1 / 4 * (1 / 4)) chi2 chi1).
    { unfold PhenomInternal_EradRational0815. rewrite ES. cbv zeta. set (m := 5 / 10 * (1 + 0) * (5 / 10 * (1 + 0))). replace (5 / 10 * (1 - 0) * (5 / 10 * (1 - 0))) with m by (unfold m; ring). rewrite (Rplus_comm (m * chi1)). reflexivity. }
    rewrite A, B. reflexivity. }
  assert (XX : chiPN 0 (1 / 4) chi1 chi2 = chiPN 0 (1 / 4) chi2 chi1) by (unfold chiPN; cbv zeta; ring).
  assert (PM : d_m1 a = pd_total mc 1 / 2 /\ d_m2 a = pd_total mc 1 / 2 /\ d_m1 b = pd_total mc 1 / 2 /\ d_m2 b = pd_total mc 1 / 2).
  { unfold a, b, pd_params. destruct (fring_fdamp (pd_eta mc 1) chi1 chi2). destruct (fring_fdamp (pd_eta mc 1) chi2 chi1). cbn [d_m1 d_m2]. repeat split; field. }
  destruct PM as (A1 & A2 & B1 & B2). assert (PT := pd_total_pos mc 1 Hm).
  assert (GE : d_eta a = 1 / 4 /\ d_eta b = 1 / 4 /\ d_Seta a = 0 /\ d_Seta b = 0 /\ d_xi a = d_xi b /\ d_fRD a = d_fRD b /\ d_fDM a = d_fDM b /\ d_chi1 a = chi1 /\ d_chi2 a = chi2 /\ d_chi1 b = chi2 /\ d_chi2 b = chi1 /\ d_chi12 a = chi1 * chi1 /\ d_chi22 a = chi2 * chi2 /\ d_chi12 b = chi2 * chi2 /\ d_chi22 b = chi1 * chi1).
  { unfold a, b, pd_params. rewrite EE, FF, ES, XX. destruct (fring_fdamp (1 / 4) chi2 chi1). repeat split; reflexivity. }
  destruct GE as (G1 & G2 & G3 & G4 & G5 & G6 & G7 & G8 & G9 & G10 & G11 & G12 & G13 & G14 & G15).
  destruct (pd_depends a b) as (D1 & D2 & D3 & D4); [congruence|exact G5|exact G6|exact G7| | |].
  - intros x. unfold ins_phase, sub3PNSS. cbv zeta. rewrite G1, G2, G5, G8, G9, G10, G11, A1, A2, B1, B2. set (m := pd_total mc 1 / 2) in *. rewrite (tf2_exchange m m chi1 chi2) by (unfold m; lra).
    replace (pn_ss3 (1 / 4) (m / (m + m)) (m / (m + m)) chi1 chi2) with (pn_ss3 (1 / 4) (m / (m + m)) (m / (m + m)) chi2 chi1) by (unfold pn_ss3; cbv zeta; ring). reflexivity.
  - intros x. unfold ins_amp. cbv zeta. rewrite G1, G2, G3, G4, G5, G8, G9, G10, G11, G12, G13, G14, G15.
    set (xi := d_xi b). clearbody xi.
    assert (Q : forall F : R -> R -> R -> R -> R -> R -> R -> R -> R, In F [prefactors_two_thirds; prefactors_four_thirds; prefactors_five_thirds; prefactors_seven_thirds; prefactors_eight_thirds; prefactors_one; prefactors_two; prefactors_three] ->
      F (1 / 4) (1 / 4 * (1 / 4)) 0 xi chi1 chi2 (chi1 * chi1) (chi2 * chi2) = F (1 / 4) (1 / 4 * (1 / 4)) 0 xi chi2 chi1 (chi2 * chi2) (chi1 * chi1)).
    { intros F HF. repeat (destruct HF as [<-|HF]; [unfold prefactors_two_thirds, prefactors_four_thirds, prefactors_five_thirds, prefactors_seven_thirds, prefactors_eight_thirds, prefactors_one, prefactors_two, prefactors_three; cbv zeta; try reflexivity; unfold Rdiv; ring|]). destruct HF. }
    rewrite !(Q prefactors_two_thirds), !(Q prefactors_four_thirds), !(Q prefactors_five_thirds), !(Q prefactors_seven_thirds), !(Q prefactors_eight_thirds), !(Q prefactors_one), !(Q prefactors_two), !(Q prefactors_three) by (cbn [In]; tauto). reflexivity.
  - unfold pd_one, pd_htilde. cbv zeta. fold a b. unfold pd_Psi. rewrite !D1, D2, D3, D4, A1, A2, B1, B2, G1, G2. reflexivity.
Qed.

(** ** the module *)
Definition physical (mc q chi1 chi2 : R) : Prop := 0 < mc /\ 0 < q /\ -1 <= chi1 <= 1 /\ -1 <= chi2 <= 1.
Definition same_len (n : nat) (ls : list (list R)) : Prop := forall l, In l ls -> List.length l = n.
Theorem pd_forward_spec f mc q chi1 chi2 dist phic incl f_ref :
  (same_len (List.length mc) [q; chi1; chi2; dist; phic; incl] -> (forall i, (i < List.length mc)%nat -> physical (nth i mc 0) (nth i q 0) (nth i chi1 0) (nth i chi2 0)) ->
   exists h, pd_forward f mc q chi1 chi2 dist phic incl f_ref = Ok h /\ List.length h = List.length mc /\
    forall i j fj, (i < List.length mc)%nat -> nth_error f j = Some fj -> exists row, nth_error h i = Some row /\ List.length row = List.length f /\
      nth_error row j = Some (pd_one fj (nth i mc 0) (nth i q 0) (nth i chi1 0) (nth i chi2 0) (nth i dist 0) (nth i phic 0) (nth i incl 0) f_ref)) /\
  (~ same_len (List.length mc) [q; chi1; chi2; dist; phic; incl] -> pd_forward f mc q chi1 chi2 dist phic incl f_ref = Err ValueError) /\
  (same_len (List.length mc) [q; chi1; chi2; dist; phic; incl] ->
   (exists i, (i < List.length mc)%nat /\ let eta := pd_eta (nth i mc 0) (nth i q 0) in 1 < Rabs (FinalSpin0815 eta (eta * eta) (nth i chi1 0) (nth i chi2 0))) ->
   pd_forward f mc q chi1 chi2 dist phic incl f_ref = Err RuntimeError).
Proof.
  set (ls := [q; chi1; chi2; dist; phic; incl]). set (n := List.length mc).
  assert (FB : forallb (fun l : list R => (List.length l =? n)%nat) ls = true <-> same_len n ls).
  { rewrite forallb_forall. split; intros H l Hl; specialize (H l Hl); [apply Nat.eqb_eq|apply Nat.eqb_eq in H || apply Nat.eqb_eq]; assumption. }
  unfold pd_forward. fold ls n. set (EX := existsb _ _).
  split; [|split].
  - intros HL HP. apply FB in HL. rewrite HL. assert (EE : EX = false).
    { unfold EX. destruct (existsb _ _) eqn:E; [|reflexivity]. apply existsb_exists in E as (i & Hi & E). apply in_seq in Hi. cbv zeta in E.
      destruct (HP i ltac:(lia)) as (A & B & C0 & D). assert (OG := pd_final_spin_range _ _ _ (p_eta_range _ _ A B) C0 D). apply on_grid_iff in OG. congruence. }
    rewrite EE. eexists. split; [reflexivity|]. split; [rewrite map_length, seq_length; reflexivity|].
    intros i j fj Hi Hj. rewrite nth_error_map, (nth_error_nth' _ 0%nat) by (rewrite seq_length; exact Hi). rewrite seq_nth by exact Hi. cbn [option_map Nat.add]. eexists. split; [reflexivity|]. split; [apply map_length|]. rewrite nth_error_map, Hj. reflexivity.
  - intros HN. destruct (forallb _ ls); [exfalso; apply HN, FB; reflexivity|reflexivity].
  - intros HL (i & Hi & Hx). apply FB in HL. rewrite HL. assert (EE : EX = true); [|rewrite EE; reflexivity].
    unfold EX. apply existsb_exists. exists i. split; [apply in_seq; lia|]. cbv zeta in *. destruct (off_grid _ _) eqn:E; [reflexivity|]. apply on_grid_iff in E.
    exfalso. revert Hx E. generalize (FinalSpin0815 (pd_eta (nth i mc 0) (nth i q 0)) (pd_eta (nth i mc 0) (nth i q 0) * pd_eta (nth i mc 0) (nth i q 0)) (nth i chi1 0) (nth i chi2 0)). intros v Hx E. unfold Rabs in Hx. destruct (Rcase_abs v); lra.
Qed.
(** a concrete batch: equal masses without spin, and a 4:1 binary with spins 0.9 and -0.5 *)
Example pd_forward_ex : exists h, pd_forward [20; 30] [10; 20] [1; 1 / 4] [0; 9 / 10] [0; - (1 / 2)] [100; 200] [0; 1] [0; 1] 20 = Ok h /\ List.length h = 2%nat.
Proof.
  destruct (proj1 (pd_forward_spec [20; 30] [10; 20] [1; 1 / 4] [0; 9 / 10] [0; - (1 / 2)] [100; 200] [0; 1] [0; 1] 20)) as (h & E & L & _).
  - intros l Hl. repeat (destruct Hl as [<-|Hl]; [reflexivity|]). destruct Hl.
  - intros [|[|i]] Hi; [unfold physical; cbn; lra|unfold physical; cbn; lra|cbn in Hi; lia].
  - exists h. split; [exact E|exact L].
Qed.
