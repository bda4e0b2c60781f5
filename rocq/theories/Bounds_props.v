(** Property C68: the duration and frequency bounds used to condition time-domain waveforms. Masses in kg. *)
From Coq Require Import Reals Lra.
From Verif Require Import Base Tensor Gw_model Conv_model Conv_props Wave_model Wave_props.
Local Open Scope R_scope.

(** time in seconds of the total mass (with the code's G and C) *)
Definition secs (M : R) : R := M * Gn / Cl ^ 3.
Lemma secs_pos M : 0 < M -> 0 < secs M.
Proof. intros H. unfold secs. apply Rdiv_lt_0_compat; [apply Rmult_lt_0_compat; [assumption|apply Gn_pos]|apply pow_lt, Cl_pos]. Qed.
Definition eta_of (m1 m2 : R) : R := m1 * m2 / (m1 + m2) ^ 2.
Lemma eta_pos m1 m2 : 0 < m1 -> 0 < m2 -> 0 < eta_of m1 m2.
Proof. intros. unfold eta_of. apply Rdiv_lt_0_compat; [nra|apply pow_lt; lra]. Qed.
(** Newtonian (leading-order) time to coalescence from frequency f *)
Definition newtonian_time (f m1 m2 : R) : R := 5 * secs (m1 + m2) / (256 * eta_of m1 m2) * Rpower (PI * secs (m1 + m2) * f) (- (8 / 3)).
Lemma Rpower_third_8 x : 0 < x -> / (Rpower x (1 / 3)) ^ 8 = Rpower x (- (8 / 3)).
Proof.
  intros H. rewrite <- (Rpower_pow 8) by apply Rpower_pos. rewrite Rpower_mult, <- Rpower_Ropp. f_equal. cbn [INR]. lra.
Qed.
(** the parameter v of the code is the post-Newtonian velocity (pi M f)^(1/3) in seconds *)
Lemma v_secs M f : 0 < M -> 0 < f -> Rpower (PI * M * f * Gn) (1 / 3) / Cl = Rpower (PI * secs M * f) (1 / 3).
Proof.
  intros HM Hf. pose proof Cl_pos as HC. pose proof Gn_pos as HG. pose proof PI_RGT_0 as HP.
  assert (E : PI * M * f * Gn = PI * secs M * f * Cl ^ 3) by (unfold secs; field; apply Rgt_not_eq, Cl_pos).
  pose proof (secs_pos M HM) as HS. assert (0 < PI * secs M * f) by (apply Rmult_lt_0_compat; [apply Rmult_lt_0_compat; assumption|assumption]).
  rewrite E, <- Rpower_mult_distr; [|assumption|apply pow_lt; assumption].
  assert (C3 : Rpower (Cl ^ 3) (1 / 3) = Cl). { rewrite <- (Rpower_pow 3) by assumption. rewrite Rpower_mult. replace (INR 3 * (1 / 3)) with 1 by (cbn [INR]; lra). apply Rpower_1. assumption. }
  rewrite C3. field. lra.
Qed.
Theorem chirp_time_spec f m1 m2 s1 s2 : 0 < f -> 0 < m1 -> 0 < m2 ->
  let eta := eta_of m1 m2 in let v := Rpower (PI * secs (m1 + m2) * f) (1 / 3) in let chi := Rmax (Rabs s1) (Rabs s2) in
  chirp_time_bound f m1 m2 s1 s2 = newtonian_time f m1 m2 *
    (1 + (743 / 252 + 11 / 3 * eta) * v ^ 2 + 226 / 15 * chi * v ^ 3 + (3058673 / 508032 + 5429 / 504 * eta + 617 / 72 * eta ^ 2) * v ^ 4).
Proof.
  intros Hf H1 H2 eta v chi. unfold chirp_time_bound. cbv zeta. rewrite v_secs by lra. fold v.
  replace (m1 * m2 / (m1 + m2) / (m1 + m2)) with eta by (unfold eta, eta_of; field; lra).
  assert (Pe : 0 < eta) by (apply eta_pos; assumption). assert (PS : 0 < secs (m1 + m2)) by (apply secs_pos; lra).
  assert (PX : 0 < PI * secs (m1 + m2) * f) by (pose proof PI_RGT_0; apply Rmult_lt_0_compat; [apply Rmult_lt_0_compat; assumption|assumption]).
  unfold newtonian_time. fold eta. rewrite <- Rpower_third_8 by assumption. fold v.
  unfold t2_0pn, t2_2pn, t2_4pn. fold (secs (m1 + m2)). replace (Rabs (-5 * secs (m1 + m2) / (256 * eta))) with (5 * secs (m1 + m2) / (256 * eta)).
  2:{ rewrite Rabs_left; [field; lra|]. replace (-5 * secs (m1 + m2) / (256 * eta)) with (- (5 * secs (m1 + m2) / (256 * eta))) by (field; lra). assert (0 < 5 * secs (m1 + m2) / (256 * eta)) by (apply Rdiv_lt_0_compat; lra). lra. }
  fold chi. replace (Rabs chi) with chi; [ring|]. symmetry. apply Rabs_right. unfold chi. apply Rle_ge. eapply Rle_trans; [apply (Rabs_pos s1)|apply Rmax_l].
Qed.
(** it exceeds the Newtonian time, for every spin *)
Theorem chirp_time_above_newtonian f m1 m2 s1 s2 : 0 < f -> 0 < m1 -> 0 < m2 -> 0 < newtonian_time f m1 m2 < chirp_time_bound f m1 m2 s1 s2.
Proof.
  intros Hf H1 H2. rewrite chirp_time_spec by assumption. cbv zeta. set (eta := eta_of m1 m2). set (v := Rpower _ (1 / 3)). set (chi := Rmax _ _).
  assert (Pe : 0 < eta) by (apply eta_pos; assumption). assert (PV : 0 < v) by apply Rpower_pos. assert (PC : 0 <= chi) by (eapply Rle_trans; [apply (Rabs_pos s1)|apply Rmax_l]).
  assert (PN : 0 < newtonian_time f m1 m2). { unfold newtonian_time. fold eta. apply Rmult_lt_0_compat; [apply Rdiv_lt_0_compat; [pose proof (secs_pos (m1 + m2)); lra|lra]|apply Rpower_pos]. }
  split; [exact PN|]. rewrite <- (Rmult_1_r (newtonian_time f m1 m2)) at 1. apply Rmult_lt_compat_l; [exact PN|].
  assert (0 < (743 / 252 + 11 / 3 * eta) * v ^ 2) by (apply Rmult_lt_0_compat; [lra|apply pow_lt; assumption]).
  assert (0 <= 226 / 15 * chi * v ^ 3) by (apply Rmult_le_pos; [lra|apply pow_le; lra]).
  assert (0 < (3058673 / 508032 + 5429 / 504 * eta + 617 / 72 * eta ^ 2) * v ^ 4) by (apply Rmult_lt_0_compat; [assert (0 < eta ^ 2) by (apply pow_lt; assumption); lra|apply pow_lt; assumption]). lra.
Qed.
(** larger for larger spins, symmetric in the two bodies *)
Theorem chirp_time_spin f m1 m2 s1 s2 s1' s2' : 0 < f -> 0 < m1 -> 0 < m2 -> Rabs s1 <= Rabs s1' -> Rabs s2 <= Rabs s2' ->
  chirp_time_bound f m1 m2 s1 s2 <= chirp_time_bound f m1 m2 s1' s2' /\ chirp_time_bound f m1 m2 s1 s2 = chirp_time_bound f m2 m1 s2 s1.
Proof.
  intros Hf H1 H2 A B. rewrite !chirp_time_spec by assumption. cbv zeta. split.
  - apply Rmult_le_compat_l; [apply Rlt_le, (chirp_time_above_newtonian f m1 m2 s1 s2); assumption|]. set (v := Rpower _ (1 / 3)). assert (PV : 0 < v) by apply Rpower_pos.
    assert (Rmax (Rabs s1) (Rabs s2) <= Rmax (Rabs s1') (Rabs s2')) by (apply Rmax_case; [eapply Rle_trans; [exact A|apply Rmax_l]|eapply Rle_trans; [exact B|apply Rmax_r]]).
    assert (226 / 15 * Rmax (Rabs s1) (Rabs s2) * v ^ 3 <= 226 / 15 * Rmax (Rabs s1') (Rabs s2') * v ^ 3) by (apply Rmult_le_compat_r; [apply pow_le|]; lra). lra.
  - assert (EE : eta_of m2 m1 = eta_of m1 m2) by (unfold eta_of; rewrite (Rplus_comm m2 m1), (Rmult_comm m2 m1); reflexivity).
    unfold newtonian_time. rewrite EE, (Rplus_comm m2 m1), (Rmax_comm (Rabs s2)). reflexivity.
Qed.
(** the start frequency inverts the Newtonian time up to the two values of the solar mass in seconds *)
Definition solar : R := MTSUN_SI / MSUN / (Gn / Cl ^ 3).
Lemma solar_near : 999 / 1000 < solar < 1001 / 1000.
Proof.
  unfold solar, MTSUN_SI, MSUN, Gn, Cl. split; apply Rmult_lt_reg_r with (1988409902147041637325262574352366540 / 10 ^ 6 * (667430 / 10 ^ 16)); try lra;
  field_simplify; lra.
Qed.
Lemma eight : Rpower 256 (3 / 8) = 8.
Proof.
  assert (E : 256 = Rpower 2 (INR 8)) by (rewrite Rpower_pow by lra; lra). rewrite E, Rpower_mult.
  replace (INR 8 * (3 / 8)) with (INR 3) by (cbn [INR]; lra). rewrite Rpower_pow by lra. lra.
Qed.
Theorem start_frequency_spec t m1 m2 f : 0 < t -> 0 < m1 -> 0 < m2 -> 0 < f ->
  chirp_start_frequency_bound t m1 m2 = f * Rpower (solar * newtonian_time f m1 m2 / t) (3 / 8).
Proof.
  intros Ht H1 H2 Hf. unfold chirp_start_frequency_bound. cbv zeta. set (M := m1 + m2). assert (HM : 0 < M) by (unfold M; lra).
  replace (m1 * m2 / M / M) with (eta_of m1 m2) by (unfold eta_of, M; field; lra). set (eta := eta_of m1 m2). assert (Pe : 0 < eta) by (apply eta_pos; assumption).
  pose proof (secs_pos M HM) as PS. pose proof PI_RGT_0 as PP. pose proof solar_near as [SL _]. assert (Psol : 0 < solar) by lra. pose proof Cl_pos as HC. pose proof Gn_pos as HG.
  assert (EM : 5 * M * (MTSUN_SI / MSUN) / (eta * t) = solar * (5 * secs M / (256 * eta)) / t * 256).
  { unfold solar, secs. assert (MSUN <> 0) by (unfold MSUN; lra). field. repeat split; lra. }
  unfold t3_0pn. fold (secs M). rewrite EM. unfold newtonian_time. fold eta M. set (X := PI * secs M * f). assert (PX : 0 < X) by (apply Rmult_lt_0_compat; [apply Rmult_lt_0_compat; assumption|assumption]).
  set (K := solar * (5 * secs M / (256 * eta)) / t). assert (PK : 0 < K). { unfold K. apply Rdiv_lt_0_compat; [|assumption]. apply Rmult_lt_0_compat; [assumption|]. apply Rdiv_lt_0_compat; lra. }
  replace (solar * (5 * secs M / (256 * eta) * Rpower X (- (8 / 3))) / t) with (K * Rpower X (- (8 / 3))) by (unfold K; field; repeat split; lra).
  rewrite <- !Rpower_mult_distr by (try assumption; try apply Rpower_pos; lra). rewrite Rpower_mult. replace (- (8 / 3) * (3 / 8)) with (-(1)) by lra. rewrite (Rpower_Ropp X), Rpower_1 by assumption.
  rewrite eight. unfold X. field. repeat split; lra.
Qed.
(** documented: the waveform is generated from a frequency below the requested f_min *)
Theorem start_below_f_min f m1 m2 s1 s2 : 0 < f -> 0 < m1 -> 0 < m2 ->
  0 < chirp_start_frequency_bound ((1 + 1 / 10) * chirp_time_bound f m1 m2 s1 s2) m1 m2 < f.
Proof.
  intros Hf H1 H2. destruct (chirp_time_above_newtonian f m1 m2 s1 s2 Hf H1 H2) as [PN LN]. set (T := chirp_time_bound f m1 m2 s1 s2) in *.
  rewrite (start_frequency_spec ((1 + 1 / 10) * T) m1 m2 f) by (try assumption; lra). set (r := solar * newtonian_time f m1 m2 / ((1 + 1 / 10) * T)). pose proof solar_near as [SL SU].
  assert (Pr : 0 < r < 1).
  { unfold r. split; [apply Rdiv_lt_0_compat; nra|]. apply (Rmult_lt_reg_r ((1 + 1 / 10) * T)); [lra|]. replace (solar * newtonian_time f m1 m2 / ((1 + 1 / 10) * T) * ((1 + 1 / 10) * T)) with (solar * newtonian_time f m1 m2) by (field; lra). nra. }
  assert (L : Rpower r (3 / 8) < 1). { unfold Rpower. rewrite <- exp_0. apply exp_increasing. assert (ln r < 0) by (rewrite <- ln_1; apply ln_increasing; lra). lra. }
  pose proof (Rpower_pos r (3 / 8)). split; nra.
Qed.
(** ... and lowering f lowers it: the start frequency decreases with the chirp time *)
Theorem start_frequency_decreasing t t' m1 m2 : 0 < t < t' -> 0 < m1 -> 0 < m2 -> chirp_start_frequency_bound t' m1 m2 < chirp_start_frequency_bound t m1 m2.
Proof.
  intros Ht H1 H2. rewrite (start_frequency_spec t m1 m2 1), (start_frequency_spec t' m1 m2 1) by lra. rewrite !Rmult_1_l. pose proof solar_near as [SL _].
  assert (PN : 0 < newtonian_time 1 m1 m2) by (apply (chirp_time_above_newtonian 1 m1 m2 0 0); lra). set (K := solar * newtonian_time 1 m1 m2). assert (PK : 0 < K) by (apply Rmult_lt_0_compat; lra).
  unfold Rpower. apply exp_increasing. apply Rmult_lt_compat_l; [lra|]. apply ln_increasing; [apply Rdiv_lt_0_compat; lra|]. unfold Rdiv. apply Rmult_lt_compat_l; [assumption|]. apply Rinv_lt_contravar; nra.
Qed.
(** the bound on the final spin lies in [0.686/1.3, 0.998] for physical spins (both ends attained) and dominates both, up to 0.998; it is 0.686 without spins *)
Theorem final_spin_range s1 s2 : -1 <= s1 <= 1 -> -1 <= s2 <= 1 -> 686 / 1300 <= final_spin_bound s1 s2 <= 998 / 1000 /\
  Rmin (Rabs s1) (998 / 1000) <= final_spin_bound s1 s2 /\ Rmin (Rabs s2) (998 / 1000) <= final_spin_bound s1 s2.
Proof.
  intros A B. unfold final_spin_bound. set (x := Rmax (Rmax _ _) _).
  assert (X3 : 686 / 1000 + 15 / 100 * (s1 + s2) <= x) by (unfold x; eapply Rle_trans; [|apply Rmax_l]; apply Rmax_l).
  assert (X1 : Rabs s1 <= x) by (unfold x; eapply Rle_trans; [|apply Rmax_l]; apply Rmax_r). assert (X2 : Rabs s2 <= x) by apply Rmax_r.
  assert (X0 : 686 / 1300 <= x) by (pose proof (Rle_abs (- s1)); pose proof (Rle_abs (- s2)); rewrite Rabs_Ropp in *; lra).
  split; [split; [apply Rmin_glb; lra|apply Rmin_r]|]. split; apply Rmin_glb; try apply Rmin_r; eapply Rle_trans; try apply Rmin_l; assumption.
Qed.
Theorem final_spin_values : final_spin_bound (- (686 / 1300)) (- (686 / 1300)) = 686 / 1300 /\ final_spin_bound 0 0 = 686 / 1000 /\ final_spin_bound 1 0 = 998 / 1000 /\
  final_spin_bound (1 / 2) (1 / 2) = 836 / 1000.
Proof.
  unfold final_spin_bound. rewrite !Rabs_Ropp, !Rabs_R0. rewrite (Rabs_right (686 / 1300)), (Rabs_right 1), (Rabs_right (1 / 2)) by lra.
  split; [|split; [|split]].
  - rewrite (Rmax_left (686 / 1000 + _)), Rmax_left, Rmin_left by lra. lra.
  - rewrite (Rmax_left (686 / 1000 + _)), Rmax_left, Rmin_left by lra. lra.
  - rewrite (Rmax_right (686 / 1000 + _)), Rmax_left, Rmin_right by lra. lra.
  - rewrite (Rmax_left (686 / 1000 + _)), Rmax_left, Rmin_left by lra. lra.
Qed.
(** so that the ringdown time is always positive *)
Theorem ringdown_time_pos M s1 s2 : 0 < M -> -1 <= s1 <= 1 -> -1 <= s2 <= 1 -> 0 < ringdown_time_bound M (final_spin_bound s1 s2).
Proof.
  intros HM A B. destruct (final_spin_range s1 s2 A B) as [[L U] _]. set (s := final_spin_bound s1 s2) in *. unfold ringdown_time_bound. cbv zeta.
  assert (P1 : 0 < 1 - s < 1) by lra. assert (Q1 : Rpower (1 - s) (1292 / 10000) < 1). { unfold Rpower. set (y := 1 - s) in *. rewrite <- exp_0. apply exp_increasing. assert (ln y < 0) by (rewrite <- ln_1; apply ln_increasing; lra). lra. }
  pose proof (Rpower_pos (1 - s) (- (4990 / 10000))) as Q2. apply Rmult_lt_0_compat; [lra|]. apply Rdiv_lt_0_compat; [lra|]. apply Rdiv_lt_0_compat; [lra|].
  apply Rdiv_lt_0_compat; [apply Rmult_lt_0_compat; [assumption|unfold MTSUN_SI; lra]|unfold MSUN; lra].
Qed.
Theorem merge_time_linear m1 m2 k : 0 < m1 -> 0 < m2 -> 0 < merge_time_bound m1 m2 /\ merge_time_bound (k * m1) (k * m2) = k * merge_time_bound m1 m2.
Proof.
  intros H1 H2. unfold merge_time_bound. pose proof PI_RGT_0. split; [|unfold Rdiv; ring].
  rewrite Rmult_1_l. apply Rdiv_lt_0_compat; [|pose proof Cl_pos; lra]. apply Rmult_lt_0_compat; [lra|]. apply Rdiv_lt_0_compat; [|unfold MSUN; lra]. apply Rmult_lt_0_compat; [lra|unfold MRSUN; lra].
Qed.
Theorem isco_spec m1 m2 : 0 < m1 -> 0 < m2 -> frequency_isco m1 m2 = 1 / (27 * PI * ((m1 + m2) / MSUN * MTSUN_SI)).
Proof.
  intros H1 H2. unfold frequency_isco. assert (E : Rpower 9 (15 / 10) = 27).
  { replace 9 with (Rpower 3 2); [rewrite Rpower_mult; replace (2 * (15 / 10)) with (INR 3) by (cbn [INR]; lra); rewrite Rpower_pow by lra; lra|]. replace 2 with (INR 2) by (cbn [INR]; lra). rewrite Rpower_pow by lra. lra. }
  rewrite E. pose proof PI_RGT_0. f_equal. unfold Rdiv. ring.
Qed.
(** two 30 solar-mass black holes from 20 Hz *)
Example start_ex : 0 < chirp_start_frequency_bound ((1 + 1 / 10) * chirp_time_bound 20 (30 * MSUN) (30 * MSUN) (1 / 2) 0) (30 * MSUN) (30 * MSUN) < 20.
Proof. apply start_below_f_min; unfold MSUN; lra. Qed.
