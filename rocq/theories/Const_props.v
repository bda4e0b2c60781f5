(** C111: the physical constants agree with each other, and the duration and frequency bounds scale with the mass. *)
From Coq Require Import Reals Lra.
From Verif Require Import Base Tensor Gw_model Conv_model Conv_props Wave_model Wave_props Bounds_props.
Local Open Scope R_scope.

(** ** the constants *)
(** one solar mass in seconds and in metres differ by the speed of light, to 36 digits *)
Theorem solar_length_time : Rabs (MRSUN - Cl * MTSUN_SI) <= MRSUN / 10 ^ 36.
Proof. unfold MRSUN, Cl, MTSUN_SI. apply Rabs_le. lra. Qed.
(** the solar mass in kg, times G, is the heliocentric gravitational constant 1.32712442099e20 m^3/s^2 (TCB), the solar mass in seconds is the nominal
    1.3271244e20 m^3/s^2 over c^3: they are not the same, the ratio is 1 + 1.5816e-8 *)
Theorem solar_kg_seconds : Rabs (Gn * MSUN - 132712442099 * 10 ^ 9) <= 1 / 10 /\ Rabs (MTSUN_SI * Cl ^ 3 - 13271244 * 10 ^ 13) <= 1 / 10 /\
  1581615 / 10 ^ 14 < Gn * MSUN / (MTSUN_SI * Cl ^ 3) - 1 < 1581616 / 10 ^ 14.
Proof.
  unfold Gn, MSUN, MTSUN_SI, Cl. split; [apply Rabs_le; lra|]. split; [apply Rabs_le; lra|].
  set (a := 667430 / 10 ^ 16 * (1988409902147041637325262574352366540 / 10 ^ 6)). set (b := 4925490947641266978197229498498379006 / 10 ^ 42 * 299792458 ^ 3).
  assert (Pb : 0 < b) by (unfold b; lra). assert (E : a = (a / b) * b) by (field; lra). assert (L : (1 + 1581615 / 10 ^ 14) * b < a) by (unfold a, b; lra). assert (U : a < (1 + 1581616 / 10 ^ 14) * b) by (unfold a, b; lra).
  rewrite E in L at 1. rewrite E in U at 1. apply Rmult_lt_reg_r in L; [|exact Pb]. apply Rmult_lt_reg_r in U; [|exact Pb]. lra.
Qed.
(** a megaparsec in metres: 3.0856775814913673e22, and in light-seconds *)
Theorem megaparsec : Rabs (m_per_Mpc - 30856775814913673 * 10 ^ 6) <= 10 ^ 6 /\ MPC_SEC * Cl = m_per_Mpc.
Proof. split; [unfold m_per_Mpc; apply Rabs_le; lra|]. unfold MPC_SEC. field. apply Rgt_not_eq, Cl_pos. Qed.
(** consequence: the same mass in the two unit systems of the package, kilograms with G and c, and solar masses in seconds *)
Theorem mass_in_seconds m : 0 < m -> m * MTSUN_SI < secs (m * MSUN) < m * MTSUN_SI * (1 + 16 / 10 ^ 9).
Proof.
  intros Hm. destruct solar_kg_seconds as (_ & _ & L & U). assert (PT : 0 < MTSUN_SI) by (unfold MTSUN_SI; lra). assert (PC := pow_lt Cl 3 Cl_pos).
  assert (E : secs (m * MSUN) = m * MTSUN_SI * (Gn * MSUN / (MTSUN_SI * Cl ^ 3))) by (unfold secs; field; split; apply Rgt_not_eq; [exact Cl_pos|exact PT]).
  rewrite E. set (q := Gn * MSUN / (MTSUN_SI * Cl ^ 3)) in *. assert (PM : 0 < m * MTSUN_SI) by (apply Rmult_lt_0_compat; assumption). set (w := m * MTSUN_SI) in *. clearbody q w. clear - L U PM. split; nra.
Qed.

(** ** scaling: k times the masses, frequencies divided by k, gives k times the durations *)
Lemma eta_scale k m1 m2 : 0 < k -> 0 < m1 -> 0 < m2 -> eta_of (k * m1) (k * m2) = eta_of m1 m2.
Proof. intros. unfold eta_of. field. split; nra. Qed.
Lemma secs_scale k m : secs (k * m) = k * secs m. Proof. unfold secs, Rdiv. ring. Qed.
Theorem chirp_time_scaling k f m1 m2 s1 s2 : 0 < k -> 0 < f -> 0 < m1 -> 0 < m2 -> chirp_time_bound (f / k) (k * m1) (k * m2) s1 s2 = k * chirp_time_bound f m1 m2 s1 s2.
Proof.
  intros Hk Hf H1 H2. assert (0 < f / k) by (apply Rdiv_lt_0_compat; assumption). assert (0 < k * m1) by (apply Rmult_lt_0_compat; assumption). assert (0 < k * m2) by (apply Rmult_lt_0_compat; assumption).
  rewrite (chirp_time_spec (f / k)), (chirp_time_spec f) by assumption. cbv zeta. unfold newtonian_time. rewrite eta_scale by assumption. rewrite <- Rmult_plus_distr_l, secs_scale.
  replace (PI * (k * secs (m1 + m2)) * (f / k)) with (PI * secs (m1 + m2) * f) by (field; lra). unfold Rdiv. ring.
Qed.
Theorem start_frequency_scaling k t m1 m2 : 0 < k -> 0 < t -> 0 < m1 -> 0 < m2 -> chirp_start_frequency_bound (k * t) (k * m1) (k * m2) = chirp_start_frequency_bound t m1 m2 / k.
Proof.
  intros Hk Ht H1 H2. assert (0 < k * t) by (apply Rmult_lt_0_compat; assumption). assert (0 < k * m1) by (apply Rmult_lt_0_compat; assumption). assert (0 < k * m2) by (apply Rmult_lt_0_compat; assumption).
  assert (0 < / k) by (apply Rinv_0_lt_compat, Hk). rewrite (start_frequency_spec (k * t) _ _ (/ k)), (start_frequency_spec t _ _ 1) by (assumption || lra).
  unfold newtonian_time. rewrite eta_scale by assumption. rewrite <- Rmult_plus_distr_l, secs_scale. set (e := eta_of m1 m2). assert (PE : 0 < e) by (apply eta_pos; assumption).
  replace (PI * (k * secs (m1 + m2)) * / k) with (PI * secs (m1 + m2) * 1) by (field; lra). set (X := Rpower (PI * secs (m1 + m2) * 1) (- (8 / 3))).
  replace (solar * (5 * (k * secs (m1 + m2)) / (256 * e) * X) / (k * t)) with (solar * (5 * secs (m1 + m2) / (256 * e) * X) / t) by (field; repeat split; lra). unfold Rdiv. ring.
Qed.
(** one orbit at r = 9 GM/c^2 and speed c/3: 54 pi in units of the mass *)
Theorem merge_time_spec m1 m2 : 0 < m1 -> 0 < m2 -> let T := 54 * PI * ((m1 + m2) * MTSUN_SI) in Rabs (merge_time_bound (m1 * MSUN) (m2 * MSUN) - T) <= T / 10 ^ 35.
Proof.
  intros H1 H2 T. assert (PM : MSUN <> 0) by (unfold MSUN; lra). assert (PC := Cl_pos). assert (PP := PI_RGT_0).
  assert (E : merge_time_bound (m1 * MSUN) (m2 * MSUN) - T = 54 * PI * (m1 + m2) / Cl * (MRSUN - Cl * MTSUN_SI)) by (unfold merge_time_bound, T; field; split; [lra|exact PM]).
  rewrite E, Rabs_mult. assert (PK : 0 < 54 * PI * (m1 + m2) / Cl) by (apply Rdiv_lt_0_compat; [apply Rmult_lt_0_compat; lra|exact PC]). rewrite (Rabs_right _ (Rle_ge _ _ (Rlt_le _ _ PK))).
  replace (T / 10 ^ 35) with (54 * PI * (m1 + m2) / Cl * (Cl * MTSUN_SI / 10 ^ 35)) by (unfold T; field; lra). apply Rmult_le_compat_l; [lra|].
  eapply Rle_trans; [apply solar_length_time|]. unfold MRSUN, Cl, MTSUN_SI. lra.
Qed.
(** eleven damping times of the l = m = 2 mode with the fits for its frequency and quality factor, in units of the mass; proportional to it *)
Theorem ringdown_time_spec m s : 0 < m -> s < 1 ->
  ringdown_time_bound (m * MSUN) s = 22 * (m * MTSUN_SI) * (7 / 10 + 14187 / 10000 * / Rpower (1 - s) (499 / 1000)) / (15251 / 10000 - 11568 / 10000 * Rpower (1 - s) (1292 / 10000)).
Proof.
  intros Hm Hs. unfold ringdown_time_bound. cbv zeta. rewrite <- Rpower_Ropp. replace (- (499 / 1000)) with (- (4990 / 10000)) by lra. assert (PM : MSUN <> 0) by (unfold MSUN; lra). assert (PT : MTSUN_SI <> 0) by (unfold MTSUN_SI; lra).
  set (a := Rpower (1 - s) (- (4990 / 10000))). set (w := 15251 / 10000 - 11568 / 10000 * Rpower (1 - s) (1292 / 10000)). replace (15251 / 10000 + - (11568 / 10000) * Rpower (1 - s) (1292 / 10000)) with w by (unfold w; ring).
  replace (m * MSUN * MTSUN_SI / MSUN) with (m * MTSUN_SI) by (field; exact PM). replace (7000 / 10000) with (7 / 10) by lra. unfold Rdiv. rewrite (Rinv_mult w), Rinv_inv. ring.
Qed.
Theorem isco_scaling k m1 m2 : 0 < k -> 0 < m1 -> 0 < m2 -> frequency_isco (k * m1) (k * m2) = frequency_isco m1 m2 / k.
Proof.
  intros Hk H1 H2. rewrite !isco_spec by (try assumption; apply Rmult_lt_0_compat; assumption). assert (MSUN <> 0) by (unfold MSUN; lra). assert (MTSUN_SI <> 0) by (unfold MTSUN_SI; lra). pose proof PI_RGT_0. field. repeat split; try assumption; try lra. nra.
Qed.

(** ** cases *)
Example mass_ex : 60 * MTSUN_SI < secs (60 * MSUN) < 60 * MTSUN_SI * (1 + 16 / 10 ^ 9). Proof. apply mass_in_seconds. lra. Qed.
Example scale_ex : chirp_time_bound (40 / 2) (2 * (30 * MSUN)) (2 * (20 * MSUN)) (1 / 2) 0 = 2 * chirp_time_bound 40 (30 * MSUN) (20 * MSUN) (1 / 2) 0.
Proof. apply chirp_time_scaling; unfold MSUN; lra. Qed.
