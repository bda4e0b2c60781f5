(** Property C58, part 1: the conditioning parameters of one binary. *)
From Coq Require Import Reals Lra ZArith Lia.
From Coquelicot Require Import Coquelicot.
From Verif Require Import Base Tensor Rutil Dft Gw_model Gw_props Conv_model Conv_props Wave_model Wave_props Bounds_props Qt_model Qt_props Iir_model Gen_model.
Local Open Scope R_scope.

Definition good_row (r : row) : Prop := 0 < m_1 r /\ 0 < m_2 r /\ -1 <= s_1 r <= 1 /\ -1 <= s_2 r <= 1.
(** f_min is at most the Nyquist frequency *)
Definition good_gen (g : gen) : Prop := 2 <= g_sr g /\ 0 < g_fmin g <= g_sr g / 2 /\ 0 <= g_dur g.

(** ** rounding *)
Lemma rround_near x : IZR (rround x) - / 2 <= x <= IZR (rround x) + / 2.
Proof.
  unfold rround. cbv zeta. destruct (base_Int_part x) as [A B]. destruct (Rlt_dec _ _); [lra|]. rewrite plus_IZR || idtac.
  destruct (Rlt_dec _ _); [rewrite plus_IZR; lra|]. destruct (Z.even _); [lra|rewrite plus_IZR; lra].
Qed.
Lemma rround_lt x y : 1 < y - x -> (rround x < rround y)%Z.
Proof. intros H. pose proof (rround_near x). pose proof (rround_near y). apply lt_IZR. lra. Qed.
Lemma rround_mono x y : x <= y -> (rround x <= rround y)%Z.
Proof.
  intros H. destruct (Z_le_gt_dec (rround x) (rround y)) as [|G]; [assumption|exfalso].
  pose proof (rround_near x) as Nx. pose proof (rround_near y) as Ny. assert (K : IZR (rround y) + 1 <= IZR (rround x)) by (rewrite <- plus_IZR; apply IZR_le; lia).
  assert (x = y) by lra. subst. lia.
Qed.
Lemma MSUN_pos : 0 < MSUN. Proof. unfold MSUN. lra. Qed.
Lemma kg_pos m : 0 < m -> 0 < kg m.
Proof. intros. apply Rmult_lt_0_compat; [assumption|apply MSUN_pos]. Qed.
Lemma two_pow_log z : (0 < z)%Z -> exists p : nat, powerRZ 2 (rceil (ln (IZR z) / ln 2)) = INR (2 ^ p) /\ (z <= Z.of_nat (2 ^ p) < 2 * z)%Z.
Proof.
  intros Hz. set (y := ln (IZR z) / ln 2). assert (L2 : 0 < ln 2) by (rewrite <- ln_1; apply ln_increasing; lra).
  assert (Z1 : 1 <= IZR z) by (apply IZR_le; lia). assert (Y0 : 0 <= y).
  { unfold y. apply Rdiv_le_0_compat; [|exact L2]. rewrite <- ln_1. apply ln_le; lra. }
  destruct (rceil_spec y) as [A B]. assert (C0 : (0 <= rceil y)%Z). { apply le_IZR. lra. }
  exists (Z.to_nat (rceil y)). set (p := Z.to_nat (rceil y)). assert (E : rceil y = Z.of_nat p) by (unfold p; lia).
  rewrite E, <- pow_powerRZ. rewrite E in A, B. rewrite <- INR_IZR_INZ in A, B.
  assert (P2 : INR (2 ^ p) = Rpower 2 (INR p)). { rewrite Rpower_pow by lra. rewrite pow_INR. reflexivity. }
  assert (X : IZR z = Rpower 2 y). { unfold Rpower, y. replace (ln (IZR z) / ln 2 * ln 2) with (ln (IZR z)) by (field; lra). rewrite exp_ln; lra. }
  split; [rewrite pow_INR; reflexivity|]. split.
  - apply le_IZR. rewrite <- INR_IZR_INZ, P2, X. apply Rle_Rpower; lra.
  - apply lt_IZR. rewrite <- INR_IZR_INZ, mult_IZR, P2, X. replace (2 * Rpower 2 y) with (Rpower 2 (y + 1)) by (rewrite Rpower_plus, Rpower_1 by lra; ring). apply Rpower_lt; lra.
Qed.

Lemma PI_upper : PI < 335 / 100.
Proof. pose proof (PI_ineq 2) as [_ H]. cbn [Nat.mul Nat.add sum_f_R0] in H. unfold tg_alt, PI_tg in H. cbn [Nat.mul Nat.add pow INR] in H. lra. Qed.

(** ** one row *)
Section Row.
Variables (g : gen) (r : row).
Hypothesis Hr : good_row r.
Hypothesis Hf : 0 < g_fmin g.
Let M1 : 0 < kg (m_1 r). Proof. apply kg_pos, Hr. Qed.
Let M2 : 0 < kg (m_2 r). Proof. apply kg_pos, Hr. Qed.
Let M := kg (m_1 r) + kg (m_2 r).
Let MP : 0 < M. Proof. unfold M. lra. Qed.

Lemma isco_secs : row_isco r = 1 / (27 * PI * (secs M * solar)).
Proof.
  unfold row_isco. rewrite isco_spec by assumption. fold M. do 2 f_equal. unfold secs, solar. field. pose proof Gn_pos. pose proof Cl_pos. pose proof MSUN_pos. repeat split; lra.
Qed.
Lemma isco_pos : 0 < row_isco r.
Proof.
  rewrite isco_secs. pose proof (secs_pos M MP). pose proof solar_near as [S0 _]. pose proof PI_RGT_0. assert (0 < secs M * solar) by (apply Rmult_lt_0_compat; lra).
  apply Rdiv_lt_0_compat; [lra|]. apply Rmult_lt_0_compat; lra.
Qed.
Theorem fmin_range : 0 < row_fmin g r /\ row_fmin g r <= row_isco r /\ row_fmin g r <= g_fmin g.
Proof. unfold row_fmin. split; [apply Rmin_glb_lt; [apply isco_pos|exact Hf]|]. split; [apply Rmin_l|apply Rmin_r]. Qed.
(** conditioning starts below f_min *)
Theorem fstart_range : 0 < row_fstart g r < row_fmin g r.
Proof. unfold row_fstart, row_tchirp. apply start_below_f_min; [apply fmin_range|assumption|assumption]. Qed.

Let v := Rpower (PI * secs M * row_fmin g r) (1 / 3).
Let u := PI * secs M * row_fmin g r.
Let u_pos : 0 < u.
Proof. unfold u. pose proof PI_RGT_0. pose proof (secs_pos M MP). pose proof (proj1 fmin_range). apply Rmult_lt_0_compat; [apply Rmult_lt_0_compat|]; assumption. Qed.
Let v_pos : 0 < v. Proof. apply Rpower_pos. Qed.
Let v3 : v ^ 3 = u.
Proof. unfold v. fold u. rewrite <- Rpower_pow by apply Rpower_pos. rewrite Rpower_mult. replace (1 / 3 * INR 3) with 1 by (cbn [INR]; lra). apply Rpower_1, u_pos. Qed.
Let v_small : v < 3335 / 10000.
Proof.
  assert (U : u <= 1 / (27 * solar)).
  { unfold u. pose proof (secs_pos M MP) as SP. pose proof solar_near as [S0 _]. pose proof PI_RGT_0 as PP. destruct fmin_range as (_ & L & _). rewrite isco_secs in L.
    apply Rle_trans with (PI * secs M * (1 / (27 * PI * (secs M * solar)))); [apply Rmult_le_compat_l; [apply Rmult_le_pos; lra|exact L]|]. right. field. repeat split; lra. }
  destruct (Rlt_le_dec v (3335 / 10000)) as [|G]; [assumption|exfalso].
  assert (K : (3335 / 10000) ^ 3 <= v ^ 3) by (apply pow_incr; lra). rewrite v3 in K. pose proof solar_near as [S0 _].
  assert (1 / (27 * solar) < 1 / (27 * (999 / 1000))). { unfold Rdiv. rewrite !Rmult_1_l. apply Rinv_lt_contravar; nra. } lra.
Qed.
Let eta := eta_of (kg (m_1 r)) (kg (m_2 r)).
Let eta_range : 0 < eta <= 1 / 4.
Proof.
  unfold eta. split; [apply eta_pos; assumption|]. unfold eta_of. apply Rmult_le_reg_r with ((kg (m_1 r) + kg (m_2 r)) ^ 2); [apply pow_lt; lra|].
  unfold Rdiv at 1. rewrite Rmult_assoc, Rinv_l by (apply pow_nonzero; lra). clear. generalize (kg (m_1 r)) (kg (m_2 r)). intros a b. pose proof (pow2_ge_0 (a - b)). nra.
Qed.
Let P := row_tchirp g r / newtonian_time (row_fmin g r) (kg (m_1 r)) (kg (m_2 r)).
Let N0 := newtonian_time (row_fmin g r) (kg (m_1 r)) (kg (m_2 r)).
Let N0_pos : 0 < N0.
Proof. apply (chirp_time_above_newtonian _ _ _ (s_1 r) (s_2 r)); [apply fmin_range|assumption|assumption]. Qed.
Let P_low : 1 + 743 / 252 * v ^ 2 <= P.
Proof.
  unfold P, row_tchirp. rewrite chirp_time_spec by (try assumption; apply fmin_range). cbv zeta. fold M. fold v. fold eta. fold N0. set (chi := Rmax _ _).
  assert (PC : 0 <= chi) by (eapply Rle_trans; [apply (Rabs_pos (s_1 r))|apply Rmax_l]).
  replace (N0 * _ / N0) with (1 + (743 / 252 + 11 / 3 * eta) * v ^ 2 + 226 / 15 * chi * v ^ 3 + (3058673 / 508032 + 5429 / 504 * eta + 617 / 72 * eta ^ 2) * v ^ 4) by (field; lra).
  clearbody eta v chi. clear - v_pos PC eta_range. assert (0 < v ^ 2) by (apply pow_lt; exact v_pos). assert (0 < v ^ 3) by (apply pow_lt; exact v_pos). assert (0 < v ^ 4) by (apply pow_lt; exact v_pos).
  assert (0 <= 11 / 3 * eta * v ^ 2) by (repeat apply Rmult_le_pos; lra). assert (0 <= 226 / 15 * chi * v ^ 3) by (repeat apply Rmult_le_pos; lra).
  assert (0 <= 5429 / 504 * eta) by lra. assert (0 <= eta ^ 2) by (apply pow_le; lra).
  assert (0 <= (3058673 / 508032 + 5429 / 504 * eta + 617 / 72 * eta ^ 2) * v ^ 4) by (apply Rmult_le_pos; lra). lra.
Qed.
Let x := row_fstart g r / row_fmin g r.
Let x_eq : x = Rpower (solar / (11 / 10 * P)) (3 / 8).
Proof.
  unfold x. pose proof N0_pos as HN. pose proof P_low as HP. assert (0 < v ^ 2) by (apply pow_lt; exact v_pos). destruct fmin_range as (F0 & _).
  assert (TC : row_tchirp g r = N0 * P) by (unfold P; fold N0; field; lra). assert (0 < P) by lra.
  unfold row_fstart. rewrite TC. rewrite (start_frequency_spec _ _ _ (row_fmin g r)); try assumption; [|apply Rmult_lt_0_compat; [lra|apply Rmult_lt_0_compat; lra]]. fold N0.
  replace (solar * N0 / ((1 + 1 / 10) * (N0 * P))) with (solar / (11 / 10 * P)) by (field; lra). field. lra.
Qed.
Let x8 : x ^ 8 = (solar / (11 / 10 * P)) ^ 3.
Proof.
  pose proof P_low as HP. assert (0 < v ^ 2) by (apply pow_lt; exact v_pos). pose proof solar_near as [S0 _].
  assert (Y : 0 < solar / (11 / 10 * P)) by (apply Rdiv_lt_0_compat; lra). rewrite x_eq. rewrite <- !Rpower_pow by (try apply Rpower_pos; assumption). rewrite Rpower_mult. f_equal. cbn [INR]. lra.
Qed.
(** bound on the distance between fstart and f_min, relative to f_min *)
Let gap d Pm : 0 <= d < 1 -> 0 < Pm <= P -> (1001 / 1000 / (11 / 10 * Pm)) ^ 3 < (1 - d) ^ 8 -> x < 1 - d.
Proof.
  intros Hd HP H. destruct (Rlt_le_dec x (1 - d)) as [|G]; [assumption|exfalso]. assert (K : (1 - d) ^ 8 <= x ^ 8) by (apply pow_incr; lra). rewrite x8 in K.
  pose proof solar_near as [S0 S1]. assert (K2 : (solar / (11 / 10 * P)) ^ 3 <= (1001 / 1000 / (11 / 10 * Pm)) ^ 3); [|lra].
  apply pow_incr. split; [apply Rlt_le, Rdiv_lt_0_compat; lra|]. unfold Rdiv. apply Rmult_le_compat; [lra|apply Rlt_le, Rinv_0_lt_compat; lra|lra|]. apply Rinv_le_contravar; lra.
Qed.
(** the Newtonian time from fstart, in cycles of f_min *)
Let cycles : newtonian_time (row_fstart g r) (kg (m_1 r)) (kg (m_2 r)) * row_fmin g r = 11 / 10 * P / solar * (5 / (256 * PI * eta)) * / v ^ 5.
Proof.
  destruct fmin_range as (F0 & _). pose proof P_low as HP. assert (V2 : 0 < v ^ 2) by (apply pow_lt; exact v_pos). pose proof solar_near as [S0 _]. pose proof PI_RGT_0 as PP.
  assert (FS : row_fstart g r = x * row_fmin g r) by (unfold x; field; lra).
  assert (X0 : 0 < x) by (rewrite x_eq; apply Rpower_pos).
  unfold newtonian_time. fold M. fold eta. rewrite FS. replace (PI * secs M * (x * row_fmin g r)) with (u * x) by (unfold u; ring).
  rewrite <- (Rpower_mult_distr u x _ u_pos X0).
  assert (XP : Rpower x (- (8 / 3)) = 11 / 10 * P / solar).
  { rewrite x_eq, Rpower_mult. replace (3 / 8 * - (8 / 3)) with (- (1)) by lra. rewrite Rpower_Ropp, Rpower_1 by (apply Rdiv_lt_0_compat; lra). field. lra. }
  assert (UP : Rpower u (- (8 / 3)) = / v ^ 8). { unfold v. fold u. rewrite Rpower_third_8 by exact u_pos. reflexivity. }
  rewrite XP, UP. assert (FU : row_fmin g r = v ^ 3 / (PI * secs M)). { rewrite v3. unfold u. field. pose proof (secs_pos M MP). lra. }
  rewrite FU. field. pose proof (secs_pos M MP). pose proof eta_range. pose proof v_pos. repeat split; lra.
Qed.
Theorem row_time_long : 6 / row_fmin g r < row_time g r.
Proof.
  destruct fmin_range as (F0 & _). destruct fstart_range as (S0 & _). unfold row_time, row_textra, row_tmerge.
  destruct (chirp_time_above_newtonian _ _ _ (s_1 r) (s_2 r) S0 M1 M2). destruct Hr as (_ & _ & A & B). pose proof (ringdown_time_pos M _ _ MP A B). fold M.
  pose proof (proj1 (merge_time_linear _ _ 1 M1 M2)). unfold Rdiv in *. lra.
Qed.
Lemma key : 1 < (1 - x) * (row_time g r * row_fmin g r - 1 / 4).
Proof.
  destruct fmin_range as (F0 & _). destruct fstart_range as (S0 & _). pose proof P_low as HP. pose proof v_small as HV. pose proof v_pos as V0. pose proof solar_near as [_ S1]. pose proof solar_near as [S2 _]. pose proof eta_range as HE. pose proof PI_RGT_0 as PP. pose proof PI_4 as P4.
  assert (T : 6 + newtonian_time (row_fstart g r) (kg (m_1 r)) (kg (m_2 r)) * row_fmin g r < row_time g r * row_fmin g r).
  { unfold row_time, row_textra, row_tmerge. destruct (chirp_time_above_newtonian _ _ _ (s_1 r) (s_2 r) S0 M1 M2). destruct Hr as (_ & _ & A & B). pose proof (ringdown_time_pos M _ _ MP A B). fold M.
    pose proof (proj1 (merge_time_linear _ _ 1 M1 M2)). replace 6 with (2 * (3 / row_fmin g r) * row_fmin g r) at 1 by (field; lra). rewrite <- Rmult_plus_distr_r. apply Rmult_lt_compat_r; lra. }
  rewrite cycles in T. set (T0 := row_time g r * row_fmin g r) in *. clearbody T0.
  assert (PI5 : PI < 335 / 100) by apply PI_upper.
  clearbody x P v eta. clear - T HP HV V0 S1 S2 HE PP PI5 gap. revert gap T S1 S2 PP PI5. generalize solar PI. intros sol p gap T S1 S2 PP PI5.
  assert (E : 5 / (256 * (335 / 100) * (1 / 4)) <= 5 / (256 * p * eta)).
  { unfold Rdiv at 1 4. apply Rmult_le_compat_l; [lra|]. apply Rinv_le_contravar; [apply Rmult_lt_0_compat; lra|]. apply Rmult_le_compat; lra. }
  assert (Low : forall Pm V5, 0 < Pm <= P -> 0 < V5 <= / v ^ 5 -> 11 / 10 * Pm / (1001 / 1000) * (5 / (256 * (335 / 100) * (1 / 4))) * V5 <= 11 / 10 * P / sol * (5 / (256 * p * eta)) * / v ^ 5).
  { intros Pm V5 HPm HV5. assert (0 < 5 / (256 * (335 / 100) * (1 / 4))) by lra. assert (0 <= 11 / 10 * Pm / (1001 / 1000)) by (apply Rdiv_le_0_compat; lra). assert (0 <= 11 / 10 * Pm / (1001 / 1000) * (5 / (256 * (335 / 100) * (1 / 4)))) by (apply Rmult_le_pos; lra). apply Rmult_le_compat; [lra|lra| |lra]. apply Rmult_le_compat; [lra|lra| |exact E]. unfold Rdiv. apply Rmult_le_compat; [lra|lra|lra|]. apply Rinv_le_contravar; lra. }
  assert (V2 : 0 < v ^ 2) by (apply pow_lt; exact V0). destruct (Rle_lt_dec v (1 / 4)) as [C1|C1].
  - assert (W : 1024 <= / v ^ 5). { replace 1024 with (/ (1 / 4) ^ 5) by field. apply Rinv_le_contravar; [apply pow_lt; exact V0|apply pow_incr; lra]. }
    specialize (Low 1 1024 ltac:(lra) ltac:(lra)). assert (X : x < 1 - 34 / 1000) by (apply (gap _ 1); lra). nra.
  - assert (W : 240 <= / v ^ 5). { apply Rle_trans with (/ (3335 / 10000) ^ 5); [|apply Rinv_le_contravar; [apply pow_lt; exact V0|apply pow_incr; lra]]. rewrite <- (Rinv_involutive 240) by lra. apply Rinv_le_contravar; lra. }
    assert (W2 : 1 / 16 <= v ^ 2) by nra. assert (1184 / 1000 <= P) by lra.
    specialize (Low (1184 / 1000) 240 ltac:(lra) ltac:(lra)). assert (X : x < 1 - 8 / 100) by (apply (gap _ (1184 / 1000)); lra). nra.
Qed.
(** with the resolution the generator chooses (at least the length of the signal, rounded to a sample), the taper has a positive width: no 0/0 *)
Theorem taper_gap df : 2 <= g_sr g -> g_fmin g <= g_sr g / 2 -> 0 < df -> row_time g r - / (2 * g_sr g) <= / df ->
  (rround (row_fstart g r / df) < rround (row_fmin g r / df))%Z.
Proof.
  intros Hs Hn Hd HT. apply rround_lt. pose proof key as K. destruct fmin_range as (F0 & _ & F2). destruct fstart_range as (S0 & S1).
  apply Rlt_le_trans with ((row_fmin g r - row_fstart g r) * / df); [|right; field; lra]. eapply Rlt_le_trans; [exact K|].
  apply Rle_trans with ((row_fmin g r - row_fstart g r) * (row_time g r - / (2 * g_sr g))); [|apply Rmult_le_compat_l; lra].
  replace (1 - x) with ((row_fmin g r - row_fstart g r) * / row_fmin g r) by (unfold x; field; lra). rewrite Rmult_assoc. apply Rmult_le_compat_l; [lra|].
  apply Rmult_le_reg_l with (row_fmin g r); [exact F0|]. rewrite <- Rmult_assoc, Rinv_r, Rmult_1_l by lra.
  assert (row_fmin g r * / (2 * g_sr g) <= 1 / 4); [|lra]. apply Rmult_le_reg_r with (2 * g_sr g); [lra|]. rewrite Rmult_assoc, Rinv_l by lra. lra.
Qed.
Theorem chirplen_spec : 2 <= g_sr g -> g_fmin g <= g_sr g / 2 -> exists p : nat, row_chirplen g r = INR (2 ^ p) /\
  (rround (row_time g r * g_sr g) <= Z.of_nat (2 ^ p) < 2 * rround (row_time g r * g_sr g))%Z /\ row_time g r * g_sr g - / 2 <= INR (2 ^ p).
Proof.
  intros Hs Hn. unfold row_chirplen. pose proof row_time_long as T. destruct fmin_range as (F0 & _ & F2).
  assert (12 < row_time g r * g_sr g). { apply Rle_lt_trans with (6 / row_fmin g r * g_sr g); [|apply Rmult_lt_compat_r; lra]. apply Rmult_le_reg_r with (row_fmin g r); [exact F0|]. replace (6 / row_fmin g r * g_sr g * row_fmin g r) with (6 * g_sr g) by (field; lra). nra. }
  pose proof (rround_near (row_time g r * g_sr g)) as Hr0. destruct (two_pow_log (rround (row_time g r * g_sr g))) as (p & E & L); [apply lt_IZR; lra|]. exists p. split; [exact E|]. split; [exact L|].
  apply Rle_trans with (IZR (rround (row_time g r * g_sr g))); [lra|]. rewrite INR_IZR_INZ. apply IZR_le. lia.
Qed.
End Row.
