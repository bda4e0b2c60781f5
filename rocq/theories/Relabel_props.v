(** C78: exchanging the labels of the two bodies (mass_ratio -> 1/mass_ratio, spins exchanged). *)
From Coq Require Import Reals Lra Lia.
From Coquelicot Require Import Coquelicot.
From Verif Require Import Base Conv_model Conv_props Tf2_model Tf2_props Phd_fits Phd_data Phd_model Phd_main.
Local Open Scope R_scope.

Theorem components_relabel mc q : 0 < mc -> 0 < q -> components mc (/ q) = (snd (components mc q), fst (components mc q)).
Proof.
  intros Hm Hq. pose proof (components_spec mc q Hm Hq) as K. destruct (components mc q) as [m1 m2]. destruct K as [P1 [P2 [Eq [CM _]]]]. cbn [fst snd].
  rewrite <- (components_unique m2 m1 P2 P1). f_equal.
  - rewrite <- CM. unfold chirp_mass. rewrite (Rmult_comm m2 m1), (Rplus_comm m2 m1). reflexivity.
  - rewrite <- Eq. field. lra.
Qed.

Lemma tf2_htilde_relabel f m1 m2 chi1 chi2 dist phic f_ref : 0 < m1 -> 0 < m2 -> tf2_htilde f m2 m1 chi2 chi1 dist phic f_ref = tf2_htilde f m1 m2 chi1 chi2 dist phic f_ref.
Proof.
  intros H1 H2. unfold tf2_htilde. cbv zeta. rewrite (tf2_exchange m2 m1 chi2 chi1) by assumption.
  assert (E1 : m2 * MTSUN_SI + m1 * MTSUN_SI = m1 * MTSUN_SI + m2 * MTSUN_SI) by ring. rewrite E1.
  assert (E2 : m2 * MTSUN_SI * (m1 * MTSUN_SI) = m1 * MTSUN_SI * (m2 * MTSUN_SI)) by ring. rewrite E2.
  assert (E3 : forall x e, tf2_amplitude x m2 m1 e dist = tf2_amplitude x m1 m2 e dist).
  { intros x e. unfold tf2_amplitude. cbv zeta. f_equal. unfold Rdiv. f_equal. f_equal. ring. }
  rewrite E3. reflexivity.
Qed.

(** ** TaylorF2: relabelling the bodies changes nothing, at any mass ratio *)
Theorem tf2_relabel f mc q chi1 chi2 dist phic incl f_ref : 0 < mc -> 0 < q -> tf2_one f mc (/ q) chi2 chi1 dist phic incl f_ref = tf2_one f mc q chi1 chi2 dist phic incl f_ref.
Proof.
  intros Hm Hq. unfold tf2_one. rewrite components_relabel by assumption. pose proof (components_spec mc q Hm Hq) as K. destruct (components mc q) as [m1 m2]. destruct K as [P1 [P2 _]]. cbn [fst snd].
  rewrite (tf2_htilde_relabel f m1 m2) by assumption. reflexivity.
Qed.
Theorem tf2_relabel_batch f mc q chi1 chi2 dist phic incl f_ref : (forall i, (i < List.length mc)%nat -> 0 < nth i mc 0 /\ 0 < nth i q 0) ->
  tf2_forward f mc (map Rinv q) chi2 chi1 dist phic incl f_ref = tf2_forward f mc q chi1 chi2 dist phic incl f_ref.
Proof.
  intros H. unfold tf2_forward. cbn [forallb]. rewrite map_length.
  set (n := List.length mc) in *. destruct (List.length q =? n)%nat eqn:EQ; [|reflexivity]. apply Nat.eqb_eq in EQ.
  destruct (List.length chi1 =? n)%nat eqn:E1; destruct (List.length chi2 =? n)%nat eqn:E2; cbn [andb]; try reflexivity.
  match goal with |- (if ?c then _ else _) = _ => destruct c end; [|reflexivity]. f_equal. apply map_ext_in. intros i Hi. apply in_seq in Hi. destruct (H i ltac:(lia)) as [A B]. apply map_ext. intros fj.
  replace (nth i (map Rinv q) 0) with (/ nth i q 0).
  - apply tf2_relabel; assumption.
  - symmetry. rewrite (nth_indep _ 0 (/ 0)) by (rewrite map_length; lia). apply map_nth.
Qed.

(** ** IMRPhenomD *)
Lemma pd_total_relabel mc q : 0 < mc -> 0 < q -> pd_total mc (/ q) = pd_total mc q.
Proof.
  intros Hm Hq. assert (Hi : 0 < / q) by (apply Rinv_0_lt_compat; exact Hq).
  destruct (pd_masses mc q 0 0 Hm Hq) as (A & _ & B). destruct (pd_masses mc (/ q) 0 0 Hm Hi) as (A' & _ & B'). rewrite <- B, <- B'.
  rewrite components_relabel, <- A in A' by assumption. pose proof (f_equal fst A') as E1. pose proof (f_equal snd A') as E2. cbn [fst snd] in E1, E2. rewrite E1, E2. apply Rplus_comm.
Qed.
Lemma pd_eta_relabel mc q : 0 < mc -> 0 < q -> pd_eta mc (/ q) = pd_eta mc q.
Proof. intros Hm Hq. unfold pd_eta. rewrite pd_total_relabel by assumption. reflexivity. Qed.
Lemma pd_masses_relabel mc q a1 a2 b1 b2 : 0 < mc -> 0 < q -> d_m1 (pd_params mc (/ q) a1 a2) = d_m2 (pd_params mc q b1 b2) /\ d_m2 (pd_params mc (/ q) a1 a2) = d_m1 (pd_params mc q b1 b2).
Proof.
  intros Hm Hq. assert (Hi : 0 < / q) by (apply Rinv_0_lt_compat; exact Hq).
  destruct (pd_masses mc q b1 b2 Hm Hq) as (A & _). destruct (pd_masses mc (/ q) a1 a2 Hm Hi) as (A' & _). rewrite components_relabel, <- A in A' by assumption. pose proof (f_equal fst A') as E1. pose proof (f_equal snd A') as E2. cbn [fst snd] in E1, E2. split; assumption.
Qed.
(** equal spins: nothing changes *)
Theorem pd_relabel_equal_spins f mc q chi dist phic incl f_ref : 0 < mc -> 0 < q -> pd_one f mc (/ q) chi chi dist phic incl f_ref = pd_one f mc q chi chi dist phic incl f_ref.
Proof.
  intros Hm Hq. set (a := pd_params mc (/ q) chi chi). set (b := pd_params mc q chi chi). pose proof (pd_masses_relabel mc q chi chi chi chi Hm Hq) as [M1 M2]. fold a b in M1, M2.
  assert (MP : 0 < d_m1 b /\ 0 < d_m2 b) by (destruct (pd_masses mc q chi chi Hm Hq) as (A & _); fold b in A; pose proof (components_spec mc q Hm Hq) as K; rewrite <- A in K; tauto).
  assert (GE : d_eta a = d_eta b /\ d_Seta a = d_Seta b /\ d_xi a = d_xi b /\ d_fRD a = d_fRD b /\ d_fDM a = d_fDM b /\ d_chi1 a = d_chi1 b /\ d_chi2 a = d_chi2 b /\ d_chi12 a = d_chi12 b /\ d_chi22 a = d_chi22 b /\ d_chi1 b = d_chi2 b).
  { unfold a, b, pd_params. rewrite (pd_eta_relabel mc q) by assumption. destruct (fring_fdamp _ chi chi). repeat split; reflexivity. }
  destruct GE as (G1 & G2 & G3 & G4 & G5 & G6 & G7 & G8 & G9 & G10).
  destruct (pd_depends a b) as (D1 & D2 & D3 & D4); [exact G1|exact G3|exact G4|exact G5| | |].
  - intros x. unfold ins_phase, sub3PNSS. cbv zeta. rewrite G1, G3, G6, G7, M1, M2, G10. rewrite (tf2_exchange (d_m2 b) (d_m1 b)) by tauto. rewrite (Rplus_comm (d_m2 b) (d_m1 b)).
    set (y1 := d_m1 b / _). set (y2 := d_m2 b / _). replace (pn_ss3 (d_eta b) y2 y1 (d_chi2 b) (d_chi2 b)) with (pn_ss3 (d_eta b) y1 y2 (d_chi2 b) (d_chi2 b)) by (unfold pn_ss3; cbv zeta; ring). reflexivity.
  - intros x. unfold ins_amp. cbv zeta. rewrite G1, G2, G3, G6, G7, G8, G9. reflexivity.
  - unfold pd_one, pd_htilde. cbv zeta. fold a b. unfold pd_Psi. rewrite !D1, D2, D3, D4, M1, M2, G1, (pd_total_relabel mc q) by assumption.
    assert (E3 : forall x e, tf2_amplitude x (d_m2 b) (d_m1 b) e dist = tf2_amplitude x (d_m1 b) (d_m2 b) e dist).
    { intros x e. unfold tf2_amplitude. cbv zeta. f_equal. unfold Rdiv. f_equal. f_equal. ring. }
    rewrite E3. reflexivity.
Qed.
(** unequal masses and unequal spins: the amplitude changes at every low enough frequency *)
Lemma amp_small2 P : amp_join < pd_peak P -> exists K, 0 < K /\ forall y t, 0 < y <= amp_join -> t = Rpower y (1 / 3) ->
  Rabs (fst (pd_amp P y) - (1 + t ^ 2 * (((- 969) + 1804 * d_eta P) * (Rpower PI (2 / 3)) / 672) + t ^ 3 * ((d_chi1 P * (81 * (1 + d_Seta P) - 44 * d_eta P) + d_chi2 P * (81 - 81 * d_Seta P - 44 * d_eta P)) * PI / 48))) <= K * t ^ 4.
Proof.
  intros HK.
  set (pre := fun F : R -> R -> R -> R -> R -> R -> R -> R -> R => F (d_eta P) (d_eta P * d_eta P) (d_Seta P) (d_xi P) (d_chi1 P) (d_chi2 P) (d_chi12 P) (d_chi22 P)).
  set (K := Rabs (pre prefactors_four_thirds) + Rabs (pre prefactors_five_thirds) + Rabs (pre prefactors_seven_thirds) + Rabs (pre prefactors_eight_thirds) + Rabs (pre prefactors_two) + Rabs (pre prefactors_three)).
  exists (K + 1). pose proof (Rabs_pos (pre prefactors_four_thirds)). pose proof (Rabs_pos (pre prefactors_five_thirds)). pose proof (Rabs_pos (pre prefactors_seven_thirds)). pose proof (Rabs_pos (pre prefactors_eight_thirds)). pose proof (Rabs_pos (pre prefactors_two)). pose proof (Rabs_pos (pre prefactors_three)).
  split; [unfold K; lra|]. intros y t Hy Et. unfold amp_join in *.
  assert (EP : fst (pd_amp P y) = fst (ins_amp P y)).
  { unfold pd_amp. cbn [fst]. assert (L : le_ y amp_join = true) by (unfold le_, amp_join; destruct (Rle_dec y (14 / 1000)); [reflexivity|lra]). assert (G : gt_ y amp_join = false) by (unfold gt_, amp_join; destruct (Rlt_dec (14 / 1000) y); [lra|reflexivity]).
    assert (G2 : gt_ y (pd_peak P) = false) by (unfold gt_; destruct (Rlt_dec (pd_peak P) y); [lra|reflexivity]). rewrite L, G, G2. unfold theta. ring. }
  rewrite EP. unfold ins_amp. cbv zeta. cbn [fst]. repeat match goal with |- context [?F (d_eta P) (d_eta P * d_eta P) (d_Seta P) (d_xi P) (d_chi1 P) (d_chi2 P) (d_chi12 P) (d_chi22 P)] => change (F (d_eta P) (d_eta P * d_eta P) (d_Seta P) (d_xi P) (d_chi1 P) (d_chi2 P) (d_chi12 P) (d_chi22 P)) with (pre F) end.
  change (((- 969) + 1804 * d_eta P) * (Rpower PI (2 / 3)) / 672) with (pre prefactors_two_thirds).
  change ((d_chi1 P * (81 * (1 + d_Seta P) - 44 * d_eta P) + d_chi2 P * (81 - 81 * d_Seta P - 44 * d_eta P)) * PI / 48) with (pre prefactors_one).
  rewrite <- Et. assert (T0 : 0 < t) by (rewrite Et; apply Rpower_pos). assert (T3 : t * t * t = y) by (rewrite Et, <- !Rpower_plus; replace (1 / 3 + 1 / 3 + 1 / 3) with 1 by field; apply Rpower_1; lra).
  assert (T1 : t <= 1). { destruct (Rle_dec t 1); [assumption|]. exfalso. assert (1 < t) by lra. assert (1 < t * t) by nra. nra. }
  clear Et. rewrite <- T3. set (a2 := pre prefactors_two_thirds) in *. set (a4 := pre prefactors_four_thirds) in *. set (a5 := pre prefactors_five_thirds) in *. set (a7 := pre prefactors_seven_thirds) in *. set (a8 := pre prefactors_eight_thirds) in *. set (b1 := pre prefactors_one) in *. set (b2 := pre prefactors_two) in *. set (b3 := pre prefactors_three) in *.
  clearbody a2 a4 a5 a7 a8 b1 b2 b3. match goal with |- Rabs ?e <= _ => replace e with (t ^ 4 * (a4 + t ^ 1 * a5 + t ^ 3 * a7 + t ^ 4 * a8 + t ^ 2 * b2 + t ^ 5 * b3)) by ring end.
  assert (T4 : 0 < t ^ 4) by (apply pow_lt; exact T0). rewrite Rabs_mult, (Rabs_right (t ^ 4)), (Rmult_comm (K + 1)) by lra. apply Rmult_le_compat_l; [lra|].
  assert (TP : forall n c, Rabs (t ^ n * c) <= Rabs c). { intros n c. rewrite Rabs_mult. assert (0 <= t ^ n <= 1). { split; [apply pow_le; lra|]. rewrite <- (pow1 n). apply pow_incr. lra. } rewrite (Rabs_right (t ^ n)) by lra. pose proof (Rabs_pos c). nra. }
  pose proof (TP 1%nat a5) as Q5. pose proof (TP 3%nat a7) as Q7. pose proof (TP 4%nat a8) as Q8. pose proof (TP 2%nat b2) as R2. pose proof (TP 5%nat b3) as R3.
  assert (TRI : forall u v U W, Rabs u <= U -> Rabs v <= W -> Rabs (u + v) <= U + W) by (intros u v U W A B; eapply Rle_trans; [apply Rabs_triang|lra]).
  apply Rle_trans with K; [|lra]. unfold K. exact (TRI _ _ _ _ (TRI _ _ _ _ (TRI _ _ _ _ (TRI _ _ _ _ (TRI _ _ _ _ (Rle_refl (Rabs a4)) Q5) Q7) Q8) R2) R3).
Qed.
Lemma pd_Cmod mc q chi1 chi2 f dist phic f_ref : 0 < mc -> 0 < q -> -1 <= chi1 <= 1 -> -1 <= chi2 <= 1 -> 0 < f -> 0 < dist ->
  Cmod (pd_htilde f mc q chi1 chi2 dist phic f_ref) = spa_amplitude f mc dist * Rabs (fst (pd_amp (pd_params mc q chi1 chi2) (pd_total mc q * MTSUN_SI * f))) /\ 0 < spa_amplitude f mc dist.
Proof.
  intros Hm Hq H1 H2 Hf Hd. rewrite (pd_htilde_spec mc q chi1 chi2 Hm Hq H1 H2 f dist phic f_ref Hf Hd). cbv zeta. set (m := fst (pd_amp _ _)). set (th := 2 * phic - _). 
  assert (SP : 0 < spa_amplitude f mc dist) by (apply spa_pos; exact Hd). set (A := spa_amplitude f mc dist) in *. clearbody A m th. split; [|exact SP].
  replace (A * m * cos th, A * m * sin th) with (Cmult (RtoC (A * m)) (cos th, sin th)) by (unfold Cmult, RtoC; cbn [fst snd]; f_equal; ring).
  rewrite Cmod_mult, Cmod_R, Rabs_mult, (Rabs_right A) by lra. assert (E : Cmod (cos th, sin th) = 1). { unfold Cmod. cbn [fst snd]. rewrite <- sqrt_1. f_equal. pose proof (sin2_cos2 th) as Z. unfold Rsqr in Z. lra. } rewrite E. ring.
Qed.
Lemma relabel_sqrt q : 0 < q -> q <> 1 -> 0 < sqrt (Rmax (1 - 4 * (q / (1 + q) ^ 2)) 0).
Proof.
  intros Hq Hn. assert (P : 0 < (1 + q) ^ 2) by (apply pow_lt; lra). assert (E : 1 - 4 * (q / (1 + q) ^ 2) = (1 - q) ^ 2 / (1 + q) ^ 2) by (field; lra).
  assert (0 < 1 - 4 * (q / (1 + q) ^ 2)). { rewrite E. apply Rdiv_lt_0_compat; [|exact P]. pose proof (pow2_gt_0 (1 - q) ltac:(lra)). lra. } rewrite Rmax_left by lra. apply sqrt_lt_R0. assumption.
Qed.
(** two quantities 1 + t^2 a + t^3 b + O(t^4) and 1 + t^2 a + t^3 b' + O(t^4) with b <> b' have different absolute values for small t *)
Lemma expansions_differ a b b' K K' : 0 < K -> 0 < K' -> b <> b' -> exists tau, 0 < tau /\ forall t A A', 0 < t < tau -> Rabs (A - (1 + t ^ 2 * a + t ^ 3 * b)) <= K * t ^ 4 -> Rabs (A' - (1 + t ^ 2 * a + t ^ 3 * b')) <= K' * t ^ 4 -> Rabs A <> Rabs A'.
Proof.
  intros HK HK' Hb. set (D := Rabs (b - b')). assert (PD : 0 < D) by (apply Rabs_pos_lt; lra). set (L := Rabs a + Rabs b + Rabs b' + K + K' + 1).
  pose proof (Rabs_pos a) as Pa. pose proof (Rabs_pos b) as Pb. pose proof (Rabs_pos b') as Pb'. assert (PL : 1 <= L) by (unfold L; lra).
  exists (Rmin (/ L) (D / (K + K'))). split. { apply Rmin_glb_lt; [apply Rinv_0_lt_compat; lra|apply Rdiv_lt_0_compat; lra]. }
  intros t A A' [T0 T1] HA HA'. assert (TL : t < / L) by (eapply Rlt_le_trans; [exact T1|apply Rmin_l]). assert (TD : t < D / (K + K')) by (eapply Rlt_le_trans; [exact T1|apply Rmin_r]).
  assert (TL1 : t * L < 1). { apply (Rmult_lt_compat_r L) in TL; [|lra]. rewrite Rinv_l in TL by lra. exact TL. }
  assert (TD1 : t * (K + K') < D). { apply (Rmult_lt_compat_r (K + K')) in TD; [|lra]. unfold Rdiv in TD. rewrite Rmult_assoc, Rinv_l, Rmult_1_r in TD by lra. exact TD. }
  assert (T : t <= 1) by nra.
  assert (T2 : 0 < t ^ 2 <= t) by (split; [apply pow_lt; exact T0|cbn [pow]; nra]). assert (T3 : 0 < t ^ 3 <= t) by (split; [apply pow_lt; exact T0|cbn [pow]; nra]). assert (T4 : 0 < t ^ 4 <= t) by (split; [apply pow_lt; exact T0|]; replace (t ^ 4) with (t ^ 2 * t ^ 2) by ring; nra).
  assert (POS : forall X c k, 0 <= k -> Rabs a + Rabs c + k <= L -> Rabs (X - (1 + t ^ 2 * a + t ^ 3 * c)) <= k * t ^ 4 -> 0 < X).
  { intros X c k Hk HL HX. pose proof (Rabs_pos c). apply Rabs_def2b in HX || (apply Rabs_le_between in HX). destruct HX as [HX _].
    assert (- (t * Rabs a) <= t ^ 2 * a). { destruct (Rle_dec 0 a); [rewrite Rabs_right by lra; nra|rewrite Rabs_left by lra; nra]. }
    assert (- (t * Rabs c) <= t ^ 3 * c). { destruct (Rle_dec 0 c); [rewrite (Rabs_right c) by lra; nra|rewrite (Rabs_left c) by lra; nra]. }
    assert (k * t ^ 4 <= k * t) by (apply Rmult_le_compat_l; lra). assert (t * (Rabs a + Rabs c + k) <= t * L) by (apply Rmult_le_compat_l; lra). lra. }
  assert (PA : 0 < A) by (apply (POS A b K); [lra|unfold L; lra|exact HA]). assert (PA' : 0 < A') by (apply (POS A' b' K'); [lra|unfold L; lra|exact HA']).
  rewrite !Rabs_right by lra. intros E. rewrite E in HA.
  assert (Z : Rabs (t ^ 3 * (b - b')) <= (K + K') * t ^ 4).
  { replace (t ^ 3 * (b - b')) with ((A' - (1 + t ^ 2 * a + t ^ 3 * b')) - (A' - (1 + t ^ 2 * a + t ^ 3 * b))) by ring. eapply Rle_trans; [apply Rabs_triang|]. rewrite Rabs_Ropp. lra. }
  rewrite Rabs_mult, (Rabs_right (t ^ 3)) in Z by lra. fold D in Z. replace ((K + K') * t ^ 4) with (t ^ 3 * (t * (K + K'))) in Z by ring. apply Rmult_le_reg_l in Z; lra.
Qed.
Theorem pd_relabel_refuted mc q chi1 chi2 dist : 0 < mc -> 0 < q -> q <> 1 -> -1 <= chi1 <= 1 -> -1 <= chi2 <= 1 -> chi1 <> chi2 -> 0 < dist ->
  exists f0, 0 < f0 /\ forall f phic incl f_ref, 0 < f < f0 -> Cmod (snd (pd_one f mc (/ q) chi2 chi1 dist phic incl f_ref)) <> Cmod (snd (pd_one f mc q chi1 chi2 dist phic incl f_ref)).
Proof.
  intros Hm Hq Hn H1 H2 Hc Hd. assert (Hi : 0 < / q) by (apply Rinv_0_lt_compat; exact Hq).
  set (a := pd_params mc (/ q) chi2 chi1). set (b := pd_params mc q chi1 chi2).
  destruct (amp_small2 a) as (Ka & PKa & Xa); [apply (pd_joins mc (/ q) chi2 chi1); assumption|].
  destruct (amp_small2 b) as (Kb & PKb & Xb); [apply (pd_joins mc q chi1 chi2); assumption|].
  set (eta := pd_eta mc q). set (Se := sqrt (Rmax (1 - 4 * eta) 0)).
  assert (GA : d_eta a = eta /\ d_Seta a = Se /\ d_chi1 a = chi2 /\ d_chi2 a = chi1).
  { unfold a, pd_params. rewrite (pd_eta_relabel mc q) by assumption. destruct (fring_fdamp _ _ _). repeat split; reflexivity. }
  assert (GB : d_eta b = eta /\ d_Seta b = Se /\ d_chi1 b = chi1 /\ d_chi2 b = chi2).
  { unfold b, pd_params. destruct (fring_fdamp _ _ _). repeat split; reflexivity. }
  destruct GA as (A1 & A2 & A3 & A4). destruct GB as (B1 & B2 & B3 & B4). rewrite A1, A2, A3, A4 in Xa. rewrite B1, B2, B3, B4 in Xb.
  assert (PS : 0 < Se) by (unfold Se, eta; rewrite pd_eta_spec by assumption; apply relabel_sqrt; assumption).
  set (c2 := (- 969 + 1804 * eta) * Rpower PI (2 / 3) / 672) in *. set (ca := (chi2 * (81 * (1 + Se) - 44 * eta) + chi1 * (81 - 81 * Se - 44 * eta)) * PI / 48) in *. set (cb := (chi1 * (81 * (1 + Se) - 44 * eta) + chi2 * (81 - 81 * Se - 44 * eta)) * PI / 48) in *.
  assert (NE : ca <> cb).
  { intros E. assert (Z : cb - ca = 162 / 48 * PI * Se * (chi1 - chi2)) by (unfold ca, cb; field). assert (Z0 : 162 / 48 * PI * Se * (chi1 - chi2) = 0) by lra. pose proof PI_RGT_0. apply Rmult_integral in Z0. destruct Z0 as [Z0|Z0]; [|lra]. apply Rmult_integral in Z0. destruct Z0; lra. }
  destruct (expansions_differ c2 ca cb Ka Kb PKa PKb NE) as (tau & PT & XD).
  set (Ms := pd_total mc q * MTSUN_SI). assert (PM : 0 < Ms) by (apply Rmult_lt_0_compat; [apply pd_total_pos, Hm|apply MTSUN_pos]).
  exists (Rmin amp_join (tau ^ 3) / Ms). assert (PP : 0 < Rmin amp_join (tau ^ 3)) by (apply Rmin_glb_lt; [unfold amp_join; lra|apply pow_lt, PT]). split; [apply Rdiv_lt_0_compat; assumption|].
  intros f phic incl f_ref [F0 F1]. assert (Y0 : 0 < Ms * f) by (apply Rmult_lt_0_compat; assumption).
  assert (Y1 : Ms * f < Rmin amp_join (tau ^ 3)). { apply (Rmult_lt_compat_l Ms) in F1; [|exact PM]. replace (Ms * (Rmin amp_join (tau ^ 3) / Ms)) with (Rmin amp_join (tau ^ 3)) in F1 by (field; lra). exact F1. }
  assert (Y2 : Ms * f < amp_join) by (eapply Rlt_le_trans; [exact Y1|apply Rmin_l]). assert (Y3 : Ms * f < tau ^ 3) by (eapply Rlt_le_trans; [exact Y1|apply Rmin_r]).
  set (t := Rpower (Ms * f) (1 / 3)). assert (T0 : 0 < t) by apply Rpower_pos. assert (T3 : t ^ 3 = Ms * f) by (cbn [pow]; unfold t; rewrite Rmult_1_r, <- !Rpower_plus; replace (1 / 3 + (1 / 3 + 1 / 3)) with 1 by field; apply Rpower_1; lra).
  assert (TT : t < tau). { destruct (Rlt_dec t tau); [assumption|]. exfalso. assert (tau ^ 3 <= t ^ 3) by (apply pow_incr; lra). lra. }
  pose proof (XD t _ _ (conj T0 TT) (Xa (Ms * f) t ltac:(lra) eq_refl) (Xb (Ms * f) t ltac:(lra) eq_refl)) as NEQ.
  unfold pd_one. cbn [snd]. rewrite !Cmod_mult.
  destruct (pd_Cmod mc (/ q) chi2 chi1 f dist phic f_ref Hm Hi H2 H1 F0 Hd) as [E1 PA]. destruct (pd_Cmod mc q chi1 chi2 f dist phic f_ref Hm Hq H1 H2 F0 Hd) as [E2 _]. rewrite E1, E2. rewrite (pd_total_relabel mc q) by assumption. fold Ms a b.
  set (X := Rabs (fst (pd_amp a (Ms * f)))) in *. set (Y := Rabs (fst (pd_amp b (Ms * f)))) in *. set (S0 := spa_amplitude f mc dist) in *. clearbody X Y S0.
  assert (PC : 0 < Cmod (RtoC (5 / 10 * (1 + cos incl * cos incl)))). { apply Cmod_gt_0. intros E. apply RtoC_inj in E. pose proof (Rle_0_sqr (cos incl)) as Q. unfold Rsqr in Q. lra. }
  set (w := Cmod (RtoC _)) in *. clearbody w. intros E. apply Rmult_eq_reg_r in E; [|lra]. apply Rmult_eq_reg_l in E; [|lra]. contradiction.
Qed.
(** a 4:1 binary with spins 0.9 and -0.5: TaylorF2 is unaffected by the labels, IMRPhenomD is not *)
Example relabel_ex : (forall f, tf2_one f 20 4 (- (1 / 2)) (9 / 10) 100 0 0 20 = tf2_one f 20 (1 / 4) (9 / 10) (- (1 / 2)) 100 0 0 20) /\
  exists f0, 0 < f0 /\ forall f, 0 < f < f0 -> Cmod (snd (pd_one f 20 4 (- (1 / 2)) (9 / 10) 100 0 0 20)) <> Cmod (snd (pd_one f 20 (1 / 4) (9 / 10) (- (1 / 2)) 100 0 0 20)).
Proof.
  assert (E : / (1 / 4) = 4) by field. split.
  - intros f. pose proof (tf2_relabel f 20 (1 / 4) (9 / 10) (- (1 / 2)) 100 0 0 20 ltac:(lra) ltac:(lra)) as H. rewrite E in H. exact H.
  - destruct (pd_relabel_refuted 20 (1 / 4) (9 / 10) (- (1 / 2)) 100) as (f0 & P & H); try lra. rewrite E in H. exists f0. split; [exact P|]. intros f Hf. apply H, Hf.
Qed.
