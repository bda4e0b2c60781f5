(** Property C56: TaylorF2. *)
From Coq Require Import Reals Lra.
From Coquelicot Require Import Coquelicot.
From Verif Require Import Base Conv_model Conv_props Wave_model Wave_props Tf2_model.
Local Open Scope R_scope.

(** ** the phase and its derivative *)
(** closed form in the velocity v = (pi Mf)^(1/3) *)
Definition pn_series (c : tf2c) (v : R) : R :=
  p_N c * (/ v ^ 5 + p2 c / v ^ 3 + p3 c / v ^ 2 + p4 c / v + (p5 c + p5l c * ln v) + (p6 c + p6l c * ln v) * v + p7 c * v ^ 2).
Lemma tf2_phase_series c Mf : 0 < Mf -> fst (tf2_phase c Mf) = pn_series c (Rpower (PI * Mf) (1 / 3)).
Proof.
  intros H. unfold tf2_phase, pn_series. cbv zeta. cbn [fst]. set (v := Rpower _ _). assert (0 < v) by apply Rpower_pos. field. lra.
Qed.
Lemma pn_series_derive c v : 0 < v -> is_derive (pn_series c) v
  (p_N c * (- 5 / v ^ 6 - 3 * p2 c / v ^ 4 - 2 * p3 c / v ^ 3 - p4 c / v ^ 2 + p5l c / v + (p6 c + p6l c * ln v) + p6l c + 2 * p7 c * v)).
Proof.
  intros H. unfold pn_series. auto_derive.
  - repeat split; try assumption; try (apply Rgt_not_eq; assumption); try (apply Rmult_integral_contrapositive_currified; repeat apply Rmult_integral_contrapositive_currified); try lra; repeat apply Rmult_integral_contrapositive_currified; lra.
  - field. lra.
Qed.
Lemma v_derive Mf : 0 < Mf -> is_derive (fun x => Rpower (PI * x) (1 / 3)) Mf (PI / (3 * Rpower (PI * Mf) (1 / 3) ^ 2)).
Proof.
  intros H. pose proof PI_RGT_0 as HP. assert (HM : 0 < PI * Mf) by (apply Rmult_lt_0_compat; assumption). set (v := Rpower (PI * Mf) (1 / 3)). assert (Pv : 0 < v) by apply Rpower_pos.
  assert (E : v ^ 3 = PI * Mf). { unfold v. rewrite <- Rpower_pow by apply Rpower_pos. rewrite Rpower_mult. replace (1 / 3 * INR 3) with 1 by (cbn [INR]; lra). apply Rpower_1. assumption. }
  unfold Rpower. auto_derive; [assumption|]. change (exp (1 / 3 * ln (PI * Mf))) with v. replace (PI / (3 * v ^ 2)) with (PI * v / (3 * v ^ 3)) by (field; lra). rewrite E.
  unfold v, Rpower. replace (1 * / 3) with (1 / 3) by lra. field. lra.
Qed.
(** what is returned as the derivative is the derivative, at every positive frequency and for every coefficient *)
Theorem tf2_phase_derivative c Mf : 0 < Mf -> is_derive (fun x => fst (tf2_phase c x)) Mf (snd (tf2_phase c Mf)).
Proof.
  intros H. apply (is_derive_ext_loc (fun x => pn_series c (Rpower (PI * x) (1 / 3)))).
  - exists (mkposreal Mf H). intros y Hy. symmetry. apply tf2_phase_series. unfold ball in Hy. cbn in Hy. unfold AbsRing_ball, abs, minus, plus, opp in Hy. cbn in Hy. apply Rabs_lt_between' in Hy. lra.
  - set (v := Rpower (PI * Mf) (1 / 3)). assert (Pv : 0 < v) by apply Rpower_pos.
    assert (E : snd (tf2_phase c Mf) = (PI / (3 * v ^ 2)) * (p_N c * (- 5 / v ^ 6 - 3 * p2 c / v ^ 4 - 2 * p3 c / v ^ 3 - p4 c / v ^ 2 + p5l c / v + (p6 c + p6l c * ln v) + p6l c + 2 * p7 c * v))).
    { unfold tf2_phase. cbv zeta. cbn [snd]. fold v. field. lra. }
    rewrite E. apply (is_derive_comp (pn_series c) (fun x => Rpower (PI * x) (1 / 3))); [apply pn_series_derive; exact Pv|apply v_derive; exact H].
Qed.
(** ** the coefficients *)
(** without spins: the standard 3.5PN series *)
Theorem tf2_nonspinning m1 m2 Mf : 0 < m1 -> 0 < m2 -> 0 < Mf ->
  let eta := m1 * m2 / (m1 + m2) ^ 2 in let v := Rpower (PI * Mf) (1 / 3) in
  fst (tf2_phase (tf2_coeffs m1 m2 0 0) Mf) = 3 / (128 * eta * v ^ 5) * (1
    + 20 / 9 * (743 / 336 + 11 / 4 * eta) * v ^ 2 - 16 * PI * v ^ 3
    + 10 * (3058673 / 1016064 + 5429 / 1008 * eta + 617 / 144 * eta ^ 2) * v ^ 4
    + PI * (38645 / 756 - 65 / 9 * eta) * (1 + 3 * ln v) * v ^ 5
    + (11583231236531 / 4694215680 - 640 / 3 * PI ^ 2 - 6848 / 21 * (EulerGamma + ln (4 * v))
       + (- 15737765635 / 3048192 + 2255 / 12 * PI ^ 2) * eta + 76055 / 1728 * eta ^ 2 - 127825 / 1296 * eta ^ 3) * v ^ 6
    + PI * (77096675 / 254016 + 378515 / 1512 * eta - 74045 / 756 * eta ^ 2) * v ^ 7).
Proof.
  intros H1 H2 Hf eta v. assert (Pv : 0 < v) by apply Rpower_pos. rewrite tf2_phase_series by assumption. fold v. rewrite ln_mult by lra.
  unfold pn_series, tf2_coeffs. cbv zeta. cbn [p_N p2 p3 p4 p5 p5l p6 p6l p7].
  replace (m1 * m2 / (m1 + m2) / (m1 + m2)) with eta by (unfold eta; field; lra). assert (Pe : 0 < eta) by (unfold eta; apply Rdiv_lt_0_compat; [nra|apply pow_lt; lra]).
  field. lra.
Qed.
(** exchanging the two bodies changes nothing *)
Theorem tf2_exchange m1 m2 chi1 chi2 : 0 < m1 -> 0 < m2 -> tf2_coeffs m1 m2 chi1 chi2 = tf2_coeffs m2 m1 chi2 chi1.
Proof. intros H1 H2. unfold tf2_coeffs. cbv zeta. rewrite (Rplus_comm m2 m1), (Rmult_comm m2 m1). f_equal; ring. Qed.
(** ** the amplitude: the Newtonian stationary-phase amplitude in terms of the chirp mass *)
Definition spa_amplitude (f mc dist : R) : R := sqrt (5 / 24) * Rpower PI (- (2 / 3)) * Rpower (mc * MTSUN_SI) (5 / 6) * Rpower f (- (7 / 6)) / (dist * MPC_SEC).
Lemma MTSUN_pos : 0 < MTSUN_SI. Proof. unfold MTSUN_SI. lra. Qed.
Lemma MPC_pos : 0 < MPC_SEC. Proof. unfold MPC_SEC. apply Rdiv_lt_0_compat; [apply m_per_Mpc_pos|apply Cl_pos]. Qed.
Lemma sqrt_Rpower x : 0 < x -> sqrt x = Rpower x (1 / 2).
Proof. intros H. replace (1 / 2) with (/ 2) by lra. symmetry. apply Rpower_sqrt. assumption. Qed.
Theorem tf2_amplitude_spec f m1 m2 dist : 0 < f -> 0 < m1 -> 0 < m2 -> 0 < dist ->
  let Ms := m1 * MTSUN_SI + m2 * MTSUN_SI in let eta := m1 * MTSUN_SI * (m2 * MTSUN_SI) / Ms / Ms in
  tf2_amplitude (Ms * f) m1 m2 eta dist = - spa_amplitude f (chirp_mass m1 m2) dist.
Proof.
  intros Hf H1 H2 Hd Ms eta. pose proof MTSUN_pos as HT. pose proof MPC_pos as HD. pose proof PI_RGT_0 as HP.
  assert (PM : 0 < Ms) by (unfold Ms; nra). assert (Pmm : 0 < m1 * MTSUN_SI * (m2 * MTSUN_SI)) by (apply Rmult_lt_0_compat; apply Rmult_lt_0_compat; assumption).
  assert (Pe : 0 < eta) by (unfold eta; apply Rdiv_lt_0_compat; [apply Rdiv_lt_0_compat|]; assumption).
  unfold tf2_amplitude. cbv zeta. set (X := PI * (Ms * f)). assert (PX : 0 < X) by (apply Rmult_lt_0_compat; [assumption|apply Rmult_lt_0_compat; assumption]).
  set (v := Rpower X (1 / 3)). assert (Pv : 0 < v) by apply Rpower_pos.
  replace (- (v * (2 * (- eta / 2))) / (v ^ 10 * (32 * eta * eta / 5))) with (5 / 32 * / eta * / v ^ 9) by (field; split; lra).
  assert (E9 : / v ^ 9 = Rpower X (- 3)). { rewrite <- (Rpower_pow 9) by exact Pv. unfold v. rewrite Rpower_mult, <- Rpower_Ropp. f_equal. cbn [INR]. lra. }
  rewrite E9. rewrite sqrt_mult_alt by (apply Rlt_le, Rmult_lt_0_compat; [lra|apply Rinv_0_lt_compat; exact Pe]). rewrite sqrt_mult_alt by lra.
  rewrite (sqrt_Rpower (Rpower X (-3))) by apply Rpower_pos. rewrite Rpower_mult. replace (-3 * (1 / 2)) with (- (3 / 2)) by lra.
  rewrite (sqrt_Rpower (/ eta)) by (apply Rinv_0_lt_compat; exact Pe).
  assert (EI : Rpower (/ eta) (1 / 2) = Rpower eta (- (1 / 2))). { unfold Rpower. rewrite ln_Rinv by exact Pe. f_equal. ring. }
  rewrite EI.
  replace (m1 * MTSUN_SI * (m2 * MTSUN_SI)) with (Ms ^ 2 * eta) in * by (unfold eta; field; lra).
  replace (-4 * (m1 * MTSUN_SI) * (m2 * MTSUN_SI)) with (-4 * (Ms ^ 2 * eta)) by (unfold eta; field; lra).
  (* collect the powers *)
  assert (EX : Rpower X (- (3 / 2)) * v = Rpower X (- (7 / 6))) by (unfold v; rewrite <- Rpower_plus; f_equal; lra).
  assert (EE : Rpower eta (- (1 / 2)) * eta = Rpower eta (1 / 2)). { rewrite <- (Rpower_1 eta) at 2 by exact Pe. rewrite <- Rpower_plus. f_equal. lra. }
  assert (EC : sqrt (5 / 32) * 4 * sqrt (PI / 12) = sqrt (5 / 24) * Rpower PI (1 / 2)).
  { rewrite <- (sqrt_Rpower PI) by exact HP. replace 4 with (sqrt 16) by (replace 16 with (4 * 4) by ring; apply sqrt_square; lra). rewrite <- !sqrt_mult_alt by lra. f_equal. field. }
  assert (XP : Rpower X (- (7 / 6)) = Rpower PI (- (7 / 6)) * (Rpower Ms (- (7 / 6)) * Rpower f (- (7 / 6)))).
  { unfold X. rewrite <- Rpower_mult_distr by (try exact HP; apply Rmult_lt_0_compat; assumption). rewrite <- (Rpower_mult_distr Ms f) by assumption. reflexivity. }
  assert (CM : Rpower (chirp_mass m1 m2 * MTSUN_SI) (5 / 6) = Rpower eta (1 / 2) * Rpower Ms (5 / 6)).
  { assert (CE : chirp_mass m1 m2 * MTSUN_SI = Rpower eta (3 / 5) * Ms).
    { unfold chirp_mass. assert (P12 : 0 < m1 * m2) by (apply Rmult_lt_0_compat; assumption). assert (Ps : 0 < m1 + m2) by lra.
      assert (Ee : eta = m1 * m2 * Rpower (m1 + m2) (- (2))). { rewrite Rpower_Ropp. replace (Rpower (m1 + m2) 2) with ((m1 + m2) ^ 2) by (rewrite <- (Rpower_pow 2) by exact Ps; f_equal; cbn [INR]; lra). unfold eta, Ms. field. split; [lra|apply Rgt_not_eq, PM]. }
      rewrite Ee. rewrite <- (Rpower_mult_distr (m1 * m2) (Rpower (m1 + m2) (- (2)))) by (try exact P12; apply Rpower_pos). rewrite Rpower_mult. replace (- (2) * (3 / 5)) with (- (6 / 5)) by lra.
      unfold Rdiv at 1. rewrite <- Rpower_Ropp. replace Ms with ((m1 + m2) * MTSUN_SI) by (unfold Ms; ring). rewrite <- (Rpower_1 (m1 + m2)) at 3 by exact Ps.
      replace (Rpower (m1 * m2) (3 / 5) * Rpower (m1 + m2) (- (6 / 5)) * (Rpower (m1 + m2) 1 * MTSUN_SI)) with (Rpower (m1 * m2) (3 / 5) * (Rpower (m1 + m2) (- (6 / 5)) * Rpower (m1 + m2) 1) * MTSUN_SI) by ring.
      rewrite <- Rpower_plus. do 3 f_equal. lra. }
    rewrite CE, <- Rpower_mult_distr by (try exact PM; apply Rpower_pos). rewrite Rpower_mult. do 2 f_equal. lra. }
  assert (MM : Rpower Ms (- (7 / 6)) * Ms ^ 2 = Rpower Ms (5 / 6)). { rewrite <- (Rpower_pow 2) by exact PM. rewrite <- Rpower_plus. f_equal. cbn [INR]. lra. }
  assert (PPI : Rpower PI (- (7 / 6)) * Rpower PI (1 / 2) = Rpower PI (- (2 / 3))) by (rewrite <- Rpower_plus; f_equal; lra).
  unfold spa_amplitude. rewrite CM. transitivity (- (sqrt (5 / 32) * 4 * sqrt (PI / 12)) * (Rpower eta (- (1 / 2)) * eta) * (Rpower X (- (3 / 2)) * v) * Ms ^ 2 / (dist * MPC_SEC)); [field; split; lra|].
  rewrite EC, EE, EX, XP, <- MM, <- PPI. field. split; lra.
Qed.
(** ** the strain *)
Lemma Cmod_polar a t : Cmod (a * cos t, a * sin t) = Rabs a.
Proof.
  unfold Cmod. cbn [fst snd]. replace ((a * cos t) ^ 2 + (a * sin t) ^ 2) with (a ^ 2 * (sin t * sin t + cos t * cos t)) by ring. rewrite sc, Rmult_1_r. replace (a ^ 2) with (Rsqr a) by (unfold Rsqr; ring). apply sqrt_Rsqr_abs.
Qed.
Lemma spa_pos f mc dist : 0 < dist -> 0 < spa_amplitude f mc dist.
Proof.
  intros H. unfold spa_amplitude. pose proof MPC_pos. apply Rdiv_lt_0_compat; [|apply Rmult_lt_0_compat; assumption]. assert (0 < sqrt (5 / 24)) by (apply sqrt_lt_R0; lra).
  apply Rmult_lt_0_compat; [apply Rmult_lt_0_compat; [apply Rmult_lt_0_compat; [assumption|]|]|]; apply Rpower_pos.
Qed.
(** htilde = -A exp(-i (Psi(f) - Psi(f_ref) - 2 phic - pi/4)) *)
Definition tf2_psi (f m1 m2 chi1 chi2 : R) : R := fst (tf2_phase (tf2_coeffs m1 m2 chi1 chi2) ((m1 + m2) * MTSUN_SI * f)).
Theorem tf2_htilde_spec f m1 m2 chi1 chi2 dist phic f_ref : 0 < f -> 0 < m1 -> 0 < m2 -> 0 < dist ->
  let A := spa_amplitude f (chirp_mass m1 m2) dist in
  let th := PI / 4 + 2 * phic - (tf2_psi f m1 m2 chi1 chi2 - tf2_psi f_ref m1 m2 chi1 chi2) in
  tf2_htilde f m1 m2 chi1 chi2 dist phic f_ref = (- A * cos th, - A * sin th).
Proof.
  intros Hf H1 H2 Hd A th. unfold tf2_htilde. cbv zeta. rewrite tf2_amplitude_spec by assumption. fold A.
  replace (m1 * MTSUN_SI + m2 * MTSUN_SI) with ((m1 + m2) * MTSUN_SI) by ring. fold (tf2_psi f m1 m2 chi1 chi2) (tf2_psi f_ref m1 m2 chi1 chi2).
  replace (- (tf2_psi f m1 m2 chi1 chi2 - 2 * phic - tf2_psi f_ref m1 m2 chi1 chi2 - PI / 4)) with th by (unfold th; ring). reflexivity.
Qed.
(** both polarisations: moduli, quadrature relation, and the phase at the reference frequency *)
Theorem tf2_polarisations f mc q chi1 chi2 dist phic incl f_ref : 0 < f -> 0 < mc -> 0 < q -> 0 < dist ->
  let (hc, hp) := tf2_one f mc q chi1 chi2 dist phic incl f_ref in
  Cmod hp = spa_amplitude f mc dist * ((1 + cos incl ^ 2) / 2) /\ Cmod hc = spa_amplitude f mc dist * Rabs (cos incl) /\
  Cmult hc (RtoC ((1 + cos incl ^ 2) / 2)) = Cmult (Copp Ci) (Cmult hp (RtoC (cos incl))).
Proof.
  intros Hf Hm Hq Hd. unfold tf2_one. pose proof (components_spec mc q Hm Hq) as K. destruct (components mc q) as [m1 m2]. destruct K as [P1 [P2 [_ [CM _]]]].
  rewrite tf2_htilde_spec by assumption. cbv zeta. rewrite CM. set (A := spa_amplitude f mc dist). assert (PA : 0 < A) by (apply spa_pos; assumption). set (th := PI / 4 + _ - _).
  replace (5 / 10 * (1 + cos incl * cos incl)) with ((1 + cos incl ^ 2) / 2) by (field). set (h := (- A * cos th, - A * sin th) : C).
  assert (MH : Cmod h = A) by (unfold h; rewrite Cmod_polar, Rabs_Ropp; apply Rabs_right; lra).
  assert (CI : Cmod Ci = 1) by (unfold Cmod, Ci; cbn [fst snd]; replace (0 ^ 2 + 1 ^ 2) with 1 by ring; apply sqrt_1).
  split; [rewrite Cmod_mult, MH, Cmod_R; f_equal; apply Rabs_right; nra|]. split; [rewrite Cmod_mult, Cmod_opp, Cmod_mult, CI, MH, Cmod_R; ring|].
  ring.
Qed.
(** ** scaling with distance *)
Theorem tf2_distance f mc q chi1 chi2 dist phic incl f_ref k : 0 < f -> 0 < mc -> 0 < q -> 0 < dist -> 0 < k ->
  let (hc, hp) := tf2_one f mc q chi1 chi2 dist phic incl f_ref in
  tf2_one f mc q chi1 chi2 (k * dist) phic incl f_ref = (Cmult (RtoC (/ k)) hc, Cmult (RtoC (/ k)) hp).
Proof.
  intros Hf Hm Hq Hd Hk. unfold tf2_one. pose proof (components_spec mc q Hm Hq) as K. destruct (components mc q) as [m1 m2]. destruct K as [P1 [P2 [_ [CM _]]]].
  rewrite !tf2_htilde_spec by (try assumption; nra). cbv zeta.
  assert (E : spa_amplitude f (chirp_mass m1 m2) (k * dist) = / k * spa_amplitude f (chirp_mass m1 m2) dist) by (unfold spa_amplitude; pose proof MPC_pos; field; repeat split; lra).
  rewrite E. set (A := spa_amplitude f (chirp_mass m1 m2) dist). set (th := PI / 4 + _ - _).
  assert (G : ((- (/ k * A) * cos th, - (/ k * A) * sin th) : C) = Cmult (RtoC (/ k)) ((- A * cos th, - A * sin th) : C)) by (apply injective_projections; cbn; ring).
  rewrite G. f_equal; ring.
Qed.
(** ** the module *)
Theorem tf2_forward_spec f mc q chi1 chi2 dist phic incl f_ref :
  (List.length q = List.length mc -> List.length chi1 = List.length mc -> List.length chi2 = List.length mc -> List.length dist = List.length mc -> List.length phic = List.length mc -> List.length incl = List.length mc ->
   exists h, tf2_forward f mc q chi1 chi2 dist phic incl f_ref = Ok h /\ List.length h = List.length mc /\
    forall i j fj, (i < List.length mc)%nat -> nth_error f j = Some fj -> exists row, nth_error h i = Some row /\ List.length row = List.length f /\
      nth_error row j = Some (tf2_one fj (nth i mc 0) (nth i q 0) (nth i chi1 0) (nth i chi2 0) (nth i dist 0) (nth i phic 0) (nth i incl 0) f_ref)) /\
  ((List.length q <> List.length mc \/ List.length chi1 <> List.length mc \/ List.length chi2 <> List.length mc \/ List.length dist <> List.length mc \/ List.length phic <> List.length mc \/ List.length incl <> List.length mc) ->
   tf2_forward f mc q chi1 chi2 dist phic incl f_ref = Err ValueError).
Proof.
  unfold tf2_forward. cbn [forallb]. split.
  - intros E1 E2 E3 E4 E5 E6. rewrite E1, E2, E3, E4, E5, E6, Nat.eqb_refl. cbn [andb]. eexists. split; [reflexivity|]. split; [rewrite map_length, seq_length; reflexivity|].
    intros i j fj Hi Hj. rewrite nth_error_map, (nth_error_nth' _ 0%nat) by (rewrite seq_length; exact Hi). rewrite seq_nth by exact Hi. cbn [option_map Nat.add]. eexists. split; [reflexivity|]. split; [apply map_length|]. rewrite nth_error_map, Hj. reflexivity.
  - intros H. destruct (Nat.eqb_spec (List.length q) (List.length mc)); [|reflexivity]. destruct (Nat.eqb_spec (List.length chi1) (List.length mc)); [|reflexivity].
    destruct (Nat.eqb_spec (List.length chi2) (List.length mc)); [|reflexivity]. destruct (Nat.eqb_spec (List.length dist) (List.length mc)); [|reflexivity].
    destruct (Nat.eqb_spec (List.length phic) (List.length mc)); [|reflexivity]. destruct (Nat.eqb_spec (List.length incl) (List.length mc)); [|reflexivity]. tauto.
Qed.
(** a batch of two systems at three frequencies *)
Example tf2_forward_ex : exists h, tf2_forward [20; 30; 40] [10; 20] [1; 1 / 2] [0; 1 / 2] [0; 0] [100; 200] [0; 1] [0; 1] 20 = Ok h /\ List.length h = 2%nat /\
  exists row, nth_error h 1 = Some row /\ List.length row = 3%nat /\ nth_error row 2 = Some (tf2_one 40 20 (1 / 2) (1 / 2) 0 200 1 1 20).
Proof.
  destruct (tf2_forward_spec [20; 30; 40] [10; 20] [1; 1 / 2] [0; 1 / 2] [0; 0] [100; 200] [0; 1] [0; 1] 20) as [A _].
  destruct A as [h [E [L G]]]; try reflexivity. exists h. split; [exact E|]. split; [exact L|]. apply (G 1%nat 2%nat 40); [cbn; lia|reflexivity].
Qed.
