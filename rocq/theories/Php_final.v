(** IMRPhenomPv2: comparison with IMRPhenomD, effect of distance, coalescence time, reference phase and in-plane rotations, batch. *)
From Coq Require Import Reals Ranalysis5 Lra Lia ZArith.
From Coquelicot Require Import Coquelicot.
From Verif Require Import Base Rutil Conv_model Conv_props Wave_props Tf2_model Tf2_props Phd_fits Phd_data Phd_delta Phd_model Phd_props Phd_bounds Phd_main Php_fits Php_model Php_props Php_geom Php_twist Php_core Php_main Php_aligned.
Local Open Scope R_scope.

(** multiply both polarisations by a complex number *)
Definition times (z : Complex.C) (h : Complex.C * Complex.C) : Complex.C * Complex.C := (Cmult z (fst h), Cmult z (snd h)).
Lemma cis_eq a b : cos a = cos b -> sin a = sin b -> cis_ a = cis_ b. Proof. unfold cis_. intros -> ->. reflexivity. Qed.

(** ** coalescence time and distance, for any input *)
Definition rmap {A B} (g : A -> B) (r : res A) : res B := match r with Ok a => Ok (g a) | Err e => Err e end.
Theorem pp_time f mc q s1 s2 dist phic incl f_ref tc :
  pp_one f mc q s1 s2 dist phic incl f_ref tc = rmap (times (cis_ (- (2 * PI * f * (pp_mass mc q * tc / (2 * PI)))))) (pp_one f mc q s1 s2 dist phic incl f_ref 0).
Proof.
  assert (EM : forall ml ms, (ms + ml) * MTSUN_SI = (ml + ms) * MTSUN_SI) by (intros; ring).
  unfold pp_one, pp_mass. destruct (components mc q) as [ml ms]. cbv zeta. cbn [fst snd]. destruct (PhenomPOne _ _ _ _ _ _ _ _ _ _ _ _ _ _) as [[h d]|e]; [|reflexivity]. cbn [bind rmap].
  destruct (TwistUp _ _ _ _ _ _ _ _ _ _ _ _) as [a b]. cbn [rmap]. unfold times. cbn [fst snd].
  replace (- (2 * PI * f * ((ml + ms) * MTSUN_SI * tc / (2 * PI)))) with (- (f * ((ms + ml) * MTSUN_SI) * tc)) by (pose proof PI_RGT_0; field; lra).
  replace (- (f * ((ms + ml) * MTSUN_SI) * 0)) with 0 by ring. rewrite cis_0. do 2 f_equal; ring.
Qed.
(** so the waveform is delayed by tc in units of 2 pi / M, not by tc seconds *)
Theorem pp_tc_seconds_refuted mc q s1 s2 dist phic incl f_ref tc : tc <> 0 -> pp_mass mc q <> 2 * PI ->
  exists f, 0 < f /\ forall hc hp, pp_one f mc q s1 s2 dist phic incl f_ref 0 = Ok (hc, hp) -> hp <> RtoC 0 ->
    exists hc' hp', pp_one f mc q s1 s2 dist phic incl f_ref tc = Ok (hc', hp') /\ hp' <> Cmult (cis_ (- (2 * PI * f * tc))) hp.
Proof.
  intros Ht HM. pose proof PI_RGT_0 as HP. set (k := (2 * PI - pp_mass mc q) * tc). assert (Hk : k <> 0) by (apply Rmult_integral_contrapositive_currified; [lra|exact Ht]).
  exists (PI / Rabs k). assert (PK : 0 < Rabs k) by (apply Rabs_pos_lt, Hk). split; [apply Rdiv_lt_0_compat; lra|]. intros hc hp E NZ. rewrite pp_time, E. cbn [rmap]. unfold times. cbn [fst snd].
  eexists. eexists. split; [reflexivity|]. set (f := PI / Rabs k). set (a := - (2 * PI * f * tc)). intros K. apply NZ.
  replace (- (2 * PI * f * (pp_mass mc q * tc / (2 * PI)))) with (a + f * k) in K by (unfold a, k; field; lra). rewrite <- cis_mul in K.
  assert (M1 : cis_ (f * k) = RtoC (- (1))).
  { unfold f. destruct (Rle_dec 0 k) as [H|H]; [rewrite Rabs_right by lra; replace (PI / k * k) with PI by (field; lra)|rewrite Rabs_left by lra; replace (PI / - k * k) with (- PI) by (field; lra)]; unfold cis_, RtoC; rewrite ?cos_neg, ?sin_neg, cos_PI, sin_PI; f_equal; ring. }
  rewrite M1 in K. assert (I := cis_inv a). 
  assert (Z : Cmult (RtoC 2) hp = RtoC 0).
  { assert (E2 : Cmult (cis_ a) (Cmult (RtoC 2) hp) = RtoC 0). { replace (RtoC 2) with (Cplus (RtoC 1) (RtoC 1)) by (rewrite <- RtoC_plus; f_equal; ring). transitivity (Cminus (Cmult (cis_ a) hp) (Cmult (Cmult (cis_ a) (RtoC (- (1)))) hp)); [rewrite RtoC_opp; ring|]. rewrite K. ring. }
    destruct (Ceq_dec (Cmult (RtoC 2) hp) (RtoC 0)) as [Y|N]; [exact Y|]. exfalso. apply (Cmult_neq_0 (cis_ a) (Cmult (RtoC 2) hp)); [|exact N|exact E2]. intros Q. pose proof (cis_mod a) as MM. rewrite Q, Cmod_0 in MM. lra. }
  destruct (Ceq_dec hp (RtoC 0)) as [Y|N]; [exact Y|]. exfalso. apply (Cmult_neq_0 (RtoC 2) hp); [intros Q; apply RtoC_inj in Q; lra|exact N|exact Z].
Qed.
Theorem pp_distance f mc q s1 s2 dist phic incl f_ref tc k : dist <> 0 -> k <> 0 ->
  pp_one f mc q s1 s2 (k * dist) phic incl f_ref tc = rmap (times (RtoC (/ k))) (pp_one f mc q s1 s2 dist phic incl f_ref tc).
Proof.
  intros Hd Hk. pose proof MPC_pos as HM. unfold pp_one. destruct (components mc q) as [ml ms]. cbv zeta. unfold PhenomPOne. cbv zeta. destruct (phP_fRD_fdamp _ _ _ _ _) as [[a b]|e]; [|reflexivity]. cbn [bind rmap].
  set (p := mkd _ _ _ _ _ _ _ _ _ _ _). set (ph := fst (pd_phase p _) - _). set (A := get_Amp0 _ _ * _ * _). set (D := diffRD p _ _). clearbody ph A D.
  replace (A / (k * dist * MPC_SEC)) with (/ k * (A / (dist * MPC_SEC))) by (field; repeat split; lra). set (B := A / (dist * MPC_SEC)). clearbody B.
  unfold TwistUp. cbv zeta. destruct (Wignerd _ _ _ _) as [cB sB]. set (T2 := T2m _ _ _ _). set (Tm := Tm2m _ _ _ _). set (e := cis_ (- (2 * _))). set (z1 := RtoC (cos (2 * pc_zeta _))). set (z2 := RtoC (sin (2 * pc_zeta _))). set (c1 := cis_ _). set (c2 := (cos _, - sin _) : Complex.C).
  cbn [rmap]. unfold times. cbn [fst snd].
  replace (/ k * B * cos (- ph), / k * B * sin (- ph)) with (Cmult (RtoC (/ k)) (B * cos (- ph), B * sin (- ph))) by (unfold Cmult, RtoC; cbn [fst snd]; f_equal; ring).
  set (h := (B * cos (- ph), B * sin (- ph)) : Complex.C). unfold Cdiv. set (i2 := Cinv (RtoC 2)). clearbody T2 Tm e z1 z2 c1 c2 h i2. f_equal. f_equal; ring.
Qed.

(** ** turning both spins and the observer about the orbital axis *)
Lemma atan2_turn x y d : x <> 0 \/ y <> 0 -> let a := atan2 (x * sin d + y * cos d) (x * cos d - y * sin d) in cos a = cos (atan2 y x + d) /\ sin a = sin (atan2 y x + d).
Proof.
  intros H a. destruct (atan2_spec y x) as [A B]. destruct (atan2_spec (x * sin d + y * cos d) (x * cos d - y * sin d)) as [A' B']. fold a in A', B'.
  pose proof (sc d) as S. replace ((x * cos d - y * sin d) * (x * cos d - y * sin d) + (x * sin d + y * cos d) * (x * sin d + y * cos d)) with (x * x + y * y) in A', B'.
  2:{ transitivity ((x * x + y * y) * (sin d * sin d + cos d * cos d)); [rewrite S; ring|ring]. }
  assert (P : 0 < x * x + y * y) by (destruct H; nra). assert (PR : 0 < sqrt (x * x + y * y)) by (apply sqrt_lt_R0, P). set (r := sqrt (x * x + y * y)) in *. rewrite cos_plus, sin_plus.
  split; apply Rmult_eq_reg_l with r; try lra; [rewrite A'; transitivity (r * cos (atan2 y x) * cos d - r * sin (atan2 y x) * sin d); [rewrite A, B; ring|ring]|rewrite B'; transitivity (r * sin (atan2 y x) * cos d + r * cos (atan2 y x) * sin d); [rewrite A, B; ring|ring]].
Qed.
Lemma rotate_z_cs a b v : cos a = cos b -> sin a = sin b -> rotate_z a v = rotate_z b v. Proof. unfold rotate_z. intros -> ->. reflexivity. Qed.
Lemma rotate_z_add a b v : rotate_z a (rotate_z b v) = rotate_z (a + b) v.
Proof. unfold rotate_z. rewrite cos_plus, sin_plus. apply vec_eq; cbn [vx vy vz]; ring. Qed.
Theorem pp_covariance f mc q s1 s2 dist phic incl f_ref tc d : vx (pp_J mc q f_ref s1 s2) <> 0 \/ vy (pp_J mc q f_ref s1 s2) <> 0 ->
  pp_one f mc q (rotate_z d s1) (rotate_z d s2) dist (phic - d) incl f_ref tc = rmap (times (cis_ (- (2 * d)))) (pp_one f mc q s1 s2 dist phic incl f_ref tc).
Proof.
  intros HJ. unfold pp_J in HJ.
  assert (PG : forall m1 m2 : R, (vx (pp_J0 m1 m2 f_ref s2 s1) <> 0 \/ vy (pp_J0 m1 m2 f_ref s2 s1) <> 0) ->
    let c := convert_spins m1 m2 f_ref phic incl s2 s1 in let c' := convert_spins m1 m2 f_ref (phic - d) incl (rotate_z d s2) (rotate_z d s1) in
    pc_chi1 c' = pc_chi1 c /\ pc_chi2 c' = pc_chi2 c /\ pc_chip c' = pc_chip c /\ pc_thetaJN c' = pc_thetaJN c /\ pc_alpha0 c' = pc_alpha0 c /\ pc_zeta c' = pc_zeta c /\ 
    cos (2 * pc_phi_aligned c') = cos (2 * pc_phi_aligned c - 2 * d) /\ sin (2 * pc_phi_aligned c') = sin (2 * pc_phi_aligned c - 2 * d)).
  { intros m1 m2 HN c c'. destruct (conv_fields m1 m2 f_ref phic incl s2 s1) as (F1 & F2 & F3 & F4 & F5 & F6 & F7). destruct (conv_fields m1 m2 f_ref (phic - d) incl (rotate_z d s2) (rotate_z d s1)) as (G1 & G2 & G3 & G4 & G5 & G6 & G7). fold c in F1, F2, F3, F4, F5, F6, F7. fold c' in G1, G2, G3, G4, G5, G6, G7.
    set (J := pp_J0 m1 m2 f_ref s2 s1) in *. assert (EJ : pp_J0 m1 m2 f_ref (rotate_z d s2) (rotate_z d s1) = rotate_z d J) by (unfold J, pp_J0, rotate_z; cbv zeta; apply vec_eq; cbn [vx vy vz]; ring).
    assert (EA : cos (- atan2 (vy (rotate_z d J)) (vx (rotate_z d J)) + d) = cos (- atan2 (vy J) (vx J)) /\ sin (- atan2 (vy (rotate_z d J)) (vx (rotate_z d J)) + d) = sin (- atan2 (vy J) (vx J))).
    { destruct (atan2_turn (vx J) (vy J) d HN) as [A B]. unfold rotate_z. cbn [vx vy]. set (a := atan2 (vx J * sin d + vy J * cos d) _) in *. rewrite cos_plus, sin_plus, !cos_neg, !sin_neg, A, B, cos_plus, sin_plus. set (b := atan2 (vy J) (vx J)). pose proof (sc d) as S0. 
      split; [transitivity (cos b * (sin d * sin d + cos d * cos d)); [ring|rewrite S0; ring]|transitivity (- sin b * (sin d * sin d + cos d * cos d)); [ring|rewrite S0; ring]]. }
    assert (NJ : vnorm (rotate_z d J) = vnorm J) by (unfold vnorm; rewrite (rot_dot _ (rotate_z_rot d)); reflexivity). assert (ZJ : vz (rotate_z d J) = vz J) by reflexivity.
    assert (TJ : forall v, rotate_y (- acos (vz (rotate_z d J) / vnorm (rotate_z d J))) (rotate_z (- atan2 (vy (rotate_z d J)) (vx (rotate_z d J))) (rotate_z d v)) = rotate_y (- acos (vz J / vnorm J)) (rotate_z (- atan2 (vy J) (vx J)) v)).
    { intros v. rewrite NJ, ZJ, rotate_z_add. f_equal. apply rotate_z_cs; apply EA. }
    assert (EN : direction incl (PI / 2 - (phic - d)) = rotate_z d (direction incl (PI / 2 - phic))) by (rewrite rotate_z_direction; f_equal; ring).
    assert (EX : pp_X (phic - d) incl = rotate_z d (pp_X phic incl)) by (unfold pp_X, rotate_z; rewrite cos_minus, sin_minus; apply vec_eq; cbn [vx vy vz]; ring).
    assert (EZ : V 0 0 1 = rotate_z d (V 0 0 1)) by (unfold rotate_z; apply vec_eq; cbn [vx vy vz]; ring).
    assert (ER : forall v, pp_rot m1 m2 f_ref (phic - d) incl (rotate_z d s2) (rotate_z d s1) (rotate_z d v) = pp_rot m1 m2 f_ref phic incl s2 s1 v).
    { intros v. unfold pp_rot. rewrite EJ. fold J. rewrite EN, !TJ. reflexivity. }
    rewrite EN in G4, G7. rewrite EX in G7. rewrite EZ in G5. rewrite ER in G4, G5. cbv zeta in G7. rewrite (ER (pp_X phic incl)), (ER (direction incl (PI / 2 - phic))) in G7. cbv zeta in F7.
    split; [rewrite G1, F1; reflexivity|]. split; [rewrite G2, F2; reflexivity|].
    assert (PP : forall s, vx (rotate_z d s) ^ 2 + vy (rotate_z d s) ^ 2 = vx s ^ 2 + vy s ^ 2).
    { intros s. unfold rotate_z. cbn [vx vy]. pose proof (sc d) as S0. transitivity ((vx s ^ 2 + vy s ^ 2) * (sin d * sin d + cos d * cos d)); [ring|rewrite S0; ring]. }
    split; [rewrite G3, F3; unfold pp_chip; rewrite !PP; reflexivity|]. split; [rewrite G4, F4; reflexivity|]. split; [rewrite G5, F5; reflexivity|]. split; [rewrite G7, F7; reflexivity|].
    rewrite EJ in G6. destruct EA as [A B]. rewrite <- G6, <- F6 in A, B.
    assert (C2 : cos (2 * pc_phi_aligned c - 2 * d) = cos (2 * pc_phi_aligned c') /\ sin (2 * pc_phi_aligned c - 2 * d) = sin (2 * pc_phi_aligned c')).
    { replace (2 * pc_phi_aligned c') with (2 * (pc_phi_aligned c' + d) - 2 * d) by ring. rewrite !cos_minus, !sin_minus, !(cos_2a (_ + d)), !(sin_2a (_ + d)), A, B, <- cos_2a, <- sin_2a. split; reflexivity. }
    split; symmetry; apply C2. }
  unfold pp_one. destruct (components mc q) as [ml ms]. cbn [fst snd] in HJ. specialize (PG ms ml HJ). cbv zeta in *. 
  destruct PG as (P1 & P2 & P3 & P4 & P5 & P6 & P7 & P8). rewrite P1, P2, P3, P4, P5, P6.
  set (c := convert_spins ms ml f_ref phic incl s2 s1) in *. set (c' := convert_spins ms ml f_ref (phic - d) incl (rotate_z d s2) (rotate_z d s1)) in *.
  unfold PhenomPOne. cbv zeta. destruct (phP_fRD_fdamp _ _ _ _ _) as [[a b]|e]; [|reflexivity]. cbn [bind rmap].
  set (p := mkd _ _ _ _ _ _ _ _ _ _ _). set (ph := fst (pd_phase p _)). set (A := get_Amp0 _ _ * _ * _ / _). set (D := diffRD p _ _). clearbody ph A D.
  assert (HH : (A * cos (- (ph - (2 * pc_phi_aligned c' + PI / 4))), A * sin (- (ph - (2 * pc_phi_aligned c' + PI / 4)))) = Cmult (cis_ (- (2 * d))) (A * cos (- (ph - (2 * pc_phi_aligned c + PI / 4))), A * sin (- (ph - (2 * pc_phi_aligned c + PI / 4))))).
  { replace (- (ph - (2 * pc_phi_aligned c' + PI / 4))) with (2 * pc_phi_aligned c' + (PI / 4 - ph)) by ring. rewrite cos_plus, sin_plus, P7, P8, <- cos_plus, <- sin_plus. 
    replace (2 * pc_phi_aligned c - 2 * d + (PI / 4 - ph)) with (- (2 * d) + - (ph - (2 * pc_phi_aligned c + PI / 4))) by ring. rewrite cos_plus, sin_plus. unfold cis_, Cmult. cbn [fst snd]. f_equal; ring. }
  rewrite HH. unfold TwistUp. cbv zeta. destruct (Wignerd _ _ _ _) as [cB sB]. set (T2 := T2m _ _ _ _). set (Tm := Tm2m _ _ _ _). set (z1 := RtoC (cos (2 * pc_zeta _))). set (z2 := RtoC (sin (2 * pc_zeta _))). set (c2 := (cos _, - sin _) : Complex.C). set (g := cis_ (- (2 * d))). set (e := cis_ (- (2 * _))). 
  set (c1 := cis_ (- (f * _ * tc))). cbn [rmap]. unfold times. cbn [fst snd].
  set (h := (A * cos _, A * sin _) : Complex.C). unfold Cdiv. set (i2 := Cinv (RtoC 2)). clearbody T2 Tm e z1 z2 c1 c2 h i2 g. f_equal. f_equal; ring.
Qed.

(** ** aligned spins against IMRPhenomD *)
(** the amplitude factors differ, below the first join, by the terms whose squared spins are handed over in the wrong order *)
Definition swap_term (p : dpar) (x : R) : R := 2 * d_Seta p * (d_chi12 p - d_chi22 p) * (10287648 / 8128512 * Rpower (PI * x) (4 / 3) + (PI * x) ^ 2 * (927448486272 * d_eta p - 751898325024) / 60085960704).
Lemma cube_parts x : 0 < x -> Rpower x (1 / 3) * Rpower x (1 / 3) * (Rpower x (1 / 3) * Rpower x (1 / 3)) = Rpower x (4 / 3).
Proof. intros H. rewrite <- !Rpower_plus. f_equal. field. Qed.
Theorem swap_amplitude p x : 0 < x <= amp_join -> amp_join < pd_peak p -> fst (pd_amp (swap_squares p) x) = fst (pd_amp p x) + swap_term p x.
Proof.
  intros Hx HK. pose proof PI_RGT_0 as HP. unfold pd_amp. cbn [fst]. change (pd_peak (swap_squares p)) with (pd_peak p).
  assert (L : le_ x amp_join = true) by (unfold le_; destruct (Rle_dec x amp_join); [reflexivity|lra]). assert (G : gt_ x amp_join = false) by (unfold gt_; destruct (Rlt_dec amp_join x); [lra|reflexivity]).
  assert (G2 : gt_ x (pd_peak p) = false) by (unfold gt_; destruct (Rlt_dec (pd_peak p) x); [lra|reflexivity]). rewrite L, G, G2. unfold theta.
  unfold swap_term. rewrite <- Rpower_mult_distr by lra. rewrite <- (cube_parts x) by lra. rewrite !Rmult_0_l, !Rplus_0_r, !Rmult_1_l.
  unfold ins_amp, swap_squares. cbn [fst d_eta d_Seta d_xi d_chi1 d_chi2 d_chi12 d_chi22]. unfold prefactors_two_thirds, prefactors_four_thirds, prefactors_five_thirds, prefactors_seven_thirds, prefactors_eight_thirds, prefactors_one, prefactors_two, prefactors_three. cbv zeta.
  set (r1 := rho1_fun _ _ _). set (r2 := rho2_fun _ _ _). set (r3 := rho3_fun _ _ _). set (t := Rpower x (1 / 3)). set (P43 := Rpower PI (4 / 3)). set (P23 := Rpower PI (2 / 3)). set (P53 := Rpower PI (5 / 3)). set (pp := PI). set (a := d_chi12 p). set (b := d_chi22 p). set (e := d_eta p). set (s := d_Seta p). set (c1 := d_chi1 p). set (c2 := d_chi2 p). clearbody r1 r2 r3 t P43 P23 P53 pp a b e s c1 c2. field.
Qed.
Lemma swap_bracket eta x : 0 < eta <= 1 / 4 -> 0 < x <= 8 / 1000 -> 0 < 10287648 / 8128512 * Rpower (PI * x) (4 / 3) + (PI * x) ^ 2 * (927448486272 * eta - 751898325024) / 60085960704.
Proof.
  intros He Hx. pose proof PI_RGT_0 as HP. pose proof PI_4 as H4. assert (Hu : 0 < PI * x <= 32 / 1000) by (split; nra). set (u := PI * x) in *. clearbody u. set (v := Rpower u (1 / 3)). assert (Pv : 0 < v) by apply Rpower_pos.
  assert (E4 : Rpower u (4 / 3) = v * v * (v * v)) by (symmetry; apply cube_parts; lra). assert (E3 : v * v * v = u) by (unfold v; rewrite <- !Rpower_plus; replace (1 / 3 + 1 / 3 + 1 / 3) with 1 by field; apply Rpower_1; lra).
  rewrite E4, <- E3. assert (Hv : v <= 3175 / 10000). { destruct (Rle_dec v (3175 / 10000)) as [K|K]; [exact K|]. exfalso. assert (K' : 3175 / 10000 < v) by lra. assert (3175 / 10000 * (3175 / 10000) < v * v) by nra. assert (3175 / 10000 * (3175 / 10000) * (3175 / 10000) < v * v * v) by nra. lra. }
  set (y := v * v). assert (Hy : 0 < y <= 1009 / 10000) by (unfold y; split; nra). replace ((y * v) ^ 2) with (y * y * y) by (unfold y; ring). clearbody y.
  replace (10287648 / 8128512 * (y * y) + y * y * y * (927448486272 * eta - 751898325024) / 60085960704) with (y * y * (10287648 / 8128512 - y * ((751898325024 - 927448486272 * eta) / 60085960704))) by field.
  apply Rmult_lt_0_compat; [nra|]. assert (0 <= (751898325024 - 927448486272 * eta) / 60085960704 <= 1252 / 100) by lra. set (k := (751898325024 - 927448486272 * eta) / 60085960704) in *. clearbody k. nra.
Qed.
Lemma amp_small P : amp_join < pd_peak P -> exists K, 0 < K /\ forall y, 0 < y <= amp_join -> Rabs (fst (pd_amp P y) - 1) <= K * Rpower y (1 / 3).
Proof.
  intros HK.
  set (pre := fun F : R -> R -> R -> R -> R -> R -> R -> R -> R => F (d_eta P) (d_eta P * d_eta P) (d_Seta P) (d_xi P) (d_chi1 P) (d_chi2 P) (d_chi12 P) (d_chi22 P)).
  set (K := Rabs (pre prefactors_two_thirds) + Rabs (pre prefactors_four_thirds) + Rabs (pre prefactors_five_thirds) + Rabs (pre prefactors_seven_thirds) + Rabs (pre prefactors_eight_thirds) + Rabs (pre prefactors_one) + Rabs (pre prefactors_two) + Rabs (pre prefactors_three)).
  exists (K + 1). pose proof (Rabs_pos (pre prefactors_two_thirds)). pose proof (Rabs_pos (pre prefactors_four_thirds)). pose proof (Rabs_pos (pre prefactors_five_thirds)). pose proof (Rabs_pos (pre prefactors_seven_thirds)). pose proof (Rabs_pos (pre prefactors_eight_thirds)). pose proof (Rabs_pos (pre prefactors_one)). pose proof (Rabs_pos (pre prefactors_two)). pose proof (Rabs_pos (pre prefactors_three)).
  split; [unfold K; lra|]. intros y Hy. unfold amp_join in *.
  assert (EP : fst (pd_amp P y) = fst (ins_amp P y)).
  { unfold pd_amp. cbn [fst]. assert (L : le_ y amp_join = true) by (unfold le_, amp_join; destruct (Rle_dec y (14 / 1000)); [reflexivity|lra]). assert (G : gt_ y amp_join = false) by (unfold gt_, amp_join; destruct (Rlt_dec (14 / 1000) y); [lra|reflexivity]).
    assert (G2 : gt_ y (pd_peak P) = false) by (unfold gt_; destruct (Rlt_dec (pd_peak P) y); [lra|reflexivity]). rewrite L, G, G2. unfold theta. ring. }
  rewrite EP. unfold ins_amp. cbv zeta. cbn [fst]. repeat match goal with |- context [?F (d_eta P) (d_eta P * d_eta P) (d_Seta P) (d_xi P) (d_chi1 P) (d_chi2 P) (d_chi12 P) (d_chi22 P)] => change (F (d_eta P) (d_eta P * d_eta P) (d_Seta P) (d_xi P) (d_chi1 P) (d_chi2 P) (d_chi12 P) (d_chi22 P)) with (pre F) end.
  set (t := Rpower y (1 / 3)). assert (T0 : 0 < t) by apply Rpower_pos. assert (T3 : t * t * t = y) by (unfold t; rewrite <- !Rpower_plus; replace (1 / 3 + 1 / 3 + 1 / 3) with 1 by field; apply Rpower_1; lra).
  assert (T1 : t <= 1). { destruct (Rle_dec t 1); [assumption|]. exfalso. assert (1 < t) by lra. assert (1 < t * t) by nra. nra. }
  rewrite <- T3. set (a2 := pre prefactors_two_thirds) in *. set (a4 := pre prefactors_four_thirds) in *. set (a5 := pre prefactors_five_thirds) in *. set (a7 := pre prefactors_seven_thirds) in *. set (a8 := pre prefactors_eight_thirds) in *. set (b1 := pre prefactors_one) in *. set (b2 := pre prefactors_two) in *. set (b3 := pre prefactors_three) in *.
  clearbody a2 a4 a5 a7 a8 b1 b2 b3 t. match goal with |- Rabs ?e <= _ => replace e with (t * (t * a2 + t ^ 3 * a4 + t ^ 4 * a5 + t ^ 6 * a7 + t ^ 7 * a8 + t ^ 2 * b1 + t ^ 5 * b2 + t ^ 8 * b3)) by ring end.
  rewrite Rabs_mult, (Rabs_right t), (Rmult_comm (K + 1)) by lra. apply Rmult_le_compat_l; [lra|].
  assert (TP : forall n c, Rabs (t ^ n * c) <= Rabs c). { intros n c. rewrite Rabs_mult. assert (0 <= t ^ n <= 1). { split; [apply pow_le; lra|]. rewrite <- (pow1 n). apply pow_incr. lra. } rewrite (Rabs_right (t ^ n)) by lra. pose proof (Rabs_pos c). nra. }
  pose proof (TP 1%nat a2) as Q2. rewrite pow_1 in Q2. pose proof (TP 3%nat a4) as Q4. pose proof (TP 4%nat a5) as Q5. pose proof (TP 6%nat a7) as Q7. pose proof (TP 7%nat a8) as Q8. pose proof (TP 2%nat b1) as R1. pose proof (TP 5%nat b2) as R2. pose proof (TP 8%nat b3) as R3.
  assert (TRI : forall u v U W, Rabs u <= U -> Rabs v <= W -> Rabs (u + v) <= U + W) by (intros u v U W A B; eapply Rle_trans; [apply Rabs_triang|lra]).
  apply Rle_trans with K; [|lra]. unfold K. pose proof (TRI _ _ _ _ (TRI _ _ _ _ (TRI _ _ _ _ (TRI _ _ _ _ (TRI _ _ _ _ (TRI _ _ _ _ (TRI _ _ _ _ Q2 Q4) Q5) Q7) Q8) R1) R2) R3) as Z. exact Z.
Qed.
Section VsD.
Variables mc q chi1 chi2 f_ref incl dist : R.
Hypothesis Hm : 0 < mc.
Hypothesis Hq : 0 < q <= 1.
Hypothesis H1 : - 1 <= chi1 <= 1.
Hypothesis H2 : - 1 <= chi2 <= 1.
Hypothesis HJ : 0 < vz (pp_J mc q f_ref (up chi1) (up chi2)).
Hypothesis Hi : 0 < incl < PI.
Hypothesis Hd : 0 < dist.
Let P := pd_params mc q chi1 chi2.
Let x f := pp_mass mc q * f.
(** up to a constant phase and a time shift, the two polarisations are those of IMRPhenomD times the ratio of amplitude factors *)
Theorem pp_aligned_vs_D phicP phicD tc : exists a b, forall f, 0 < f -> exists hc hp, pp_one f mc q (up chi1) (up chi2) dist phicP incl f_ref tc = Ok (hc, hp) /\
  let D := pd_one f mc q chi1 chi2 dist phicD incl f_ref in let u := Cmult (cis_ (a + b * f)) (RtoC (fst (pd_amp (swap_squares P) (x f)))) in let r := RtoC (fst (pd_amp P (x f))) in
  Cmult r hc = Cmult u (fst D) /\ Cmult r hp = Cmult u (snd D).
Proof.
  set (pk := snd (mrd_phase P (pd_peak P))).
  assert (EM : pp_mass mc q = pd_total mc q * MTSUN_SI). { destruct (pd_masses mc q chi1 chi2 Hm ltac:(lra)) as (E1 & _ & E3). unfold pp_mass. rewrite <- E1. cbn [fst snd]. rewrite E3. reflexivity. }
  exists (PI / 4 + PI - 2 * phicD - pd_phase_of mc q chi1 chi2 f_ref), (- (diffRD P (pp_mass mc q) (d_fRD P / pp_mass mc q) + pp_mass mc q * tc) - pp_mass mc q * pk).
  intros f Hf. pose proof (pp_aligned_form mc q chi1 chi2 f_ref phicP incl Hm Hq H1 H2 HJ Hi dist tc Hd f Hf) as PA. cbv zeta in PA. rewrite PA. eexists. eexists. split; [reflexivity|]. cbv zeta. fold P. unfold pd_one. cbn [fst snd].
  rewrite (pd_htilde_spec mc q chi1 chi2 Hm ltac:(lra) H1 H2 f dist phicD f_ref Hf Hd). fold P. rewrite <- EM. unfold x. set (A := spa_amplitude f mc dist). set (m := fst (pd_amp P _)). set (m' := fst (pd_amp (swap_squares P) _)).
  set (th := 2 * phicD - _). set (ph := _ + _ * f).
  assert (EP : al_phase mc q chi1 chi2 tc f + PI = ph + th).
  { unfold al_phase, ph, th, pd_phase_of. fold P. fold pk. rewrite <- EM. ring. }
  assert (EH : (A * m * cos th, A * m * sin th) = Cmult (RtoC (A * m)) (cis_ th)) by (unfold cis_, Cmult, RtoC; cbn [fst snd]; f_equal; ring). rewrite EH.
  assert (EC : Cmult (RtoC m) (Cmult (RtoC (- (A * m'))) (cis_ (al_phase mc q chi1 chi2 tc f))) = Cmult (Cmult (cis_ ph) (RtoC m')) (Cmult (RtoC (A * m)) (cis_ th))).
  { transitivity (Cmult (RtoC (A * m * m')) (Cmult (cis_ ph) (cis_ th))); [|rewrite !RtoC_mult; ring]. rewrite cis_mul, <- EP, <- cis_mul. replace (cis_ PI) with (RtoC (- (1))) by (unfold cis_, RtoC; rewrite cos_PI, sin_PI; f_equal; ring). rewrite !RtoC_mult, !RtoC_opp, !RtoC_mult. ring. }
  replace (5 / 10 * (1 + cos incl * cos incl)) with ((1 + cos incl ^ 2) / 2) by field. set (h1 := Cmult (RtoC (- (A * m'))) (cis_ (al_phase mc q chi1 chi2 tc f))) in *. set (h2 := Cmult (RtoC (A * m)) (cis_ th)) in *.
  split; [transitivity (Copp (Cmult Ci (Cmult (Cmult (RtoC m) h1) (RtoC (cos incl))))); [ring|]; rewrite EC; ring|transitivity (Cmult (Cmult (RtoC m) h1) (RtoC ((1 + cos incl ^ 2) / 2))); [ring|]; rewrite EC; ring].
Qed.
(** the amplitude factors agree for equal masses or equal spin magnitudes, so then it is the same waveform *)
Lemma Seta_zero : q = 1 -> d_Seta P = 0.
Proof. intros E. unfold P. unfold pd_params. assert (EE : pd_eta mc q = 1 / 4) by (rewrite pd_eta_spec by lra; rewrite E; field). rewrite EE. replace (1 - 4 * (1 / 4)) with 0 by lra. rewrite Rmax_left, sqrt_0 by lra. destruct (fring_fdamp _ _ _). reflexivity. Qed.
Lemma swap_same : q = 1 \/ chi1 ^ 2 = chi2 ^ 2 -> forall y, pd_amp (swap_squares P) y = pd_amp P y.
Proof.
  intros H. assert (IA : forall y, ins_amp (swap_squares P) y = ins_amp P y).
  { destruct H as [H|H].
    - intros y. pose proof (Seta_zero H) as E. unfold ins_amp, swap_squares. cbn [d_eta d_Seta d_xi d_chi1 d_chi2 d_chi12 d_chi22]. rewrite E. unfold prefactors_two_thirds, prefactors_four_thirds, prefactors_five_thirds, prefactors_seven_thirds, prefactors_eight_thirds, prefactors_one, prefactors_two, prefactors_three. cbv zeta. unfold Rdiv. f_equal; ring.
    - assert (E : swap_squares P = P). { unfold P, swap_squares, pd_params. destruct (fring_fdamp _ _ _). cbn [d_m1 d_m2 d_eta d_Seta d_chi1 d_chi2 d_chi12 d_chi22 d_xi d_fRD d_fDM]. f_equal; lra. } rewrite E. reflexivity. }
  destruct (pd_depends (swap_squares P) P) as (_ & D & _); [reflexivity|reflexivity|reflexivity|reflexivity|reflexivity|exact IA|]. exact D.
Qed.
Theorem pp_aligned_same phicP phicD tc : q = 1 \/ chi1 ^ 2 = chi2 ^ 2 -> exists a b, forall f, 0 < f -> fst (pd_amp P (x f)) <> 0 -> 
  pp_one f mc q (up chi1) (up chi2) dist phicP incl f_ref tc = Ok (times (cis_ (a + b * f)) (pd_one f mc q chi1 chi2 dist phicD incl f_ref)).
Proof.
  intros H. destruct (pp_aligned_vs_D phicP phicD tc) as (a & b & K). exists a, b. intros f Hf HN. destruct (K f Hf) as (hc & hp & E & E1 & E2). rewrite E. f_equal. cbv zeta in E1, E2. rewrite (swap_same H) in E1, E2. unfold times.
  set (r := RtoC (fst (pd_amp P (x f)))) in *. assert (NR : r <> RtoC 0) by (intros Q; apply RtoC_inj in Q; contradiction).
  assert (CAN : forall z w : Complex.C, Cmult r z = Cmult (Cmult (cis_ (a + b * f)) r) w -> z = Cmult (cis_ (a + b * f)) w).
  { intros z w EQ. transitivity (Cmult (Cmult (Cinv r) r) z); [rewrite Cinv_l by exact NR; ring|]. rewrite <- Cmult_assoc, EQ. transitivity (Cmult (Cmult (Cinv r) r) (Cmult (cis_ (a + b * f)) w)); [ring|]. rewrite Cinv_l by exact NR. ring. }
  rewrite (CAN hc _ E1), (CAN hp _ E2). reflexivity.
Qed.
(** otherwise it is not, at any low enough frequency *)
Theorem pp_aligned_amplitude_refuted : q < 1 -> chi1 ^ 2 <> chi2 ^ 2 -> exists f0, 0 < f0 /\ forall f phicP phicD tc hc hp, 0 < f < f0 -> pp_one f mc q (up chi1) (up chi2) dist phicP incl f_ref tc = Ok (hc, hp) ->
  Cmod hp <> Cmod (snd (pd_one f mc q chi1 chi2 dist phicD incl f_ref)).
Proof.
  intros Hq1 HC. assert (HK : amp_join < pd_peak P) by (apply (pd_joins mc q chi1 chi2 Hm ltac:(lra) H1 H2)). destruct (amp_small P HK) as (K1 & PK1 & HB1). destruct (amp_small (swap_squares P) HK) as (K2 & PK2 & HB2). set (K := K1 + K2). set (M := pp_mass mc q). assert (PM : 0 < M) by (apply (Ms_pp_pos mc q (up chi1) (up chi2) Hm Hq)).
  assert (PK : 0 < K) by (unfold K; lra).
  set (y0 := / (4 * K + 5)). assert (P0 : 0 < y0) by (apply Rinv_0_lt_compat; lra).
  set (x0 := Rmin (8 / 1000) (y0 * y0 * y0)). assert (PX : 0 < x0) by (unfold x0; apply Rmin_glb_lt; [lra|repeat apply Rmult_lt_0_compat; assumption]).
  exists (x0 / M). split; [apply Rdiv_lt_0_compat; assumption|]. intros f phicP phicD tc hc hp Hf E.
  assert (Hx : 0 < M * f < x0). { split; [nra|]. apply Rmult_lt_reg_r with (/ M); [apply Rinv_0_lt_compat, PM|]. replace (M * f * / M) with f by (field; lra). apply Hf. }
  assert (X1 : M * f <= 8 / 1000) by (pose proof (Rmin_l (8 / 1000) (y0 * y0 * y0)); fold x0 in H; lra). assert (X2 : M * f < y0 * y0 * y0) by (pose proof (Rmin_r (8 / 1000) (y0 * y0 * y0)); fold x0 in H; lra).
  destruct (pp_aligned_vs_D phicP phicD tc) as (a & b & KK). destruct (KK f (proj1 Hf)) as (hc' & hp' & E' & _ & E2). rewrite E in E'. injection E' as <- <-. cbv zeta in E2. fold M in E2. unfold x in E2. fold M in E2. set (y := M * f) in *.
  assert (HS := swap_amplitude P y ltac:(unfold amp_join; lra) HK). specialize (HB1 y ltac:(unfold amp_join; lra)). specialize (HB2 y ltac:(unfold amp_join; lra)).
  assert (T1 : Rpower y (1 / 3) < y0). { destruct (Rlt_dec (Rpower y (1 / 3)) y0) as [L|L]; [exact L|]. exfalso. set (t := Rpower y (1 / 3)) in *. assert (T3 : t * t * t = y) by (unfold t; rewrite <- !Rpower_plus; replace (1 / 3 + 1 / 3 + 1 / 3) with 1 by field; apply Rpower_1; lra). assert (y0 <= t) by lra. assert (y0 * y0 <= t * t) by nra. assert (y0 * y0 * y0 <= t * t * t) by nra. lra. }
  assert (KY : K * y0 <= 1 / 4). { unfold y0. apply Rmult_le_reg_r with (4 * K + 5); [lra|]. rewrite Rmult_assoc, Rinv_l by lra. lra. }
  assert (TY : 0 < Rpower y (1 / 3)) by apply Rpower_pos. assert (HB' : Rabs (fst (pd_amp P y) - 1) < 1 / 2) by (unfold K in KY; nra). apply Rabs_def2 in HB'. assert (HB2' : Rabs (fst (pd_amp (swap_squares P) y) - 1) < 1 / 2) by (unfold K in KY; nra). apply Rabs_def2 in HB2'.
  assert (EE : d_eta P = pd_eta mc q /\ d_Seta P = sqrt (Rmax (1 - 4 * pd_eta mc q) 0) /\ d_chi12 P = chi1 * chi1 /\ d_chi22 P = chi2 * chi2) by (unfold P, pd_params; destruct (fring_fdamp _ _ _); repeat split; reflexivity).
  destruct EE as (EE & ES & EC1 & EC2). pose proof (p_eta_range mc q Hm ltac:(lra)) as HE. assert (EQ := pd_eta_spec mc q Hm ltac:(lra)).
  assert (PS : 0 < d_Seta P). { rewrite ES. apply sqrt_lt_R0. apply Rlt_le_trans with (1 - 4 * pd_eta mc q); [|apply Rmax_l]. rewrite EQ. replace (1 - 4 * (q / (1 + q) ^ 2)) with (((1 - q) / (1 + q)) ^ 2) by (field; lra). apply pow_lt. apply Rdiv_lt_0_compat; lra. }
  assert (SW : swap_term P y <> 0). { unfold swap_term. rewrite EE. apply Rmult_integral_contrapositive_currified; [|apply Rgt_not_eq, swap_bracket; lra]. apply Rmult_integral_contrapositive_currified; [lra|]. rewrite EC1, EC2. intros Z. apply HC. lra. }
  set (hD := snd (pd_one f mc q chi1 chi2 dist phicD incl f_ref)) in *.
  assert (ND : 0 < Cmod hD). { pose proof (pd_polarisations mc q chi1 chi2 Hm ltac:(lra) H1 H2 f dist phicD incl f_ref (proj1 Hf) Hd) as PP. unfold hD. destruct (pd_one f mc q chi1 chi2 dist phicD incl f_ref) as [u v]. cbn [snd]. destruct PP as (PP & _). rewrite PP.
    assert (EM : pp_mass mc q = pd_total mc q * MTSUN_SI). { destruct (pd_masses mc q chi1 chi2 Hm ltac:(lra)) as (E1 & _ & E3). unfold pp_mass. rewrite <- E1. cbn [fst snd]. rewrite E3. reflexivity. }
    rewrite <- EM. fold M. fold y. fold P. pose proof (spa_pos f mc dist Hd). apply Rmult_lt_0_compat; [|pose proof (pow2_ge_0 (cos incl)); lra]. apply Rmult_lt_0_compat; [assumption|]. apply Rabs_pos_lt. lra. }
  pose proof (f_equal Cmod E2) as E3. rewrite !Cmod_mult, !Cmod_R, cis_mod, Rmult_1_l in E3. intros Q. rewrite Q in E3. apply Rmult_eq_reg_r in E3; [|lra]. rewrite HS in E3.
  set (m := fst (pd_amp P y)) in *. rewrite (Rabs_right m) in E3 by lra. rewrite HS in HB2'. rewrite (Rabs_right (m + swap_term P y)) in E3 by lra. apply SW. lra.
Qed.
End VsD.
(** for aligned spins the reference phase has no effect at all (it turns the IMRPhenomD waveform by twice the angle) *)
Theorem pp_phic_ignored_refuted mc q chi1 chi2 f_ref incl dist tc phic phic' f : 0 < mc -> 0 < q <= 1 -> - 1 <= chi1 <= 1 -> - 1 <= chi2 <= 1 -> 0 < vz (pp_J mc q f_ref (up chi1) (up chi2)) -> 0 < incl < PI -> 0 < dist -> 0 < f ->
  pp_one f mc q (up chi1) (up chi2) dist phic incl f_ref tc = pp_one f mc q (up chi1) (up chi2) dist phic' incl f_ref tc.
Proof.
  intros Hm Hq H1 H2 HJ Hi Hd Hf. pose proof (pp_aligned_form mc q chi1 chi2 f_ref phic incl Hm Hq H1 H2 HJ Hi dist tc Hd f Hf) as A. pose proof (pp_aligned_form mc q chi1 chi2 f_ref phic' incl Hm Hq H1 H2 HJ Hi dist tc Hd f Hf) as B. cbv zeta in A, B. rewrite A, B. reflexivity.
Qed.

(** ** the phase slope removed at ringdown *)
Lemma mean_value_of (g : R -> R) a b : (forall t, Rmin a b <= t <= Rmax a b -> continuity_pt g t) -> exists c, Rmin a b <= c <= Rmax a b /\ g c = (g a + g b) / 2.
Proof.
  revert a b. assert (W : forall a b, a < b -> (forall t, a <= t <= b -> continuity_pt g t) -> exists c, a <= c <= b /\ g c = (g a + g b) / 2).
  { intros a b L HC. destruct (Rle_dec (g a) (g b)) as [O|O].
    - destruct (f_interv_is_interv g a b ((g a + g b) / 2) L ltac:(lra) HC) as (c & A & B). exists c. split; assumption.
    - destruct (f_interv_is_interv (fun t => - g t) a b (- ((g a + g b) / 2)) L ltac:(lra)) as (c & A & B); [intros t Ht; apply (continuity_pt_opp g t (HC t Ht))|]. exists c. split; [assumption|lra]. }
  intros a b HC. destruct (Rtotal_order a b) as [L|[L|L]].
  - rewrite Rmin_left, Rmax_right in * by lra. apply W; assumption.
  - subst b. exists a. rewrite Rmin_left, Rmax_left by lra. split; [lra|field].
  - rewrite Rmin_right, Rmax_left in * by lra. destruct (W b a L HC) as (c & A & B). exists c. split; [assumption|]. rewrite B. field.
Qed.
Theorem pp_ringdown_slope mc q s1 s2 : pp_physical mc q s1 s2 ->
  let p := pp_params mc q s1 s2 in let M := pp_mass mc q in let fRD := d_fRD p / M in
  exists fr, Rabs (fr / fRD - 1) <= 7 / 10000 /\ is_derive (fun f => fst (pd_phase p (M * f)) + f * diffRD p M fRD) fr 0.
Proof.
  intros (Hm & Hq & B1 & B2) p M fRD. assert (PM : 0 < M) by (apply (Ms_pp_pos mc q s1 s2 Hm Hq)). destruct (pp_ringdown mc q s1 s2 Hm Hq B1 B2) as (R1 & _). fold p in R1. assert (PF : 0 < fRD) by (apply Rdiv_lt_0_compat; lra).
  pose proof (pp_phase_C1 mc q s1 s2 Hm Hq B1 B2) as C. fold p in C. set (phi := fun f => fst (pd_phase p (M * f))). set (dphi := fun f => M * pd_slope p (M * f)).
  assert (D : forall f, 0 < f -> is_derive phi f (dphi f) /\ continuity_pt dphi f).
  { intros f Hf. destruct (C (M * f) ltac:(nra)) as [A B]. split.
    - unfold phi, dphi. apply (is_derive_comp (V := R_NormedModule) (fun y => fst (pd_phase p y)) (fun f => M * f)); [exact A|]. auto_derive; [exact I|ring].
    - apply continuity_pt_filterlim. unfold dphi. apply (continuous_mult (K := R_AbsRing) (fun _ => M) (fun f => pd_slope p (M * f))); [apply continuous_const|]. apply (continuous_comp (fun f => M * f) (pd_slope p)); [|exact B]. apply (continuous_mult (K := R_AbsRing) (fun _ => M) (fun f => f)); [apply continuous_const|apply continuous_id]. }
  set (g := fun k : nat => fRD * (8 / 10 + 4 / 10 * INR k / 999)).
  assert (MV : forall j k, (498 <= j)%nat -> (j < k)%nat -> (k <= 501)%nat -> exists c, g 498%nat <= c <= g 501%nat /\ phi (g k) - phi (g j) = dphi c * (g k - g j)).
  { intros j k L1 L2 L3. assert (GM : forall a b : nat, (a <= b)%nat -> g a <= g b). { intros a b Hab. apply le_INR in Hab. unfold g. apply Rmult_le_compat_l; lra. } pose proof (GM 498%nat j L1). pose proof (GM j k ltac:(lia)). pose proof (GM k 501%nat L3). assert (0 < g 498%nat) by (unfold g; apply Rmult_lt_0_compat; [exact PF|]; pose proof (pos_INR 498); lra).
    destruct (MVT_gen phi (g j) (g k) dphi) as (c & A & B).
    - intros x Hx. rewrite Rmin_left in Hx by lra. apply D. lra.
    - intros x Hx. rewrite Rmin_left in Hx by lra. apply continuity_pt_filterlim. apply (ex_derive_continuous (K := R_AbsRing) (V := R_NormedModule)). exists (dphi x). apply D. lra.
    - rewrite Rmin_left, Rmax_right in A by lra. exists c. split; [lra|exact B]. }
  destruct (MV 498%nat 500%nat) as (c1 & C1' & E1); try lia. destruct (MV 499%nat 501%nat) as (c2 & C2' & E2); try lia.
  assert (G0 : 0 < g 498%nat) by (unfold g; apply Rmult_lt_0_compat; [exact PF|]; pose proof (pos_INR 498); lra).
  destruct (mean_value_of dphi c1 c2) as (fr & FR & EF). { intros t Ht. apply D. apply Rlt_le_trans with (Rmin c1 c2); [|apply Ht]. apply Rmin_glb_lt; lra. }
  assert (FB : g 498%nat <= fr <= g 501%nat). { split; [apply Rle_trans with (Rmin c1 c2); [apply Rmin_glb; lra|apply FR]|apply Rle_trans with (Rmax c1 c2); [apply FR|apply Rmax_lub; lra]]. }
  assert (I8 : INR 498 = 498) by (rewrite INR_IZR_INZ; reflexivity). assert (I9 : INR 499 = 499) by (rewrite INR_IZR_INZ; reflexivity). assert (I10 : INR 500 = 500) by (rewrite INR_IZR_INZ; reflexivity). assert (I11 : INR 501 = 501) by (rewrite INR_IZR_INZ; reflexivity).
  exists fr. split.
  { assert (Q : 1 - 7 / 10000 <= fr / fRD <= 1 + 7 / 10000). { unfold g in FB. rewrite I8, I11 in FB. split; apply Rmult_le_reg_r with fRD; try exact PF; unfold Rdiv; rewrite ?Rmult_assoc, ?Rinv_l, ?Rmult_1_r by lra; lra. } apply Rabs_le. lra. }
  assert (ED : diffRD p M fRD = - dphi fr).
  { rewrite EF. unfold diffRD, RDphase. cbv zeta. change (498 + 1)%nat with 499%nat. change (499 + 1)%nat with 500%nat. change (500 + 1)%nat with 501%nat.
    change (fst (pd_phase p (M * (fRD * (8 / 10 + 4 / 10 * INR 498 / 999))))) with (phi (g 498%nat)). change (fst (pd_phase p (M * (fRD * (8 / 10 + 4 / 10 * INR 499 / 999))))) with (phi (g 499%nat)). change (fst (pd_phase p (M * (fRD * (8 / 10 + 4 / 10 * INR 500 / 999))))) with (phi (g 500%nat)). change (fst (pd_phase p (M * (fRD * (8 / 10 + 4 / 10 * INR 501 / 999))))) with (phi (g 501%nat)).
    set (dl := (12 / 10 * fRD - 8 / 10 * fRD) / 999). assert (PD : 0 < dl) by (unfold dl; lra).
    assert (S1 : g 500%nat - g 498%nat = 2 * dl) by (unfold g, dl; rewrite I8, I10; field). assert (S2 : g 501%nat - g 499%nat = 2 * dl) by (unfold g, dl; rewrite I9, I11; field). rewrite S1 in E1. rewrite S2 in E2.
    assert (Q1 : phi (g 500%nat) - phi (g 499%nat) + (phi (g 499%nat) - phi (g 498%nat)) = dphi c1 * (2 * dl)) by lra. assert (Q2 : phi (g 501%nat) - phi (g 500%nat) + (phi (g 500%nat) - phi (g 499%nat)) = dphi c2 * (2 * dl)) by lra. rewrite Q1, Q2. field. lra. }
  rewrite ED. destruct (D fr ltac:(lra)) as [DD _]. replace 0 with (plus (dphi fr) (- dphi fr)) by (unfold plus; cbn; ring).
  apply (is_derive_plus (V := R_NormedModule) phi (fun f => f * - dphi fr)); [exact DD|]. auto_derive; [exact I|ring].
Qed.

(** ** the module on a batch *)
Theorem pp_forward_spec f mc q s1 s2 dist phic incl f_ref tc :
  (forall i, (i < List.length mc)%nat -> pp_physical (nth i mc 0) (nth i q 0) (nth i s1 (V 0 0 0)) (nth i s2 (V 0 0 0)) /\ 0 < nth i dist 0) -> (forall x, In x f -> 0 < x) ->
  exists h, pp_forward f mc q s1 s2 dist phic incl f_ref tc = Ok h /\ List.length h = List.length mc /\
    forall i, (i < List.length mc)%nat -> exists row, nth_error h i = Some row /\ List.length row = List.length f /\
      forall j fj, nth_error f j = Some fj -> exists hh, nth_error row j = Some hh /\
        pp_one fj (nth i mc 0) (nth i q 0) (nth i s1 (V 0 0 0)) (nth i s2 (V 0 0 0)) (nth i dist 0) (nth i phic 0) (nth i incl 0) f_ref (match tc with None => 0 | Some l => nth i l 0 end) = Ok hh.
Proof.
  intros HP HF. set (one := fun (i : nat) (fj : R) => pp_one fj (nth i mc 0) (nth i q 0) (nth i s1 (V 0 0 0)) (nth i s2 (V 0 0 0)) (nth i dist 0) (nth i phic 0) (nth i incl 0) f_ref (match tc with None => 0 | Some l => nth i l 0 end)).
  assert (ROW : forall i, (i < List.length mc)%nat -> exists row, sequence (map (one i) f) = Ok row /\ List.length row = List.length f /\ forall j fj, nth_error f j = Some fj -> exists hh, nth_error row j = Some hh /\ one i fj = Ok hh).
  { intros i Hi. destruct (HP i Hi) as ((A & B & C0 & D) & E). clear HP. induction f as [|x f IH]; [exists []; cbn; repeat split; intros [|j] fj K; discriminate K|].
    destruct IH as (row & S1 & S2 & S3); [intros y Hy; apply HF; right; exact Hy|]. destruct (pp_one_form _ _ f_ref _ _ A B C0 D _ (nth i phic 0) (nth i incl 0) (match tc with None => 0 | Some l => nth i l 0 end) E x (HF x (or_introl eq_refl))) as (hc & hp & EO & _).
    exists ((hc, hp) :: row). cbn [map sequence]. change (one i x) with (pp_one x (nth i mc 0) (nth i q 0) (nth i s1 (V 0 0 0)) (nth i s2 (V 0 0 0)) (nth i dist 0) (nth i phic 0) (nth i incl 0) f_ref (match tc with None => 0 | Some l => nth i l 0 end)). rewrite EO. cbn [bind]. fold (one i). rewrite S1. cbn [bind]. split; [reflexivity|]. split; [cbn [List.length]; lia|].
    intros [|j] fj K; cbn in K; [injection K as <-; exists (hc, hp); split; [reflexivity|exact EO]|cbn [nth_error]; apply S3, K]. }
  assert (ALL : forall n k, (k + n <= List.length mc)%nat -> exists h, sequence (map (fun i => sequence (map (one i) f)) (seq k n)) = Ok h /\ List.length h = n /\ forall i, (i < n)%nat -> exists row, nth_error h i = Some row /\ List.length row = List.length f /\ forall j fj, nth_error f j = Some fj -> exists hh, nth_error row j = Some hh /\ one (k + i)%nat fj = Ok hh).
  { induction n as [|n IH]; intros k Hk; [exists []; cbn; repeat split; intros; lia|]. destruct (IH (Datatypes.S k) ltac:(lia)) as (h & S1 & S2 & S3). destruct (ROW k ltac:(lia)) as (row & R1 & R2 & R3). exists (row :: h). cbn [seq map sequence]. rewrite R1. cbn [bind]. rewrite S1. cbn [bind]. split; [reflexivity|]. split; [cbn; lia|].
    intros [|i] Hi; [exists row; rewrite Nat.add_0_r; split; [reflexivity|split; [exact R2|exact R3]]|]. destruct (S3 i ltac:(lia)) as (r & T1 & T2 & T3). exists r. split; [exact T1|]. split; [exact T2|]. replace (k + Datatypes.S i)%nat with (Datatypes.S k + i)%nat by lia. exact T3. }
  destruct (ALL (List.length mc) 0%nat ltac:(lia)) as (h & S1 & S2 & S3). exists h. split; [exact S1|]. split; [exact S2|]. intros i Hi. destruct (S3 i Hi) as (r & T1 & T2 & T3). exists r. split; [exact T1|]. split; [exact T2|]. exact T3.
Qed.
(** concrete cases: a batch of a precessing and an aligned binary; an aligned binary whose hypotheses above are met *)
Example pp_forward_ex : exists h, pp_forward [20; 40] [10; 30] [1 / 2; 1] [V (3 / 5) 0 (1 / 2); up (1 / 2)] [V 0 (1 / 10) (- (1 / 5)); up (- (1 / 4))] [100; 400] [0; 1] [1; 2] 20 None = Ok h /\ List.length h = 2%nat.
Proof.
  destruct (pp_forward_spec [20; 40] [10; 30] [1 / 2; 1] [V (3 / 5) 0 (1 / 2); up (1 / 2)] [V 0 (1 / 10) (- (1 / 5)); up (- (1 / 4))] [100; 400] [0; 1] [1; 2] 20 None) as (h & E & L & _).
  - intros [|[|i]] Hi; [| |cbn in Hi; lia]; unfold pp_physical, vdot, up; cbn [nth vx vy vz]; lra.
  - intros x [<-|[<-|[]]]; lra.
  - exists h. split; [exact E|exact L].
Qed.
Lemma J_up mc q f_ref c1 c2 : 0 < mc -> 0 < q <= 1 -> 0 <= c1 -> 0 <= c2 -> 0 < vz (pp_J mc q f_ref (up c1) (up c2)).
Proof.
  intros Hm Hq H1 H2. destruct (masses mc q (up c1) (up c2) Hm Hq) as (A & B & _). unfold pp_J, pp_J0, up. cbv zeta. cbn [vx vy vz]. set (ms := snd (components mc q)) in *. set (ml := fst (components mc q)) in *.
  assert (HE : 0 < ms * ml / ((ms + ml) * (ms + ml)) <= 1 / 4). { split; [apply Rdiv_lt_0_compat; nra|]. apply Rmult_le_reg_r with ((ms + ml) * (ms + ml)); [nra|]. unfold Rdiv. rewrite Rmult_assoc, Rinv_l by nra. nra. }
  pose proof (L2PNR_pos (Rpower (PI * ((ms + ml) * MTSUN_SI) * f_ref) (1 / 3)) _ (Rpower_pos _ _) HE) as L. set (l := L2PNR _ _) in *. assert (0 < (ms + ml) * (ms + ml) * l) by (apply Rmult_lt_0_compat; nra). assert (0 <= ms * ms * c2) by (apply Rmult_le_pos; nra). assert (0 <= ml * ml * c1) by (apply Rmult_le_pos; nra). lra.
Qed.
Example pp_vs_D_ex : exists f0, 0 < f0 /\ forall f phicP phicD tc hc hp, 0 < f < f0 -> pp_one f 20 (1 / 2) (up (9 / 10)) (up 0) 100 phicP 1 20 tc = Ok (hc, hp) ->
  Cmod hp <> Cmod (snd (pd_one f 20 (1 / 2) (9 / 10) 0 100 phicD 1 20)).
Proof. apply pp_aligned_amplitude_refuted; try lra; [apply J_up; lra|]. split; [lra|]. pose proof PI2_1 as H. lra. Qed.
