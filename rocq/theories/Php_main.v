(** Property C70: the IMRPhenomPv2 waveform. *)
From Coq Require Import Reals Lra ZArith.
From Coquelicot Require Import Coquelicot.
From Verif Require Import Base Rutil Conv_model Conv_props Wave_props Tf2_model Tf2_props Phd_fits Phd_data Phd_delta Phd_model Phd_props Phd_bounds Phd_main Php_fits Php_model Php_props Php_geom Php_twist Php_core.
Local Open Scope R_scope.

(** ** what "physical" means: chirp mass positive, 0 < mass ratio m2/m1 <= 1, each spin at most extremal *)
Definition pp_physical (mc q : R) (s1 s2 : vec) : Prop := 0 < mc /\ 0 < q <= 1 /\ vdot s1 s1 <= 1 /\ vdot s2 s2 <= 1.
(** the total angular momentum at the reference frequency, and the geometry derived from it *)
Definition pp_J mc q f_ref s1 s2 : vec := pp_J0 (snd (components mc q)) (fst (components mc q)) f_ref s2 s1.
Definition pp_conv mc q f_ref s1 s2 phic incl : pconv := convert_spins (snd (components mc q)) (fst (components mc q)) f_ref phic incl s2 s1.
(** the orbital axis at frequency f, seen from the frame of the total angular momentum *)
Definition pp_axis mc q f_ref s1 s2 phic incl f : vec := direction (acos (pp_cosb mc q s1 s2 f)) (pp_al mc q f_ref s1 s2 phic incl f).
Definition pp_mass mc q : R := (fst (components mc q) + snd (components mc q)) * MTSUN_SI.
(** the amplitude factor *)
Definition pp_factor mc q s1 s2 f : R := fst (pd_amp (pp_params mc q s1 s2) (pp_mass mc q * f)).

Lemma pp_cosb_range mc q s1 s2 f : 0 < pp_cosb mc q s1 s2 f <= 1.
Proof.
  unfold pp_cosb. set (s := _ / (_ + _)). assert (Q : 1 <= sqrt (1 + s ^ 2)). { apply Rle_trans with (sqrt 1); [rewrite sqrt_1; lra|]. apply sqrt_le_1_alt. pose proof (pow2_ge_0 s). lra. }
  split; [apply Rdiv_lt_0_compat; lra|]. apply Rmult_le_reg_r with (sqrt (1 + s ^ 2)); [lra|]. unfold Rdiv. rewrite Rmult_assoc, Rinv_l by lra. lra.
Qed.
Lemma half_angle c : - 1 <= c <= 1 -> sqrt ((1 + c) / 2) = cos (acos c / 2) /\ sqrt ((1 - c) / 2) = sin (acos c / 2).
Proof.
  intros H. pose proof (acos_bound c) as AB. assert (EC : cos (acos c) = c) by (apply cos_acos; exact H). assert (D : cos (acos c) = cos (acos c / 2) * cos (acos c / 2) - sin (acos c / 2) * sin (acos c / 2)) by (rewrite <- cos_2a; f_equal; field).
  rewrite EC in D. pose proof (sc (acos c / 2)) as S. assert (P1 : 0 <= cos (acos c / 2)) by (apply cos_ge_0; lra). assert (P2 : 0 <= sin (acos c / 2)) by (apply sin_ge_0; lra).
  split; [rewrite <- (sqrt_square (cos (acos c / 2))) by exact P1|rewrite <- (sqrt_square (sin (acos c / 2))) by exact P2]; f_equal; nra.
Qed.
Lemma parallelogram (z w : Complex.C) : Cmod (Cplus z w) ^ 2 + Cmod (Cminus z w) ^ 2 = 2 * (Cmod z ^ 2 + Cmod w ^ 2).
Proof. replace (Cmod (Cplus z w) ^ 2) with (Cmod (Cplus z w) * Cmod (Cplus z w)) by ring. replace (Cmod (Cminus z w) ^ 2) with (Cmod (Cminus z w) * Cmod (Cminus z w)) by ring. replace (Cmod z ^ 2) with (Cmod z * Cmod z) by ring. replace (Cmod w ^ 2) with (Cmod w * Cmod w) by ring. rewrite !Cmod2. unfold Cminus, Cplus, Copp. cbn [fst snd]. ring. Qed.
Lemma Ci_mod : Cmod Ci = 1. Proof. unfold Cmod, Ci. cbn [fst snd]. replace (0 ^ 2 + 1 ^ 2) with 1 by ring. apply sqrt_1. Qed.

(** ** the two circular polarisations carry what an aligned-spin binary seen at the instantaneous inclination would *)
Theorem pp_intensity mc q s1 s2 f_ref dist phic incl tc f : pp_physical mc q s1 s2 -> 0 < dist -> 0 < f ->
  exists hc hp, pp_one f mc q s1 s2 dist phic incl f_ref tc = Ok (hc, hp) /\
    let a := spa_amplitude f mc dist * Rabs (pp_factor mc q s1 s2 f) in
    let x := vdot (direction (pc_thetaJN (pp_conv mc q f_ref s1 s2 phic incl)) 0) (pp_axis mc q f_ref s1 s2 phic incl f) in
    Cmod (Cplus hp (Cmult Ci hc)) = a * ((1 + x) ^ 2 / 2) /\ Cmod (Cminus hp (Cmult Ci hc)) = a * ((1 - x) ^ 2 / 2) /\
    Cmod hp ^ 2 + Cmod hc ^ 2 = a ^ 2 * (((1 + x ^ 2) / 2) ^ 2 + x ^ 2).
Proof.
  intros (Hm & Hq & B1 & B2) Hd Hf. destruct (pp_one_form mc q f_ref s1 s2 Hm Hq B1 B2 dist phic incl tc Hd f Hf) as (hc & hp & E & E1 & E2).
  exists hc, hp. split; [exact E|]. intros a x. set (c := pp_cosb mc q s1 s2 f) in *. pose proof (pp_cosb_range mc q s1 s2 f) as CR. fold c in CR. destruct (half_angle c ltac:(lra)) as [HC HS].
  destruct (twist_moduli (pp_al mc q f_ref s1 s2 phic incl f) (acos c) (pc_thetaJN (pp_conv mc q f_ref s1 s2 phic incl)) _ _ HC HS) as [T1 T2].
  change (Cmod (pp_T2 mc q f_ref s1 s2 phic incl f) = Kn * (1 - x) ^ 2) in T1. change (Cmod (pp_Tm2 mc q f_ref s1 s2 phic incl f) = Kn * (1 + x) ^ 2) in T2.
  assert (PA : 0 < spa_amplitude f mc dist) by (apply spa_pos, Hd). pose proof Kn_pos as PK.
  assert (MG : Cmod (pp_G mc q f_ref s1 s2 dist phic incl tc f) = a / (2 * Kn)).
  { unfold pp_G. rewrite Cmod_mult, cis_mod, Cmod_R, Rmult_1_r. fold (pp_mass mc q). fold (pp_factor mc q s1 s2 f). unfold Rdiv. rewrite !Rabs_mult, (Rabs_right (spa_amplitude f mc dist)) by lra. rewrite (Rabs_right (/ (2 * Kn))) by (apply Rle_ge, Rlt_le, Rinv_0_lt_compat; lra). reflexivity. }
  assert (M1 : Cmod (Cplus hp (Cmult Ci hc)) = a * ((1 + x) ^ 2 / 2)) by (rewrite E1, !Cmod_mult, cis_mod, MG, T2; field; lra).
  assert (M2 : Cmod (Cminus hp (Cmult Ci hc)) = a * ((1 - x) ^ 2 / 2)) by (rewrite E2, !Cmod_mult, cis_mod, MG, T1; field; lra).
  split; [exact M1|]. split; [exact M2|]. pose proof (parallelogram hp (Cmult Ci hc)) as PL. rewrite M1, M2, Cmod_mult, Ci_mod, Rmult_1_l in PL. 
  transitivity (((a * ((1 + x) ^ 2 / 2)) ^ 2 + (a * ((1 - x) ^ 2 / 2)) ^ 2) / 2); [lra|field].
Qed.
(** so the total intensity never exceeds that of the face-on binary with the same aligned spins *)
Corollary pp_intensity_bound mc q s1 s2 f_ref dist phic incl tc f hc hp : pp_physical mc q s1 s2 -> 0 < dist -> 0 < f -> pp_one f mc q s1 s2 dist phic incl f_ref tc = Ok (hc, hp) ->
  Cmod hp ^ 2 + Cmod hc ^ 2 <= 2 * (spa_amplitude f mc dist * pp_factor mc q s1 s2 f) ^ 2.
Proof.
  intros HP Hd Hf E. destruct (pp_intensity mc q s1 s2 f_ref dist phic incl tc f HP Hd Hf) as (hc' & hp' & E' & _ & _ & I). rewrite E in E'. injection E' as <- <-. rewrite I.
  set (x := vdot _ _). assert (X2 : x ^ 2 <= 1).
  { unfold x, pp_axis. set (u := direction _ 0). set (v := direction _ _). assert (U : vdot u u = 1) by apply direction_unit. assert (W : vdot v v = 1) by apply direction_unit.
    assert (K : 0 <= vdot (vcross u v) (vcross u v)) by (unfold vdot; nra). assert (L : vdot (vcross u v) (vcross u v) = vdot u u * vdot v v - vdot u v ^ 2) by (unfold vdot, vcross; cbn [vx vy vz]; ring). rewrite U, W in L. lra. }
  replace ((spa_amplitude f mc dist * Rabs (pp_factor mc q s1 s2 f)) ^ 2) with ((spa_amplitude f mc dist * pp_factor mc q s1 s2 f) ^ 2).
  2:{ rewrite !Rpow_mult_distr. f_equal. symmetry. apply pow2_abs. }
  set (b := _ ^ 2). assert (0 <= b) by apply pow2_ge_0. assert (0 <= x ^ 2) by apply pow2_ge_0. clearbody b. set (y := x ^ 2) in *. clearbody y. 
  assert (((1 + y) / 2) ^ 2 + y <= 2) by nra. nra.
Qed.

(** ** at the reference frequency, with in-plane spin on the heavier body only, the instantaneous inclination is the one asked for *)
Lemma L2PNR_pos v eta : 0 < v -> 0 < eta <= 1 / 4 -> 0 < L2PNR v eta.
Proof.
  intros Hv He. unfold L2PNR. cbv zeta. apply Rdiv_lt_0_compat; [|apply sqrt_lt_R0, pow_lt, Hv]. set (x := v ^ 2). assert (0 < x) by (apply pow_lt, Hv). clearbody x.
  apply Rmult_lt_0_compat; [lra|]. assert (0 < 3375 / 1000 - 19 * eta / 8 - eta ^ 2 / 24) by nra. assert (0 <= x ^ 2) by apply pow2_ge_0. assert (0 <= (15 / 10 + eta / 6) * x) by nra.
  assert (0 <= (3375 / 1000 - 19 * eta / 8 - eta ^ 2 / 24) * x ^ 2) by (apply Rmult_le_pos; lra). lra.
Qed.
Lemma J_components mc q f_ref s1 s2 : 0 < mc -> 0 < q <= 1 -> let ml := fst (components mc q) in let ms := snd (components mc q) in let M := ml + ms in
  vx (pp_J mc q f_ref s1 s2) = ms * ms * vx s2 + ml * ml * vx s1 /\ vy (pp_J mc q f_ref s1 s2) = ms * ms * vy s2 + ml * ml * vy s1 /\
  vz (pp_J mc q f_ref s1 s2) = M ^ 2 * (L2PNR (Rpower (pp_w mc q f_ref) (1 / 3)) (ml * ms / (M * M)) + pp_SL mc q s1 s2) /\ 0 < ms /\ ms <= ml.
Proof.
  intros Hm Hq ml ms M. destruct (masses mc q s1 s2 Hm Hq) as (A & B & _). fold ml ms in A, B. split; [reflexivity|]. split; [reflexivity|]. split; [|split; assumption].
  unfold pp_J, pp_J0. cbv zeta. cbn [vz]. fold ml ms. unfold pp_SL. fold ml ms. replace (PI * ((ms + ml) * MTSUN_SI) * f_ref) with (pp_w mc q f_ref) by (unfold pp_w; fold ml ms; ring).
  replace (ms * ml / ((ms + ml) * (ms + ml))) with (ml * ms / (M * M)) by (unfold M; field; lra). set (L := L2PNR _ _). unfold M. field. lra.
Qed.
Theorem pp_reference_inclination mc q s1 s2 f_ref dist phic incl tc : pp_physical mc q s1 s2 -> 0 < dist -> 0 < f_ref -> vx s2 = 0 -> vy s2 = 0 -> 0 < vz (pp_J mc q f_ref s1 s2) ->
  exists hc hp, pp_one f_ref mc q s1 s2 dist phic incl f_ref tc = Ok (hc, hp) /\
    let a := spa_amplitude f_ref mc dist * Rabs (pp_factor mc q s1 s2 f_ref) in
    Cmod (Cplus hp (Cmult Ci hc)) = a * ((1 + cos incl) ^ 2 / 2) /\ Cmod (Cminus hp (Cmult Ci hc)) = a * ((1 - cos incl) ^ 2 / 2).
Proof.
  intros HP Hd Hf X0 Y0 HJ. destruct (pp_intensity mc q s1 s2 f_ref dist phic incl tc f_ref HP Hd Hf) as (hc & hp & E & I1 & I2 & _). exists hc, hp. split; [exact E|].
  cbv zeta in *. set (x := vdot _ _) in *. replace (cos incl) with x; [split; assumption|]. clear I1 I2.
  destruct HP as (Hm & Hq & B1 & B2). destruct (J_components mc q f_ref s1 s2 Hm Hq) as (JX & JY & JZ & A & B). set (J := pp_J mc q f_ref s1 s2) in *.
  set (ml := fst (components mc q)) in *. set (ms := snd (components mc q)) in *. cbv zeta in *. rewrite X0, Rmult_0_r, Rplus_0_l in JX. rewrite Y0, Rmult_0_r, Rplus_0_l in JY.
  assert (PN : 0 < vnorm J) by (apply sqrt_lt_R0; unfold vdot; nra). assert (N2 : vnorm J * vnorm J = vdot J J) by (apply sqrt_sqrt; unfold vdot; nra).
  destruct (pp_geometry ms ml f_ref phic incl s2 s1 PN) as (Rot & tJL & RR & TB & _ & RJ & RN & RL & _).
  change (pp_J0 ms ml f_ref s2 s1) with J in RJ. change (convert_spins ms ml f_ref phic incl s2 s1) with (pp_conv mc q f_ref s1 s2 phic incl) in *. set (cv := pp_conv mc q f_ref s1 s2 phic incl) in *.
  assert (CT : cos tJL * vnorm J = vz J). { transitivity (vdot (Rot (V 0 0 1)) (Rot J)); [rewrite RL, RJ; unfold vdot, direction; cbn [vx vy vz]; ring|]. rewrite (rot_dot _ RR). unfold vdot. cbn [vx vy vz]. ring. }
  assert (CB : pp_cosb mc q s1 s2 f_ref = cos tJL).
  { unfold pp_cosb. fold ml ms. set (d := L2PNR _ _ + _) in *. set (M := ml + ms) in *. assert (PM : 0 < M) by (unfold M; lra).
    assert (Pd : 0 < d) by (rewrite JZ in HJ; assert (0 < M ^ 2) by (apply pow_lt, PM); nra).
    (* chi_p is the in-plane spin of the heavier body *)
    assert (EP : pp_Sp mc q s1 s2 = sqrt (vx s1 ^ 2 + vy s1 ^ 2) * (ml / M) ^ 2).
    { unfold pp_Sp. fold ml ms. fold M. f_equal. unfold pp_chip. rewrite X0, Y0. replace (0 ^ 2 + 0 ^ 2) with 0 by ring. rewrite sqrt_0. replace ((2 + 3 * ml / (2 * ms)) * (ms * ms * 0)) with 0 by ring.
      assert (Q2 : 0 <= 3 * ms / (2 * ml)) by (apply Rmult_le_pos; [lra|apply Rlt_le, Rinv_0_lt_compat; lra]). pose proof (sqrt_pos (vx s1 ^ 2 + vy s1 ^ 2)) as SP. set (A2 := 2 + 3 * ms / (2 * ml)). assert (0 < A2) by (unfold A2; lra).
      rewrite Rmax_right by (apply Rmult_le_pos; [lra|apply Rmult_le_pos; nra]). field. split; lra. }
    set (r := sqrt (vx s1 ^ 2 + vy s1 ^ 2)) in *. assert (Rr : r * r = vx s1 ^ 2 + vy s1 ^ 2) by (apply sqrt_sqrt; pose proof (pow2_ge_0 (vx s1)); pose proof (pow2_ge_0 (vy s1)); lra).
    rewrite EP. assert (CT' : cos tJL = vz J / vnorm J) by (rewrite <- CT; field; lra). rewrite CT'.
    assert (SQ : vnorm J = vz J * sqrt (1 + (r * (ml / M) ^ 2 / d) ^ 2)).
    { unfold vnorm. rewrite <- (sqrt_square (vz J)) at 1 by lra. rewrite <- sqrt_mult_alt by nra. f_equal. unfold vdot. rewrite JX, JY, JZ.
      replace (ml * ml * vx s1 * (ml * ml * vx s1) + ml * ml * vy s1 * (ml * ml * vy s1)) with (ml ^ 4 * (vx s1 ^ 2 + vy s1 ^ 2)) by ring. rewrite <- Rr. field. split; lra. }
    rewrite SQ. field. split; [|lra]. apply Rgt_not_eq, sqrt_lt_R0. pose proof (pow2_ge_0 (r * (ml / M) ^ 2 / d)). lra. }
  assert (EA : acos (pp_cosb mc q s1 s2 f_ref) = tJL) by (rewrite CB; apply acos_cos; lra).
  unfold x, pp_axis. rewrite EA. replace (pp_al mc q f_ref s1 s2 phic incl f_ref) with (pc_alpha0 cv) by (unfold pp_al; fold ml ms; change (convert_spins ms ml f_ref phic incl s2 s1) with cv; ring).
  rewrite <- RL, <- RN, (rot_dot _ RR). unfold vdot, direction. cbn [vx vy vz]. ring.
Qed.
