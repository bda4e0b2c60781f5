(** IMRPhenomPv2: table lookup, final spin with in-plane spin, spherical harmonics, Wigner coefficients. *)
From Coq Require Import Reals Lra ZArith.
From Coquelicot Require Import Coquelicot.
From Verif Require Import Base Rutil Conv_model Conv_props Wave_props Tf2_model Tf2_props Phd_fits Phd_data Phd_cert Php_cert Phd_delta Phd_model Phd_props Phd_bounds Phd_main Php_fits Php_model.
Local Open Scope R_scope.

(** ** the table lookup *)
(** linear interpolation inside the grid (as in IMRPhenomD); at or below the first node the line through the last two nodes; above the last node an IndexError *)
Theorem pp_interp_spec (a y : list R) (x : R) : increasing a -> (2 <= List.length a)%nat ->
  (nth 0 a 0 < x <= nth (List.length a - 1) a 0 -> pp_interp a y x = Ok (interp1 a y x)) /\
  (x <= nth 0 a 0 -> let k := (List.length a - 2)%nat in
     pp_interp a y x = Ok (nth k y 0 + (nth (k + 1) y 0 - nth k y 0) / (nth (k + 1) a 0 - nth k a 0) * (x - nth k a 0))) /\
  (nth (List.length a - 1) a 0 < x -> pp_interp a y x = Err IndexError).
Proof.
  intros Hs Hl. destruct (bucketize_spec a x Hs) as (B0 & B1 & B2). unfold pp_interp, pp_index. set (b := bucketize a x) in *.
  split; [|split].
  - intros [H1 H2]. assert (Hb : (1 <= b <= List.length a - 1)%nat).
    { destruct (Nat.eq_dec b 0) as [E|E]; [pose proof (B2 0%nat ltac:(lia)); lra|]. destruct (Nat.eq_dec b (List.length a)) as [E'|E']; [pose proof (B1 (List.length a - 1)%nat ltac:(lia)); lra|]. lia. }
    assert (E0 : (b =? 0)%nat = false) by (apply Nat.eqb_neq; lia). assert (E1 : (b - 1 <? List.length a - 1)%nat = true) by (apply Nat.ltb_lt; lia). rewrite E0, E1. cbn [bind].
    unfold interp1, interp_right. fold b. replace (Nat.min (Nat.max b 1) (List.length a - 1)) with b by lia. replace (b - 1 + 1)%nat with b by lia. f_equal. ring.
  - intros H. assert (Eb : b = 0%nat). { destruct (Nat.eq_dec b 0) as [E|E]; [exact E|]. pose proof (B1 0%nat ltac:(lia)). lra. }
    rewrite Eb. cbn [Nat.eqb bind]. f_equal. ring.
  - intros H. assert (Eb : b = List.length a). { destruct (Nat.eq_dec b (List.length a)) as [E|E]; [exact E|]. pose proof (B2 (List.length a - 1)%nat ltac:(lia)). lra. }
    assert (E0 : (b =? 0)%nat = false) by (apply Nat.eqb_neq; lia). assert (E1 : (b - 1 <? List.length a - 1)%nat = false) by (apply Nat.ltb_ge; lia). rewrite E0, E1. reflexivity.
Qed.
Lemma pp_interp_qnm y x : - 1 < x <= 1 -> pp_interp qnm_a y x = Ok (interp1 qnm_a y x).
Proof. intros H. destruct qnm_lengths as (L & _ & _). apply (pp_interp_spec qnm_a y x qnm_a_increasing ltac:(lia)). rewrite L. change (1003 - 1)%nat with 1002%nat. rewrite qnm_a_first, qnm_a_last. lra. Qed.
(** a remnant of spin exactly -1, which is the first node, is given the ringdown frequency extrapolated from the other end of the table: a negative one *)
Theorem pp_interp_first_node_refuted : exists v, pp_interp qnm_a qnm_fring (- 1) = Ok v /\ nth 0 qnm_a 0 = - 1 /\ nth 0 qnm_fring 0 > 4 / 100 /\ v < - (3 / 10).
Proof.
  destruct qnm_lengths as (L & _ & _). destruct (pp_interp_spec qnm_a qnm_fring (- 1) qnm_a_increasing ltac:(lia)) as (_ & H & _). rewrite L in H. change (1003 - 2)%nat with 1001%nat in H. cbv zeta in H. rewrite qnm_a_first in H.
  eexists. split; [apply H; lra|]. split; [apply qnm_a_first|]. change (1001 + 1)%nat with 1002%nat. unfold qnm_a, qnm_fring. rewrite !nth_tab by (vm_compute; lia).
  assert (E1 : nth 0 QNMData_fring_z 0%Z = 464014197%Z \/ True) by (right; exact I).
  let f0 := eval vm_compute in (nth 0 QNMData_fring_z 0%Z) in assert (F0 : nth 0 QNMData_fring_z 0%Z = f0) by (vm_compute; reflexivity); rewrite F0.
  let f1 := eval vm_compute in (nth 1001 QNMData_fring_z 0%Z) in assert (F1 : nth 1001 QNMData_fring_z 0%Z = f1) by (vm_compute; reflexivity); rewrite F1.
  let f2 := eval vm_compute in (nth 1002 QNMData_fring_z 0%Z) in assert (F2 : nth 1002 QNMData_fring_z 0%Z = f2) by (vm_compute; reflexivity); rewrite F2.
  let f3 := eval vm_compute in (nth 1001 QNMData_a_z 0%Z) in assert (F3 : nth 1001 QNMData_a_z 0%Z = f3) by (vm_compute; reflexivity); rewrite F3.
  let f4 := eval vm_compute in (nth 1002 QNMData_a_z 0%Z) in assert (F4 : nth 1002 QNMData_a_z 0%Z = f4) by (vm_compute; reflexivity); rewrite F4.
  split; lra.
Qed.

(** ** the final spin *)
Definition in_ball (s : vec) : Prop := vdot s s <= 1.
Lemma FinalSpin_mass ml ms c1 c2 : 0 < ms -> ms <= ml -> let eta := ml * ms / ((ml + ms) * (ml + ms)) in
  0 < eta <= 1 / 4 /\ sqrt (Rmax (1 - 4 * eta) 0) = (ml - ms) / (ml + ms) /\
  FinalSpin0815 eta (eta * eta) c1 c2 = fs_poly eta ((ml / (ml + ms)) ^ 2 * c1 + (ms / (ml + ms)) ^ 2 * c2).
Proof.
  intros H1 H2 eta. assert (P : 0 < ml + ms) by lra. assert (PP : 0 < (ml + ms) * (ml + ms)) by nra.
  assert (E : 1 - 4 * eta = ((ml - ms) / (ml + ms)) ^ 2) by (unfold eta; field; lra).
  assert (He : 0 < eta <= 1 / 4). { split; [unfold eta; apply Rdiv_lt_0_compat; [nra|exact PP]|]. pose proof (pow2_ge_0 ((ml - ms) / (ml + ms))). lra. }
  split; [exact He|]. assert (Q : 0 <= (ml - ms) / (ml + ms)) by (apply Rmult_le_pos; [lra|apply Rlt_le, Rinv_0_lt_compat, P]).
  assert (ES : sqrt (Rmax (1 - 4 * eta) 0) = (ml - ms) / (ml + ms)). { rewrite E, Rmax_left by apply pow2_ge_0. replace (((ml - ms) / (ml + ms)) ^ 2) with (Rsqr ((ml - ms) / (ml + ms))) by (unfold Rsqr; ring). apply sqrt_Rsqr, Q. }
  split; [exact ES|]. unfold FinalSpin0815, fs_poly. cbv zeta. rewrite ES.
  replace (5 / 10 * (1 + (ml - ms) / (ml + ms))) with (ml / (ml + ms)) by (field; lra). replace (5 / 10 * (1 - (ml - ms) / (ml + ms))) with (ms / (ml + ms)) by (field; lra).
  replace ((ml / (ml + ms)) ^ 2 * c1 + (ms / (ml + ms)) ^ 2 * c2) with (ml / (ml + ms) * (ml / (ml + ms)) * c1 + ms / (ml + ms) * (ms / (ml + ms)) * c2) by ring. set (s := ml / (ml + ms) * (ml / (ml + ms)) * c1 + ms / (ml + ms) * (ms / (ml + ms)) * c2). clearbody s eta. field; lra.
Qed.
(** the in-plane spin parameter: at most the larger of the two in-plane spins, scaled *)
Lemma pp_chip_cases ml ms sl ss : 0 < ms -> ms <= ml ->
  let pl := sqrt (vx sl ^ 2 + vy sl ^ 2) in let ps := sqrt (vx ss ^ 2 + vy ss ^ 2) in
  0 <= pp_chip ms ml ss sl /\ (pp_chip ms ml ss sl = pl \/ pp_chip ms ml ss sl <= ms / ml * ps).
Proof.
  intros H1 H2 pl ps. assert (P1 : 0 <= pl) by apply sqrt_pos. assert (P2 : 0 <= ps) by apply sqrt_pos. unfold pp_chip. cbv zeta. fold pl ps.
  set (A1 := 2 + 3 * ml / (2 * ms)). set (A2 := 2 + 3 * ms / (2 * ml)).
  assert (Q1 : 0 <= 3 * ml / (2 * ms)) by (apply Rmult_le_pos; [lra|apply Rlt_le, Rinv_0_lt_compat; lra]). assert (Q2 : 0 <= 3 * ms / (2 * ml)) by (apply Rmult_le_pos; [lra|apply Rlt_le, Rinv_0_lt_compat; lra]).
  assert (PA1 : 0 < A1) by (unfold A1; lra). assert (PA2 : 0 < A2) by (unfold A2; lra). assert (PD : 0 < A2 * (ml * ml)) by (apply Rmult_lt_0_compat; nra).
  assert (T1 : A2 * (ml * ml * pl) / (A2 * (ml * ml)) = pl) by (field; repeat split; lra).
  assert (T2 : A1 * (ms * ms * ps) / (A2 * (ml * ml)) <= ms / ml * ps).
  { apply Rmult_le_reg_r with (A2 * (ml * ml)); [exact PD|]. unfold Rdiv at 1. rewrite Rmult_assoc, Rinv_l, Rmult_1_r by lra. replace (ms / ml * ps * (A2 * (ml * ml))) with (ps * ms * (2 * ml + 3 / 2 * ms)) by (unfold A2; field; lra).
    replace (A1 * (ms * ms * ps)) with (ps * ms * (2 * ms + 3 / 2 * ml)) by (unfold A1; field; lra). apply Rmult_le_compat_l; [apply Rmult_le_pos; lra|lra]. }
  unfold Rmax. destruct (Rle_dec (A1 * (ms * ms * ps)) (A2 * (ml * ml * pl))) as [D|D].
  - rewrite T1. split; [exact P1|left; reflexivity].
  - split; [apply Rmult_le_pos; [apply Rmult_le_pos; [lra|apply Rmult_le_pos; nra]|apply Rlt_le, Rinv_0_lt_compat, PD]|right; exact T2].
Qed.
Lemma perp_le s : in_ball s -> sqrt (vx s ^ 2 + vy s ^ 2) <= 1.
Proof. intros B. apply Rle_trans with (sqrt 1); [|rewrite sqrt_1; lra]. apply sqrt_le_1_alt. unfold in_ball, vdot in B. pose proof (pow2_ge_0 (vz s)). nra. Qed.
Theorem pp_chip_range ml ms sl ss : 0 < ms -> ms <= ml -> in_ball sl -> in_ball ss -> 0 <= pp_chip ms ml ss sl <= 1.
Proof.
  intros H1 H2 Bl Bs. destruct (pp_chip_cases ml ms sl ss H1 H2) as [P [E|L]]; split; try exact P.
  - rewrite E. apply perp_le; exact Bl.
  - apply (Rle_trans _ _ _ L). pose proof (perp_le ss Bs) as S1.
    assert (Q : 0 <= ms / ml <= 1). { split; [apply Rmult_le_pos; [lra|apply Rlt_le, Rinv_0_lt_compat; lra]|]. apply Rmult_le_reg_r with ml; [lra|]. unfold Rdiv. rewrite Rmult_assoc, Rinv_l, Rmult_1_r by lra. lra. }
    pose proof (sqrt_pos (vx ss ^ 2 + vy ss ^ 2)). nra.
Qed.
Lemma sq_lt_1 sg X : 0 <= X < 1 -> sg = 1 \/ sg = - (1) -> - 1 < sg * sqrt X < 1.
Proof. intros H E. assert (S1 : sqrt X < sqrt 1) by (apply sqrt_lt_1_alt; lra); rewrite sqrt_1 in S1. pose proof (sqrt_pos X). destruct E as [-> | ->]; lra. Qed.
(** the remnant of a binary whose spins are at most extremal is sub-extremal *)
Theorem pp_final_spin_range ml ms sl ss : 0 < ms -> ms <= ml -> in_ball sl -> in_ball ss ->
  - 1 < FinalSpin_inplane ml ms (vz sl) (vz ss) (pp_chip ms ml ss sl) < 1.
Proof.
  intros H1 H2 Bl Bs. unfold FinalSpin_inplane. cbv zeta. set (c1 := vz sl). set (c2 := vz ss). set (eta := ml * ms / ((ml + ms) * (ml + ms))).
  destruct (FinalSpin_mass ml ms c1 c2 H1 H2) as (He & ES & EF). fold eta in He, ES, EF. rewrite EF. set (a := ml / (ml + ms)) in *. set (b := ms / (ml + ms)).
  fold b. fold b in EF. set (s := a ^ 2 * c1 + b ^ 2 * c2) in *.
  assert (PM : 0 < ml + ms) by lra. assert (Ea : a + b = 1) by (unfold a, b; field; lra). assert (Ee : eta = a * b) by (unfold eta, a, b; field; lra).
  assert (Pb : 0 < b) by (unfold b; apply Rdiv_lt_0_compat; lra). assert (Pab : b <= a). { apply Rmult_le_reg_r with (ml + ms); [exact PM|]. unfold a, b, Rdiv. rewrite !Rmult_assoc, Rinv_l by lra. lra. }
  assert (C1 : - 1 <= c1 <= 1) by (unfold in_ball, vdot in Bl; unfold c1; split; nra). assert (C2 : - 1 <= c2 <= 1) by (unfold in_ball, vdot in Bs; unfold c2; split; nra).
  assert (Hs : - (1 - 2 * eta) <= s <= 1 - 2 * eta). { assert (1 - 2 * eta = a ^ 2 + b ^ 2) by (rewrite Ee; nra). unfold s. split; nra. }
  (* the margin of the aligned fit *)
  assert (MG : - (1 - eta / 6) <= fs_poly eta s <= 1 - eta / 6).
  { set (u := 4 * eta). set (w := (s / (1 - 2 * eta) + 1) / 2). assert (Hu : 0 <= u <= 1) by (unfold u; lra). assert (Ew : 2 * w - 1 = s / (1 - 2 * eta)) by (unfold w; field; lra).
    assert (Hw : 0 <= w <= 1). { assert (- 1 <= s / (1 - 2 * eta) <= 1); [|unfold w; lra]. split; [apply Rmult_le_reg_r with (1 - 2 * eta)|apply Rmult_le_reg_r with (1 - 2 * eta)]; try lra; unfold Rdiv; rewrite Rmult_assoc, Rinv_l, Rmult_1_r by lra; lra. }
    pose proof (fs_margin_hi u w Hu Hw) as A. pose proof (fs_margin_lo u w Hu Hw) as B. rewrite Ew in A, B. replace (u / 4) with eta in A, B by (unfold u; field).
    replace ((1 - 2 * eta) * (s / (1 - 2 * eta))) with s in A, B by (field; lra). split; assumption. }
  set (chip := pp_chip ms ml ss sl). set (Sp := chip * a * a).
  apply sq_lt_1; [|destruct (Rle_dec 0 (fs_poly eta s)); auto].
  split; [nra|]. destruct (pp_chip_cases ml ms sl ss H1 H2) as [P [E|L]]; fold chip in P.
  - fold chip in E. assert (EP : chip * chip <= 1 - c1 * c1). { rewrite E, sqrt_sqrt by (pose proof (pow2_ge_0 (vx sl)); pose proof (pow2_ge_0 (vy sl)); lra). unfold in_ball, vdot in Bl. unfold c1. lra. }
    set (g := fs_g eta s). rewrite fs_poly_g. fold g.
    assert (IP : 0 <= (1 + a) * (1 + a * a) - 1 / 100 - 2 * Rabs s * b - 2 * a * s * g - a * a * b * (g * g)).
    { set (t := a - b). assert (Ht : 0 <= t <= 1) by (unfold t; lra). assert (T1 : (1 + t) * (1 / 2) = a) by (unfold t; lra). assert (T2 : (1 - t) * (1 / 2) = b) by (unfold t; lra).
      unfold Rabs. destruct (Rcase_abs s) as [Ns|Ns].
      - pose proof (inplane_neg t (- s) Ht ltac:(lra)) as K. unfold inplane in K. cbv zeta in K. rewrite T1, T2 in K. replace (-1 * - s) with s in K by ring. rewrite <- Ee in K. exact K.
      - pose proof (inplane_pos t s Ht ltac:(lra)) as K. unfold inplane in K. cbv zeta in K. rewrite T1, T2 in K. replace (1 * s) with s in K by ring. rewrite <- Ee in K. exact K. }
    assert (SB : - (2 * Rabs s * b) <= - (2 * s * b * c2)). { assert (s * c2 <= Rabs s); [|nra]. apply Rle_trans with (Rabs (s * c2)); [apply Rle_abs|]. rewrite Rabs_mult. assert (Rabs c2 <= 1) by (apply Rabs_le; lra). pose proof (Rabs_pos s). nra. }
    assert (S2 : Sp * Sp <= a ^ 4 * (1 - c1 * c1)). { unfold Sp. replace (chip * a * a * (chip * a * a)) with (a ^ 4 * (chip * chip)) by ring. apply Rmult_le_compat_l; [apply pow_le; lra|exact EP]. }
    assert (KEY : 1 - (s + eta * g) * (s + eta * g) - a ^ 4 * (1 - c1 * c1) = b * ((1 + a) * (1 + a * a) - 2 * s * b * c2 - 2 * a * s * g - a * a * b * (g * g)) + b ^ 4 * c2 ^ 2).
    { assert (A4 : a ^ 4 * (c1 * c1) = (s - b ^ 2 * c2) ^ 2) by (unfold s; ring). replace (a ^ 4 * (1 - c1 * c1)) with (a ^ 4 - a ^ 4 * (c1 * c1)) by ring. rewrite A4, Ee. replace a with (1 - b) by lra. ring. }
    assert (B4 : 0 <= b ^ 4 * c2 ^ 2) by (apply Rmult_le_pos; [apply pow_le; lra|apply pow2_ge_0]).
    assert (POS : 0 < b * ((1 + a) * (1 + a * a) - 2 * s * b * c2 - 2 * a * s * g - a * a * b * (g * g))) by (apply Rmult_lt_0_compat; lra). clear - KEY S2 B4 POS. clearbody Sp g s. lra.
  - fold chip in L. set (F := fs_poly eta s) in *.
    assert (SpL : Sp <= eta). { unfold Sp. apply Rle_trans with (ms / ml * a * a). - pose proof (perp_le ss Bs) as S1.
        assert (0 <= ms / ml) by (apply Rmult_le_pos; [lra|apply Rlt_le, Rinv_0_lt_compat; lra]). assert (chip <= ms / ml) by nra. assert (0 <= a * a) by nra. rewrite !Rmult_assoc. apply Rmult_le_compat_r; assumption.
        - apply Req_le. rewrite Ee. unfold a, b. field. lra. }
    assert (SpP : 0 <= Sp) by (unfold Sp; apply Rmult_le_pos; [apply Rmult_le_pos|]; lra).
    assert (S2 : Sp * Sp <= eta * eta) by nra. clearbody F. 
    destruct (Rle_dec (Rabs F) (3 / 5)) as [D|D].
    + assert (F * F <= 9 / 25). { rewrite <- (Rabs_pos_eq (F * F)) by nra. rewrite Rabs_mult. pose proof (Rabs_pos F). nra. } nra.
    + assert (EA : F * F = Rabs F * Rabs F) by (rewrite <- Rabs_mult; symmetry; apply Rabs_pos_eq; nra). rewrite EA. assert (Rabs F <= 1 - eta / 6) by (apply Rabs_le; lra). set (A := Rabs F) in *. clearbody A.
      assert ((1 - A) * (1 + A) >= eta / 6 * (8 / 5)) by nra. nra.
Qed.
(** magnitude and sign of the final spin *)
Theorem pp_final_spin_magnitude m1 m2 c1 c2 chip : let eta := m1 * m2 / ((m1 + m2) * (m1 + m2)) in let af := FinalSpin0815 eta (eta * eta) c1 c2 in
  FinalSpin_inplane m1 m2 c1 c2 chip ^ 2 = af ^ 2 + (chip * (m1 / (m1 + m2)) ^ 2) ^ 2 /\ (0 <= af -> 0 <= FinalSpin_inplane m1 m2 c1 c2 chip) /\ (af < 0 -> FinalSpin_inplane m1 m2 c1 c2 chip < 0).
Proof.
  intros eta af. unfold FinalSpin_inplane. cbv zeta. fold eta af. set (Sp := chip * (m1 / (m1 + m2)) * (m1 / (m1 + m2))). assert (P : 0 <= Sp * Sp + af * af) by nra.
  split; [|split].
  - assert (Q : sqrt (Sp * Sp + af * af) ^ 2 = Sp * Sp + af * af) by (rewrite <- Rsqr_pow2; apply Rsqr_sqrt, P). transitivity (sqrt (Sp * Sp + af * af) ^ 2); [destruct (Rle_dec 0 af); ring|]. rewrite Q. unfold Sp. ring.
  - intros H. destruct (Rle_dec 0 af); [|lra]. rewrite Rmult_1_l. apply sqrt_pos.
  - intros H. destruct (Rle_dec 0 af); [lra|]. assert (0 < sqrt (Sp * Sp + af * af)) by (apply sqrt_lt_R0; nra). lra.
Qed.

(** ** spherical harmonics *)
Theorem swsh_values th ph : let c := cos th in
  let Y m A := SpinWeightedY th ph (-2) 2 m = Ok (Some (A * cos (IZR m * ph), A * sin (IZR m * ph))) in
  Y (-2)%Z (sqrt (5 / (64 * PI)) * (1 - c) ^ 2) /\ Y (-1)%Z (sqrt (5 / (16 * PI)) * sin th * (1 - c)) /\ Y 0%Z (sqrt (15 / (32 * PI)) * sin th ^ 2) /\ Y 1%Z (sqrt (5 / (16 * PI)) * sin th * (1 + c)) /\ Y 2%Z (sqrt (5 / (64 * PI)) * (1 + c) ^ 2).
Proof. intros c Y. unfold Y, SpinWeightedY. cbn [Z.eqb andb Pos.eqb bind]. fold c. repeat split; do 3 f_equal; ring. Qed.
Theorem swsh_bad_order th ph m : (2 < Z.abs m)%Z -> SpinWeightedY th ph (-2) 2 m = Err ValueError.
Proof.
  intros H. unfold SpinWeightedY. cbn [Z.eqb andb Pos.eqb]. destruct (Z.eqb_spec m (-2)); [lia|]. destruct (Z.eqb_spec m (-1)); [lia|]. destruct (Z.eqb_spec m 0); [lia|]. destruct (Z.eqb_spec m 1); [lia|]. destruct (Z.eqb_spec m 2); [lia|]. reflexivity.
Qed.
(** for any other weight or degree the function returns None instead of raising *)
Theorem swsh_other_modes_refuted th ph s l m : (s <> -2 \/ l <> 2)%Z -> SpinWeightedY th ph s l m = Ok None.
Proof. intros H. unfold SpinWeightedY. destruct (Z.eqb_spec s (-2)); destruct (Z.eqb_spec l 2); try reflexivity. lia. Qed.
Lemma Y2_real th m : exists r, Y2 th m = RtoC r.
Proof.
  unfold Y2. destruct (SpinWeightedY th 0 (-2) 2 m) as [[y|]|e] eqn:E; [|exists 0; reflexivity|exists 0; reflexivity].
  unfold SpinWeightedY in E. cbn [Z.eqb andb Pos.eqb] in E. unfold bind in E. 
  destruct (if (m =? -2)%Z then _ else _) as [fac|]; [|discriminate]. injection E as <-. exists fac. rewrite Rmult_0_r, cos_0, sin_0. unfold RtoC. f_equal; ring.
Qed.
Definition y2 (th : R) (m : Z) : R := fst (Y2 th m).
Lemma Y2_y2 th m : Y2 th m = RtoC (y2 th m).
Proof. unfold y2. destruct (Y2_real th m) as [r ->]. reflexivity. Qed.
Lemma y2_values th : let c := cos th in
  y2 th (-2) = sqrt (5 / (64 * PI)) * (1 - c) ^ 2 /\ y2 th (-1) = sqrt (5 / (16 * PI)) * sin th * (1 - c) /\ y2 th 0 = sqrt (15 / (32 * PI)) * sin th ^ 2 /\ y2 th 1 = sqrt (5 / (16 * PI)) * sin th * (1 + c) /\ y2 th 2 = sqrt (5 / (64 * PI)) * (1 + c) ^ 2.
Proof. intros c. destruct (swsh_values th 0) as (A & B & C0 & D & E). unfold y2, Y2. rewrite A, B, C0, D, E. cbn [fst]. rewrite !Rmult_0_r, cos_0. fold c. repeat split; ring. Qed.
(** the addition theorem: the five harmonics carry the same total weight in every direction *)
Theorem swsh_addition th : y2 th (-2) ^ 2 + y2 th (-1) ^ 2 + y2 th 0 ^ 2 + y2 th 1 ^ 2 + y2 th 2 ^ 2 = 5 / (4 * PI).
Proof.
  destruct (y2_values th) as (A & B & C0 & D & E). rewrite A, B, C0, D, E. assert (HP := PI_RGT_0).
  assert (Q : forall a k, 0 < a -> 0 < k -> sqrt (a / (k * PI)) ^ 2 = a / (k * PI)). { intros a k Ha Hk. rewrite <- Rsqr_pow2. apply Rsqr_sqrt. apply Rlt_le, Rdiv_lt_0_compat; nra. }
  assert (S2 : sin th ^ 2 = 1 - cos th ^ 2) by (pose proof (sc th); nra). set (c := cos th) in *.
  replace ((sqrt (5 / (64 * PI)) * (1 - c) ^ 2) ^ 2 + (sqrt (5 / (16 * PI)) * sin th * (1 - c)) ^ 2 + (sqrt (15 / (32 * PI)) * sin th ^ 2) ^ 2 + (sqrt (5 / (16 * PI)) * sin th * (1 + c)) ^ 2 + (sqrt (5 / (64 * PI)) * (1 + c) ^ 2) ^ 2)
    with (sqrt (5 / (64 * PI)) ^ 2 * ((1 - c) ^ 4 + (1 + c) ^ 4) + sqrt (5 / (16 * PI)) ^ 2 * sin th ^ 2 * ((1 - c) ^ 2 + (1 + c) ^ 2) + sqrt (15 / (32 * PI)) ^ 2 * (sin th ^ 2) ^ 2) by ring.
  rewrite !Q by lra. rewrite S2. field. lra.
Qed.

(** ** the half opening angle *)
Theorem wigner_spec v SL eta Sp : let (cB, sB) := Wignerd v SL eta Sp in
  0 <= sB /\ sB <= cB /\ cB ^ 2 + sB ^ 2 = 1 /\ cB ^ 2 - sB ^ 2 = 1 / sqrt (1 + (Sp / (L2PNR v eta + SL)) ^ 2) /\ (Sp = 0 -> cB = 1 /\ sB = 0).
Proof.
  unfold Wignerd. cbv zeta. set (s := Sp / _). set (cb := 1 / sqrt (1 + s ^ 2)).
  assert (Q : 1 <= sqrt (1 + s ^ 2)). { apply Rle_trans with (sqrt 1); [rewrite sqrt_1; lra|]. apply sqrt_le_1_alt. pose proof (pow2_ge_0 s). lra. }
  assert (B : 0 < cb <= 1). { unfold cb. split; [apply Rdiv_lt_0_compat; lra|]. apply Rmult_le_reg_r with (sqrt (1 + s ^ 2)); [lra|]. unfold Rdiv. rewrite Rmult_assoc, Rinv_l by lra. lra. }
  assert (E1 : sqrt ((1 + cb) / 2) ^ 2 = (1 + cb) / 2) by (rewrite <- Rsqr_pow2; apply Rsqr_sqrt; lra). assert (E2 : sqrt ((1 - cb) / 2) ^ 2 = (1 - cb) / 2) by (rewrite <- Rsqr_pow2; apply Rsqr_sqrt; lra).
  split; [apply sqrt_pos|]. split; [apply sqrt_le_1_alt; lra|]. rewrite E1, E2. split; [field|]. split; [unfold cb; field; lra|].
  intros Z. assert (S0 : s = 0) by (unfold s; rewrite Z; unfold Rdiv; ring). assert (C1 : cb = 1). { unfold cb. rewrite S0. replace (1 + 0 ^ 2) with 1 by ring. rewrite sqrt_1. field. }
  rewrite C1. replace ((1 + 1) / 2) with 1 by field. replace ((1 - 1) / 2) with 0 by field. rewrite sqrt_1, sqrt_0. split; reflexivity.
Qed.
