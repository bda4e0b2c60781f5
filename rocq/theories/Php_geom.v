(** IMRPhenomPv2: the geometry computed by [convert_spins] (phenom_p.py 452-590). *)
From Coq Require Import Reals Lra.
From Verif Require Import Base Conv_model Conv_props Php_model.
Local Open Scope R_scope.

Lemma atan2_scale k y x : 0 < k -> atan2 (k * y) (k * x) = atan2 y x.
Proof.
  intros Hk. unfold atan2. cbv zeta. assert (E : sqrt (k * x * (k * x) + k * y * (k * y)) = k * sqrt (x * x + y * y)).
  { replace (k * x * (k * x) + k * y * (k * y)) with (k * k * (x * x + y * y)) by ring. rewrite sqrt_mult_alt by nra. rewrite sqrt_square by lra. reflexivity. }
  rewrite E. set (r := sqrt (x * x + y * y)). destruct (Req_EM_T r 0) as [Z|Z].
  - destruct (Req_EM_T (k * r) 0) as [_|N]; [reflexivity|]. exfalso. apply N. rewrite Z. ring.
  - destruct (Req_EM_T (k * r) 0) as [N|_]; [exfalso; nra|]. replace (k * x / (k * r)) with (x / r) by (field; lra).
    destruct (Rle_dec 0 y); destruct (Rle_dec 0 (k * y)); try reflexivity; nra.
Qed.
(** turning any non-zero vector onto the z axis *)
Lemma align_any J : 0 < vnorm J -> rotate_y (- acos (vz J / vnorm J)) (rotate_z (- atan2 (vy J) (vx J)) J) = V 0 0 (vnorm J).
Proof.
  intros HJ. set (n := vnorm J) in *. assert (N2 : n * n = vdot J J) by (unfold n, vnorm; apply sqrt_sqrt; unfold vdot; nra).
  set (u := vscale (/ n) J). assert (U : vdot u u = 1). { transitivity (/ n * / n * vdot J J); [unfold u, vdot, vscale; cbn [vx vy vz]; ring|]. rewrite <- N2. field. lra. }
  pose proof (align u U) as A. assert (Ei : 0 < / n) by (apply Rinv_0_lt_compat, HJ).
  assert (E1 : atan2 (vy u) (vx u) = atan2 (vy J) (vx J)). { unfold u, vscale. cbn [vx vy vz]. rewrite (Rmult_comm (vy J)), (Rmult_comm (vx J)). apply atan2_scale, Ei. }
  assert (E2 : vz u = vz J / n) by reflexivity. rewrite E1, E2 in A.
  assert (EJ : J = vscale n u) by (unfold u, vscale; destruct J as [x y z]; cbn [vx vy vz]; apply vec_eq; cbn [vx vy vz]; field; lra).
  rewrite EJ at 4. rewrite (rot_scale _ (rotate_z_rot _)), (rot_scale _ (rotate_y_rot _)), A. apply vec_eq; unfold vscale; cbn [vx vy vz]; ring.
Qed.
(** turning a unit vector about z into the half plane y = 0, x >= 0 *)
Lemma azimuth_zero u : vdot u u = 1 -> rotate_z (- atan2 (vy u) (vx u)) u = direction (acos (vz u)) 0.
Proof.
  intros U. destruct (atan2_spec (vy u) (vx u)) as [A B]. set (p := atan2 (vy u) (vx u)) in *. set (r := sqrt _) in A, B.
  assert (Hr : 0 <= r) by apply sqrt_pos. assert (R2 : r * r = vx u * vx u + vy u * vy u) by (apply sqrt_sqrt; nra). unfold vdot in U.
  assert (Hz : -1 <= vz u <= 1) by nra. assert (Z : cos (acos (vz u)) = vz u) by (apply cos_acos; assumption). pose proof (sc (acos (vz u))) as S. rewrite Z in S.
  assert (P : 0 <= sin (acos (vz u))) by (apply sin_ge_0; apply acos_bound). assert (E : sin (acos (vz u)) = r) by nra. pose proof (sc p) as SP.
  unfold rotate_z, direction. rewrite cos_neg, sin_neg, Z, E, cos_0, sin_0. apply vec_eq; cbn [vx vy vz]; [| |reflexivity].
  - rewrite <- A, <- B. transitivity (r * (sin p * sin p + cos p * cos p)); [ring|rewrite SP; ring].
  - rewrite <- A, <- B. ring.
Qed.
Lemma unit_direction u : vdot u u = 1 -> u = direction (acos (vz u)) (atan2 (vy u) (vx u)).
Proof.
  intros U. destruct (atan2_spec (vy u) (vx u)) as [A B]. set (p := atan2 (vy u) (vx u)) in *. set (r := sqrt _) in A, B.
  assert (Hr : 0 <= r) by apply sqrt_pos. assert (R2 : r * r = vx u * vx u + vy u * vy u) by (apply sqrt_sqrt; nra). unfold vdot in U.
  assert (Hz : -1 <= vz u <= 1) by nra. assert (Z : cos (acos (vz u)) = vz u) by (apply cos_acos; assumption). pose proof (sc (acos (vz u))) as S. rewrite Z in S.
  assert (P : 0 <= sin (acos (vz u))) by (apply sin_ge_0; apply acos_bound). assert (E : sin (acos (vz u)) = r) by nra.
  unfold direction. rewrite Z, E, A, B. apply vec_eq; reflexivity.
Qed.
Lemma direction_unit t p : vdot (direction t p) (direction t p) = 1.
Proof. unfold vdot, direction. cbn [vx vy vz]. pose proof (sc t) as S. pose proof (sc p) as S'. transitivity (sin t * sin t * (sin p * sin p + cos p * cos p) + cos t * cos t); [ring|rewrite S']. lra. Qed.

(** ** the frame whose z axis is the total angular momentum and whose x-z plane contains the line of sight *)
Section Geom.
Variables m1 m2 f_ref phic incl : R.
Variables s1 s2 : vec.
Let J := pp_J0 m1 m2 f_ref s1 s2.
Let c := convert_spins m1 m2 f_ref phic incl s1 s2.
Let N := direction incl (PI / 2 - phic).
Let toJ v := rotate_y (- acos (vz J / vnorm J)) (rotate_z (- atan2 (vy J) (vx J)) v).
Definition pp_rot (v : vec) : vec := rotate_z (- atan2 (vy (toJ N)) (vx (toJ N))) (toJ v).
Lemma toJ_rot : rotation toJ. Proof. apply (rotation_comp (rotate_y (- acos (vz J / vnorm J)))); [apply rotate_y_rot|apply rotate_z_rot]. Qed.
Lemma pp_rot_rot : rotation pp_rot. Proof. apply (rotation_comp (rotate_z (- atan2 (vy (toJ N)) (vx (toJ N)))) toJ); [apply rotate_z_rot|apply toJ_rot]. Qed.
Lemma conv_fields : pc_chi1 c = vz s1 /\ pc_chi2 c = vz s2 /\ pc_chip c = pp_chip m1 m2 s1 s2 /\ pc_thetaJN c = acos (vz (pp_rot N)) /\
  pc_alpha0 c = atan2 (vy (pp_rot (V 0 0 1))) (vx (pp_rot (V 0 0 1))) /\ pc_phi_aligned c = - atan2 (vy J) (vx J) /\
  pc_zeta c = (let X := pp_rot (pp_X phic incl) in atan2 (vx X * vz (pp_rot N) - vz X * vx (pp_rot N)) (- vy X)).
Proof.
  unfold c, convert_spins. cbv zeta. fold J. change (sqrt (vx J * vx J + vy J * vy J + vz J * vz J)) with (vnorm J). change (pp_N phic incl) with N.
  cbn [pc_chi1 pc_chi2 pc_chip pc_thetaJN pc_alpha0 pc_phi_aligned pc_zeta]. repeat split; try reflexivity.
  fold (toJ N). fold (toJ (pp_X phic incl)). fold (pp_rot N). fold (pp_rot (pp_X phic incl)).
  f_equal; ring.
Qed.
Theorem pp_geometry : 0 < vnorm J ->
  exists Rot tJL, rotation Rot /\ 0 <= tJL <= PI /\ 0 <= pc_thetaJN c <= PI /\
    Rot J = V 0 0 (vnorm J) /\ Rot N = direction (pc_thetaJN c) 0 /\ Rot (V 0 0 1) = direction tJL (pc_alpha0 c) /\
    Rot (vscale (- (1)) (direction (incl + PI / 2) (PI / 2 - phic))) = vadd (vscale (cos (pc_zeta c)) (V 0 (- (1)) 0)) (vscale (sin (pc_zeta c)) (direction (pc_thetaJN c + PI / 2) 0)).
Proof.
  intros HJ. pose proof conv_fields as (_ & _ & _ & F4 & F5 & _ & F7). pose proof toJ_rot as TR. pose proof pp_rot_rot as RR.
  assert (TJ : toJ J = V 0 0 (vnorm J)) by (apply align_any, HJ).
  assert (UN : vdot N N = 1) by apply direction_unit. assert (UTN : vdot (toJ N) (toJ N) = 1) by (rewrite (rot_dot _ TR); exact UN).
  assert (RN : pp_rot N = direction (acos (vz (toJ N))) 0) by (apply azimuth_zero, UTN).
  assert (VZ : vz (pp_rot N) = vz (toJ N)) by reflexivity.
  assert (TH : pc_thetaJN c = acos (vz (toJ N))) by (rewrite F4, VZ; reflexivity).
  exists pp_rot, (acos (vz (pp_rot (V 0 0 1)))). split; [exact RR|]. split; [apply acos_bound|]. split; [rewrite TH; apply acos_bound|].
  split; [unfold pp_rot; rewrite TJ; unfold rotate_z; apply vec_eq; cbn [vx vy vz]; ring|]. split; [rewrite TH; exact RN|].
  assert (UL : vdot (pp_rot (V 0 0 1)) (pp_rot (V 0 0 1)) = 1) by (rewrite (rot_dot _ RR); unfold vdot; cbn [vx vy vz]; ring).
  split; [rewrite F5; apply unit_direction, UL|].
  set (th := pc_thetaJN c) in *. assert (RN' : pp_rot N = direction th 0) by (rewrite TH; exact RN).
  assert (EX : vscale (- (1)) (direction (incl + PI / 2) (PI / 2 - phic)) = pp_X phic incl).
  { unfold pp_X, direction, vscale. cbn [vx vy vz]. rewrite cos_minus, sin_minus, cos_plus, sin_plus, cos_PI2, sin_PI2. apply vec_eq; cbn [vx vy vz]; ring. }
  rewrite EX. set (X := pp_rot (pp_X phic incl)) in *. cbv zeta in F7.
  assert (F8 : pc_zeta c = atan2 (vx X * cos th - vz X * sin th) (- vy X)). { rewrite F7, RN'. unfold direction. cbn [vx vy vz]. rewrite cos_0, Rmult_1_r. reflexivity. }
  assert (UX : vdot X X = 1). { unfold X. rewrite (rot_dot _ RR), <- EX. unfold vdot. pose proof (direction_unit (incl + PI / 2) (PI / 2 - phic)) as D. unfold vdot in D. unfold vscale. cbn [vx vy vz]. lra. }
  assert (XN : vdot X (direction th 0) = 0).
  { unfold X. rewrite <- RN', (rot_dot _ RR). unfold N, pp_X, direction, vdot. cbn [vx vy vz]. rewrite cos_minus, sin_minus, cos_PI2, sin_PI2. pose proof (sc phic) as S. 
    transitivity (- sin incl * cos incl * (sin phic * sin phic + cos phic * cos phic) + sin incl * cos incl); [ring|rewrite S; ring]. }
  set (a := vx X * cos th - vz X * sin th). set (b := - vy X). destruct (atan2_spec a b) as [A B].
  unfold vdot, direction in XN. cbn [vx vy vz] in XN. rewrite cos_0, sin_0 in XN. unfold vdot in UX. pose proof (sc th) as S.
  assert (Ex : vx X = cos th * a). { unfold a. transitivity (vx X * (sin th * sin th + cos th * cos th)); [rewrite S; ring|]. transitivity (vx X * (cos th * cos th) - sin th * (- (vx X * (sin th * 1)))); [ring|]. 
    replace (- (vx X * (sin th * 1))) with (vz X * cos th) by lra. ring. }
  assert (Ez : vz X = - sin th * a). { unfold a. transitivity (vz X * (sin th * sin th + cos th * cos th)); [rewrite S; ring|]. transitivity (vz X * (sin th * sin th) + cos th * (vz X * cos th)); [ring|]. 
    replace (vz X * cos th) with (- (vx X * (sin th * 1))) by lra. ring. }
  assert (AB : b * b + a * a = 1). { transitivity (vx X * vx X + vy X * vy X + vz X * vz X); [|exact UX]. rewrite Ex, Ez. unfold b. transitivity (vy X * vy X + a * a * (sin th * sin th + cos th * cos th)); [rewrite S; ring|ring]. }
  rewrite AB, sqrt_1, Rmult_1_l in A, B. rewrite F8. fold a. fold b. rewrite A, B. unfold direction. rewrite cos_plus, sin_plus, cos_PI2, sin_PI2, cos_0, sin_0.
  apply vec_eq; unfold vadd, vscale; cbn [vx vy vz]; [rewrite Ex; ring|unfold b; ring|rewrite Ez; ring].
Qed.
(** the in-plane direction of the total angular momentum *)
Theorem pp_phi_aligned : exists r, 0 <= r /\ J = V (r * cos (- pc_phi_aligned c)) (r * sin (- pc_phi_aligned c)) (vz J).
Proof.
  pose proof conv_fields as (_ & _ & _ & _ & _ & F6 & _). rewrite F6, Ropp_involutive. destruct (atan2_spec (vy J) (vx J)) as [A B]. exists (sqrt (vx J * vx J + vy J * vy J)). split; [apply sqrt_pos|].
  rewrite A, B. destruct J; reflexivity.
Qed.
(** in particular: the cosine of the angle between the line of sight and the total angular momentum *)
Corollary pp_thetaJN : 0 < vnorm J -> cos (pc_thetaJN c) * vnorm J = vdot N J /\ 0 <= pc_thetaJN c <= PI.
Proof.
  intros HJ. destruct (pp_geometry HJ) as (Rot & tJL & RR & _ & TB & RJ & RN & _). split; [|exact TB].
  rewrite <- (rot_dot _ RR), RJ, RN. unfold vdot, direction. cbn [vx vy vz]. ring.
Qed.
End Geom.
