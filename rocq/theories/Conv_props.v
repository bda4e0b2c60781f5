(** Properties C52 (component masses) and C53 (spin conversion). *)
From Coq Require Import Reals Lra.
From Verif Require Import Base Conv_model.
Local Open Scope R_scope.

(** ** C52 *)
(** the chirp mass of two component masses *)
Definition chirp_mass (m1 m2 : R) : R := Rpower (m1 * m2) (3 / 5) / Rpower (m1 + m2) (1 / 5).
Lemma Rpower_div x a b : Rpower x a / Rpower x b = Rpower x (a - b).
Proof. unfold Rdiv. rewrite <- Rpower_Ropp, <- Rpower_plus. reflexivity. Qed.
Lemma Rpower_pos x a : 0 < Rpower x a.
Proof. unfold Rpower. apply exp_pos. Qed.
Lemma Rpower_1' x : 0 < x -> x = Rpower x 1.
Proof. intros. rewrite Rpower_1 by assumption. reflexivity. Qed.
Theorem components_spec mc q : 0 < mc -> 0 < q -> let (m1, m2) := components mc q in
  0 < m1 /\ 0 < m2 /\ m2 / m1 = q /\ chirp_mass m1 m2 = mc /\ (q <= 1 <-> m2 <= m1).
Proof.
  intros Hm Hq. unfold components. set (M := mc * Rpower (1 + q) (12/10) / Rpower q (6/10)). cbv zeta.
  assert (PM : 0 < M). { unfold M. apply Rdiv_lt_0_compat; [apply Rmult_lt_0_compat; [assumption|]|]; apply Rpower_pos. }
  assert (P1 : 0 < M / (1 + q)) by (apply Rdiv_lt_0_compat; lra). set (m1 := M / (1 + q)) in *.
  assert (P2 : 0 < m1 * q) by (apply Rmult_lt_0_compat; assumption).
  split; [exact P1|]. split; [exact P2|]. split; [field; lra|]. split.
  - (* m1 = mc (1+q)^(1/5) q^(-3/5) *)
    assert (E1 : m1 = mc * (Rpower (1 + q) (1/5) * Rpower q (-3/5))).
    { unfold m1, M. unfold Rdiv at 1. rewrite (Rpower_1' (1 + q)) at 2 by lra. unfold Rdiv at 1. rewrite <- !Rpower_Ropp.
      replace (mc * Rpower (1 + q) (12/10) * Rpower q (- (6/10)) * Rpower (1 + q) (-(1))) with (mc * (Rpower (1 + q) (12/10) * Rpower (1 + q) (-(1)) * Rpower q (- (6/10)))) by ring.
      rewrite <- Rpower_plus. do 3 f_equal; lra. }
    unfold chirp_mass. replace (m1 * (m1 * q)) with (m1 * m1 * q) by ring. replace (m1 + m1 * q) with (m1 * (1 + q)) by ring.
    assert (Pq : 0 < 1 + q) by lra.
    rewrite !Rpower_mult_distr || idtac.
    rewrite <- (Rpower_mult_distr (m1 * m1) q) by nra. rewrite <- (Rpower_mult_distr m1 m1) by assumption. rewrite <- (Rpower_mult_distr m1 (1 + q)) by assumption.
    unfold Rdiv at 1. rewrite Rinv_mult, <- !Rpower_Ropp.
    replace (Rpower m1 (3/5) * Rpower m1 (3/5) * Rpower q (3/5) * (Rpower m1 (- (1/5)) * Rpower (1 + q) (- (1/5)))) with
      ((Rpower m1 (3/5) * Rpower m1 (3/5) * Rpower m1 (- (1/5))) * (Rpower q (3/5) * Rpower (1 + q) (- (1/5)))) by ring.
    rewrite <- !Rpower_plus. replace (3/5 + 3/5 + - (1/5)) with 1 by lra. rewrite Rpower_1 by assumption. rewrite E1.
    replace (mc * (Rpower (1 + q) (1/5) * Rpower q (-3/5)) * (Rpower q (3/5) * Rpower (1 + q) (- (1/5)))) with
      (mc * ((Rpower (1 + q) (1/5) * Rpower (1 + q) (- (1/5))) * (Rpower q (-3/5) * Rpower q (3/5)))) by ring.
    rewrite <- !Rpower_plus. replace (1/5 + - (1/5)) with 0 by lra. replace (-3/5 + 3/5) with 0 by lra. rewrite !Rpower_O by assumption. ring.
  - split; intros H; [|apply (Rmult_le_reg_l m1); [assumption|lra]]. rewrite <- (Rmult_1_r m1) at 2. apply Rmult_le_compat_l; lra.
Qed.
(** ... and they are the only such masses *)
Theorem components_unique m1 m2 : 0 < m1 -> 0 < m2 -> components (chirp_mass m1 m2) (m2 / m1) = (m1, m2).
Proof.
  intros H1 H2. set (q := m2 / m1). assert (Hq : 0 < q) by (apply Rdiv_lt_0_compat; assumption). assert (E2 : m2 = m1 * q) by (unfold q; field; lra).
  assert (Hc : 0 < chirp_mass m1 m2) by (unfold chirp_mass; apply Rdiv_lt_0_compat; apply Rpower_pos).
  pose proof (components_spec (chirp_mass m1 m2) q Hc Hq) as H. destruct (components (chirp_mass m1 m2) q) as [a b].
  destruct H as [Ha [Hb [Hr [HC _]]]]. assert (Eb : b = a * q) by (rewrite <- Hr; field; lra). subst b.
  (* chirp mass is proportional to the larger mass at fixed ratio *)
  assert (G : forall u, 0 < u -> chirp_mass u (u * q) = u * (Rpower q (3/5) * Rpower (1 + q) (- (1/5)))).
  { intros u Hu. unfold chirp_mass. replace (u * (u * q)) with (u * u * q) by ring. replace (u + u * q) with (u * (1 + q)) by ring.
    rewrite <- (Rpower_mult_distr (u * u) q) by nra. rewrite <- (Rpower_mult_distr u u) by assumption. rewrite <- (Rpower_mult_distr u (1 + q)) by lra.
    unfold Rdiv at 1. rewrite Rinv_mult, <- !Rpower_Ropp.
    replace (Rpower u (3/5) * Rpower u (3/5) * Rpower q (3/5) * (Rpower u (- (1/5)) * Rpower (1 + q) (- (1/5)))) with
      ((Rpower u (3/5) * Rpower u (3/5) * Rpower u (- (1/5))) * (Rpower q (3/5) * Rpower (1 + q) (- (1/5)))) by ring.
    rewrite <- !Rpower_plus. replace (3/5 + 3/5 + - (1/5)) with 1 by lra. rewrite Rpower_1 by assumption. reflexivity. }
  rewrite E2 in HC. rewrite !G in HC by assumption. assert (K : 0 < Rpower q (3/5) * Rpower (1 + q) (- (1/5))) by (apply Rmult_lt_0_compat; apply Rpower_pos).
  assert (a = m1) by (apply (Rmult_eq_reg_r (Rpower q (3/5) * Rpower (1 + q) (- (1/5)))); [assumption|lra]). subst a. rewrite E2. reflexivity.
Qed.

(** ** C53 *)
(** *** specification: vectors and rotations *)
Definition vdot (u v : vec) : R := vx u * vx v + vy u * vy v + vz u * vz v.
Definition vcross (u v : vec) : vec := V (vy u * vz v - vz u * vy v) (vz u * vx v - vx u * vz v) (vx u * vy v - vy u * vx v).
Definition vadd (u v : vec) : vec := V (vx u + vx v) (vy u + vy v) (vz u + vz v).
Definition vnorm (u : vec) : R := sqrt (vdot u u).
Record rotation (f : vec -> vec) : Prop := {
  rot_add : forall u v, f (vadd u v) = vadd (f u) (f v);
  rot_scale : forall a u, f (vscale a u) = vscale a (f u);
  rot_dot : forall u v, vdot (f u) (f v) = vdot u v;
  rot_cross : forall u v, f (vcross u v) = vcross (f u) (f v) }.
(** unit vector with polar angle t and azimuth p *)
Definition direction (t p : R) : vec := V (sin t * cos p) (sin t * sin p) (cos t).

Lemma sc a : sin a * sin a + cos a * cos a = 1.
Proof. pose proof (sin2_cos2 a) as H. unfold Rsqr in H. exact H. Qed.
Lemma vec_eq u v : vx u = vx v -> vy u = vy v -> vz u = vz v -> u = v.
Proof. destruct u, v; cbn; intros; subst; reflexivity. Qed.
Lemma rotate_z_rot a : rotation (rotate_z a).
Proof.
  pose proof (sc a) as S. split; intros; try apply vec_eq; unfold rotate_z, vadd, vscale, vdot, vcross; cbn [vx vy vz]; try ring.
  - transitivity ((sin a * sin a + cos a * cos a) * (vx u * vx v + vy u * vy v) + vz u * vz v); [ring|rewrite S; ring].
  - transitivity ((sin a * sin a + cos a * cos a) * (vx u * vy v - vy u * vx v)); [rewrite S; ring|ring].
Qed.
Lemma rotate_y_rot a : rotation (rotate_y a).
Proof.
  pose proof (sc a) as S. split; intros; try apply vec_eq; unfold rotate_y, vadd, vscale, vdot, vcross; cbn [vx vy vz]; try ring.
  - transitivity ((sin a * sin a + cos a * cos a) * (vx u * vx v + vz u * vz v) + vy u * vy v); [ring|rewrite S; ring].
  - transitivity ((sin a * sin a + cos a * cos a) * (vz u * vx v - vx u * vz v)); [rewrite S; ring|ring].
Qed.
Lemma rotation_comp f g : rotation f -> rotation g -> rotation (fun v => f (g v)).
Proof. intros [F1 F2 F3 F4] [G1 G2 G3 G4]. split; intros; [rewrite G1, F1|rewrite G2, F2|rewrite F3, G3|rewrite G4, F4]; reflexivity. Qed.
(** *** atan2 *)
Lemma atan2_spec y x : sqrt (x * x + y * y) * cos (atan2 y x) = x /\ sqrt (x * x + y * y) * sin (atan2 y x) = y.
Proof.
  unfold atan2. cbv zeta. set (r := sqrt (x * x + y * y)). assert (Hr : 0 <= r) by apply sqrt_pos. assert (R2 : r * r = x * x + y * y) by (apply sqrt_sqrt; nra).
  destruct (Req_EM_T r 0) as [E|E].
  { rewrite E in R2. assert (x = 0) by nra. assert (y = 0) by nra. subst. rewrite E. split; ring. }
  assert (Hp : 0 < r) by lra. assert (B : -1 <= x / r <= 1).
  { split; [apply (Rmult_le_reg_r r)|apply (Rmult_le_reg_r r)]; try assumption; replace (x / r * r) with x by (field; lra); nra. }
  assert (S : r * sin (acos (x / r)) = Rabs y).
  { rewrite sin_acos by assumption. rewrite <- sqrt_Rsqr_abs. rewrite <- (sqrt_square r) at 1 by assumption. rewrite <- sqrt_mult_alt by nra. f_equal. unfold Rsqr.
    replace (r * r * (1 - x / r * (x / r))) with (r * r - x * x) by (field; lra). rewrite R2. ring. }
  assert (Cc : r * cos (acos (x / r)) = x) by (rewrite cos_acos by assumption; field; lra).
  destruct (Rle_dec 0 y) as [L|L]; [rewrite S, Cc, Rabs_right by lra; auto|].
  rewrite cos_neg, sin_neg, Cc. replace (r * - sin (acos (x / r))) with (- (r * sin (acos (x / r)))) by ring. rewrite S, Rabs_left by lra. split; [reflexivity|ring].
Qed.
(** turning a unit vector onto the z axis *)
Lemma align u : vdot u u = 1 -> rotate_y (- acos (vz u)) (rotate_z (- atan2 (vy u) (vx u)) u) = V 0 0 1.
Proof.
  destruct u as [x y z]. unfold vdot. cbn [vx vy vz]. intros U. destruct (atan2_spec y x) as [A B]. set (r := sqrt (x * x + y * y)) in *. set (p := atan2 y x) in *.
  assert (Hr : 0 <= r) by apply sqrt_pos. assert (R2 : r * r = x * x + y * y) by (apply sqrt_sqrt; nra).
  assert (Hz : -1 <= z <= 1) by nra. assert (Z : cos (acos z) = z) by (apply cos_acos; assumption). pose proof (sc (acos z)) as S. rewrite Z in S.
  assert (P : 0 <= sin (acos z)) by (apply sin_ge_0; apply acos_bound). assert (E : sin (acos z) = r) by nra. pose proof (sc p) as SP.
  unfold rotate_z. cbn [vx vy vz]. rewrite cos_neg, sin_neg.
  replace (x * cos p - y * - sin p) with r by (rewrite <- A, <- B; transitivity (r * (sin p * sin p + cos p * cos p)); [rewrite SP|]; ring).
  replace (x * - sin p + y * cos p) with 0 by (rewrite <- A, <- B; ring).
  unfold rotate_y. cbn [vx vy vz]. rewrite cos_neg, sin_neg, Z, E. apply vec_eq; cbn [vx vy vz]; [ring|ring|]. replace (- r * - r + z * z) with (r * r + z * z) by ring. lra.
Qed.
(** a rotation fixing the z axis is a rotation about it *)
Lemma fixes_z f : rotation f -> f (V 0 0 1) = V 0 0 1 -> exists psi, forall u, f u = rotate_z psi u.
Proof.
  intros F Fz. pose proof F as [FA FS FD FC]. set (c := f (V 1 0 0)).
  assert (C1 : vdot c c = 1) by (unfold c; rewrite FD; unfold vdot; cbn [vx vy vz]; ring).
  assert (C2 : vz c = 0). { pose proof (FD (V 1 0 0) (V 0 0 1)) as H. rewrite Fz in H. fold c in H. unfold vdot in H. cbn [vx vy vz] in H. lra. }
  assert (D : f (V 0 1 0) = V (- vy c) (vx c) 0).
  { replace (V 0 1 0) with (vcross (V 0 0 1) (V 1 0 0)) by (apply vec_eq; unfold vcross; cbn [vx vy vz]; ring). rewrite FC, Fz. fold c. apply vec_eq; unfold vcross; cbn [vx vy vz]; ring. }
  exists (atan2 (vy c) (vx c)). destruct (atan2_spec (vy c) (vx c)) as [A B]. unfold vdot in C1. rewrite C2 in C1.
  replace (sqrt (vx c * vx c + vy c * vy c)) with 1 in A, B by (symmetry; replace (vx c * vx c + vy c * vy c) with 1 by lra; apply sqrt_1). rewrite Rmult_1_l in A, B.
  intros u. transitivity (f (vadd (vscale (vx u) (V 1 0 0)) (vadd (vscale (vy u) (V 0 1 0)) (vscale (vz u) (V 0 0 1))))).
  { f_equal. apply vec_eq; unfold vadd, vscale; cbn [vx vy vz]; ring. }
  rewrite !FA, !FS, Fz, D. fold c. unfold rotate_z. rewrite A, B. apply vec_eq; unfold vadd, vscale; cbn [vx vy vz]; rewrite ?C2; ring.
Qed.
Lemma rotate_z_z a b u : rotate_z a (rotate_z b u) = rotate_z (a + b) u.
Proof. unfold rotate_z. rewrite cos_plus, sin_plus. apply vec_eq; cbn [vx vy vz]; ring. Qed.
Lemma rotate_z_direction a t p : rotate_z a (direction t p) = direction t (a + p).
Proof. unfold rotate_z, direction. rewrite cos_plus, sin_plus. apply vec_eq; cbn [vx vy vz]; ring. Qed.

(** *** the starting frame: L along z, the spins at their tilts, the total angular momentum *)
Definition orbital (m1 m2 f : R) : R :=
  let M := m1 + m2 in let v := Rpower (PI * MTSUN_SI * M * f) (1 / 3) in let eta := m1 * m2 / (M * M) in
  m1 * m2 / v * (1 + v ^ 2 * (3 / 2 + eta / 6)).
Definition total_J (t1 t2 p12 a1 a2 m1 m2 f pref : R) : vec :=
  vadd (vscale (orbital m1 m2 f) (V 0 0 1)) (vadd (vscale (m1 ^ 2 * a1) (direction t1 pref)) (vscale (m2 ^ 2 * a2) (direction t2 (p12 + pref)))).

Theorem spins_spec tjn pjl t1 t2 p12 a1 a2 m1 m2 f pref : 0 < f -> 0 < m1 -> 0 < m2 ->
  let J := total_J t1 t2 p12 a1 a2 m1 m2 f pref in 0 < vnorm J ->
  exists incl psi tjl Rot N0, rotation Rot /\ 0 <= incl <= PI /\ 0 <= tjl <= PI /\
    (* geometry seen from J: the line of sight N0 at angle tjn, L at azimuth pjl *)
    Rot J = V 0 0 (vnorm J) /\ Rot N0 = V 0 (sin tjn) (cos tjn) /\ Rot (V 0 0 1) = direction tjl pjl /\
    (* geometry seen from L: turned by psi about L, the line of sight is in the y-z plane, y >= 0 *)
    rotate_z psi N0 = V 0 (sin incl) (cos incl) /\
    bilby_spins_to_lalsim tjn pjl t1 t2 p12 a1 a2 m1 m2 f pref = Ok (mksp incl (vscale a1 (direction t1 psi)) (vscale a2 (direction t2 (psi + p12)))).
Proof.
  intros Hf H1 H2 J HJ. unfold bilby_spins_to_lalsim. destruct (Rle_dec f 0) as [|_]; [lra|]. cbv zeta.
  set (v0 := Rpower ((m1 + m2) * MTSUN_SI * PI * f) (1 / 3)).
  assert (Pv : 0 < v0) by apply Rpower_pos.
  set (lm := inspiral_LN _ _ v0 * _).
  assert (EL : lm = orbital m1 m2 f).
  { unfold lm, orbital, inspiral_LN, inspiral_L_2PN. cbv zeta. replace (PI * MTSUN_SI * (m1 + m2) * f) with ((m1 + m2) * MTSUN_SI * PI * f) by ring. fold v0. field. repeat split; lra. }
  set (s1 := V (sin t1 * cos pref) (sin t1 * sin pref) (cos t1)). set (s2 := V (sin t2 * cos (p12 + pref)) (sin t2 * sin (p12 + pref)) (cos t2)).
  change s1 with (direction t1 pref). change s2 with (direction t2 (p12 + pref)). clear s1 s2.
  set (s1 := direction t1 pref). set (s2 := direction t2 (p12 + pref)).
  set (Jx := m1 * m1 * a1 * vx s1 + m2 * m2 * a2 * vx s2). set (Jy := m1 * m1 * a1 * vy s1 + m2 * m2 * a2 * vy s2). set (Jz := lm + m1 * m1 * a1 * vz s1 + m2 * m2 * a2 * vz s2).
  assert (EJ : J = V Jx Jy Jz). { unfold J, total_J, Jx, Jy, Jz. rewrite <- EL. apply vec_eq; unfold vadd, vscale; cbn [vx vy vz]; fold s1 s2; ring. }
  set (Jn := sqrt (Jx * Jx + Jy * Jy + Jz * Jz)). assert (EN : vnorm J = Jn) by (rewrite EJ; reflexivity).
  set (Jh := V (Jx / Jn) (Jy / Jn) (Jz / Jn)).
  assert (PN : 0 < Jn) by (rewrite <- EN; exact HJ). assert (N2 : Jn * Jn = Jx * Jx + Jy * Jy + Jz * Jz) by (apply sqrt_sqrt; nra).
  assert (UJ : vdot Jh Jh = 1). { unfold vdot, Jh. cbn [vx vy vz]. replace (Jx / Jn * (Jx / Jn) + Jy / Jn * (Jy / Jn) + Jz / Jn * (Jz / Jn)) with ((Jx * Jx + Jy * Jy + Jz * Jz) / (Jn * Jn)) by (field; lra). rewrite N2. field. nra. }
  pose proof (align Jh UJ) as AJ. unfold Jh in AJ. cbn [vx vy vz] in AJ. fold Jh in AJ.
  set (th0 := acos (Jz / Jn)) in *. set (ph0 := atan2 (Jy / Jn) (Jx / Jn)) in *.
  set (Rot := fun v => rotate_z (pjl - PI) (rotate_y (- th0) (rotate_z (- ph0) v))).
  assert (RR : rotation Rot). { unfold Rot. apply (rotation_comp (rotate_z (pjl - PI)) (fun v => rotate_y (- th0) (rotate_z (- ph0) v))); [apply rotate_z_rot|]. apply (rotation_comp (rotate_y (- th0))); [apply rotate_y_rot|apply rotate_z_rot]. }
  assert (RJh : Rot Jh = V 0 0 1). { unfold Rot. rewrite AJ. unfold rotate_z. apply vec_eq; cbn [vx vy vz]; ring. }
  assert (RJ : Rot J = V 0 0 (vnorm J)).
  { replace J with (vscale Jn Jh) by (rewrite EJ; apply vec_eq; unfold vscale, Jh; cbn [vx vy vz]; field; lra). rewrite (rot_scale _ RR), RJh. rewrite EJ in EN. 
    replace (vnorm (vscale Jn Jh)) with Jn; [apply vec_eq; unfold vscale; cbn [vx vy vz]; ring|]. unfold vnorm. symmetry. rewrite <- (sqrt_square Jn) at 3 by lra. f_equal.
    unfold vdot in *. unfold vscale. cbn [vx vy vz]. transitivity (Jn * Jn * (vx Jh * vx Jh + vy Jh * vy Jh + vz Jh * vz Jh)); [ring|rewrite UJ; ring]. }
  set (L := rotate_z (pjl - PI) (rotate_y (- th0) (V 0 0 1))).
  assert (Tb : 0 <= th0 <= PI) by apply acos_bound.
  assert (LD : L = direction th0 pjl).
  { unfold L, rotate_z, rotate_y, direction. cbn [vx vy vz]. rewrite !cos_neg, !sin_neg. rewrite cos_minus, sin_minus, cos_PI, sin_PI. apply vec_eq; cbn [vx vy vz]; ring. }
  assert (RL : Rot (V 0 0 1) = L). { unfold Rot, L. f_equal. f_equal. unfold rotate_z. apply vec_eq; cbn [vx vy vz]; ring. }
  set (N := V 0 (sin tjn) (cos tjn)). set (incl := acos (vx N * vx L + vy N * vy L + vz N * vz L)). 
  set (thl := acos (vz L)). set (pl := atan2 (vy L) (vx L)).
  assert (UL : vdot L L = 1). { rewrite <- RL, (rot_dot _ RR). unfold vdot. cbn [vx vy vz]. ring. }
  assert (UN : vdot N N = 1). { unfold vdot, N. cbn [vx vy vz]. pose proof (sc tjn). lra. }
  pose proof (align L UL) as AL. fold thl pl in AL.
  set (A := fun v => rotate_y (- thl) (rotate_z (- pl) v)). assert (RA : rotation A) by (apply (rotation_comp (rotate_y (- thl))); [apply rotate_y_rot|apply rotate_z_rot]).
  set (N' := rotate_y (- thl) (rotate_z (- pl) N)). assert (UN' : vdot N' N' = 1) by (transitivity (vdot N N); [exact (rot_dot _ RA N N)|exact UN]).
  assert (ZN : vz N' = vx N * vx L + vy N * vy L + vz N * vz L).
  { transitivity (vdot N' (V 0 0 1)); [unfold vdot; cbn [vx vy vz]; ring|]. rewrite <- AL. unfold N'. exact (rot_dot _ RA N L). }
  set (phN := atan2 (vy N') (vx N')).
  assert (Cb : -1 <= vz N' <= 1) by (unfold vdot in UN'; nra).
  assert (CI : cos incl = vz N') by (unfold incl; rewrite <- ZN; apply cos_acos; assumption).
  assert (Ib : 0 <= incl <= PI) by apply acos_bound.
  set (Mm := fun v => rotate_z (PI / 2 - phN) (A (Rot v))).
  assert (RM : rotation Mm). { unfold Mm. apply (rotation_comp (rotate_z (PI / 2 - phN)) (fun v => A (Rot v))); [apply rotate_z_rot|]. apply rotation_comp; assumption. }
  assert (Mz : Mm (V 0 0 1) = V 0 0 1). { unfold Mm, A. rewrite RL, AL. unfold rotate_z. apply vec_eq; cbn [vx vy vz]; ring. }
  destruct (fixes_z Mm RM Mz) as [psi Hpsi].
  (* the line of sight in the starting frame *)
  set (N0 := rotate_z ph0 (rotate_y th0 (rotate_z (PI - pjl) N))).
  assert (RN : Rot N0 = N).
  { assert (YY : forall a u, rotate_y (- a) (rotate_y a u) = u).
    { intros a u. pose proof (sc a) as S. unfold rotate_y. rewrite cos_neg, sin_neg. apply vec_eq; cbn [vx vy vz]; [|reflexivity|].
      - transitivity (vx u * (sin a * sin a + cos a * cos a)); [ring|rewrite S; ring].
      - transitivity (vz u * (sin a * sin a + cos a * cos a)); [ring|rewrite S; ring]. }
    assert (Z0 : forall u, rotate_z 0 u = u) by (intros u; unfold rotate_z; rewrite cos_0, sin_0; apply vec_eq; cbn [vx vy vz]; ring).
    unfold Rot, N0. rewrite rotate_z_z. replace (- ph0 + ph0) with 0 by ring. rewrite Z0, YY, rotate_z_z. replace (pjl - PI + (PI - pjl)) with 0 by ring. apply Z0. }
  assert (MN : Mm N0 = V 0 (sin incl) (cos incl)).
  { unfold Mm, A. rewrite RN. fold N'. destruct (atan2_spec (vy N') (vx N')) as [Ac As]. fold phN in Ac, As. set (r := sqrt _) in Ac, As.
    assert (Er : r = sin incl).
    { assert (0 <= r) by apply sqrt_pos. assert (r * r = vx N' * vx N' + vy N' * vy N') by (apply sqrt_sqrt; nra). pose proof (sc incl) as S. rewrite CI in S.
      assert (0 <= sin incl) by (apply sin_ge_0; apply Ib). unfold vdot in UN'. nra. }
    pose proof (sc phN) as S. unfold rotate_z. rewrite <- Ac, <- As, CI, <- Er. rewrite cos_minus, sin_minus, cos_PI2, sin_PI2.
    apply vec_eq; cbn [vx vy vz]; [ring| |reflexivity]. transitivity (r * (sin phN * sin phN + cos phN * cos phN)); [ring|rewrite S; ring]. }
  exists incl, psi, th0, Rot, N0. split; [exact RR|]. split; [exact Ib|]. split; [exact Tb|]. split; [exact RJ|]. split; [exact RN|]. split; [rewrite RL; exact LD|].
  split; [rewrite <- Hpsi; exact MN|].
  assert (SP : forall u, rotate_z (PI / 2 - phN - pref) (rotate_y (- thl) (rotate_z (- pl) (rotate_z (pjl - PI) (rotate_y (- th0) (rotate_z (- ph0) u))))) = rotate_z (psi - pref) u).
  { intros u. transitivity (rotate_z (- pref) (Mm u)).
    - unfold Mm. rewrite (rotate_z_z (- pref)). unfold A, Rot. f_equal. ring.
    - rewrite Hpsi, rotate_z_z. f_equal. ring. }
  rewrite !SP. unfold s1, s2. rewrite !rotate_z_direction. replace (psi - pref + pref) with psi by ring. replace (psi - pref + (p12 + pref)) with (psi + p12) by ring. reflexivity.
Qed.

(** consequences in the words of the documentation *)
Theorem spins_magnitudes tjn pjl t1 t2 p12 a1 a2 m1 m2 f pref s : 0 < m1 -> 0 < m2 -> 0 < vnorm (total_J t1 t2 p12 a1 a2 m1 m2 f pref) ->
  bilby_spins_to_lalsim tjn pjl t1 t2 p12 a1 a2 m1 m2 f pref = Ok s ->
  vdot (sp_1 s) (sp_1 s) = a1 ^ 2 /\ vdot (sp_2 s) (sp_2 s) = a2 ^ 2 /\ vz (sp_1 s) = a1 * cos t1 /\ vz (sp_2 s) = a2 * cos t2 /\
  vdot (sp_1 s) (sp_2 s) = a1 * a2 * (cos t1 * cos t2 + sin t1 * sin t2 * cos p12) /\
  0 <= sp_incl s <= PI.
Proof.
  intros H1 H2 HJ E. destruct (Rle_dec f 0) as [L|L]; [unfold bilby_spins_to_lalsim in E; destruct (Rle_dec f 0); [discriminate|contradiction]|].
  destruct (spins_spec tjn pjl t1 t2 p12 a1 a2 m1 m2 f pref ltac:(lra) H1 H2 HJ) as [incl [psi [tjl [Rot [N0 [_ [Ib [_ [_ [_ [_ [_ K]]]]]]]]]]]].
  rewrite K in E. injection E as <-. unfold vdot, vscale, direction. cbn [sp_1 sp_2 sp_incl vx vy vz]. pose proof (sc t1) as S1. pose proof (sc t2) as S2. pose proof (sc psi) as S3. pose proof (sc (psi + p12)) as S4.
  split; [transitivity (a1 * a1 * (sin t1 * sin t1 * (sin psi * sin psi + cos psi * cos psi) + cos t1 * cos t1)); [ring|rewrite S3, Rmult_1_r, S1; ring]|].
  split; [transitivity (a2 * a2 * (sin t2 * sin t2 * (sin (psi + p12) * sin (psi + p12) + cos (psi + p12) * cos (psi + p12)) + cos t2 * cos t2)); [ring|rewrite S4, Rmult_1_r, S2; ring]|].
  split; [ring|]. split; [ring|]. split; [|exact Ib].
  replace p12 with (psi + p12 - psi) at 3 by ring. rewrite cos_minus. ring.
Qed.
(** aligned spins: no precession, the inclination is theta_jn *)
Theorem spins_aligned tjn pjl p12 a1 a2 m1 m2 f pref : 0 < f -> 0 < m1 -> 0 < m2 -> 0 <= tjn <= PI -> 0 <= a1 -> 0 <= a2 ->
  bilby_spins_to_lalsim tjn pjl 0 0 p12 a1 a2 m1 m2 f pref = Ok (mksp tjn (V 0 0 a1) (V 0 0 a2)).
Proof.
  intros Hf H1 H2 Ht Ha1 Ha2. set (J := total_J 0 0 p12 a1 a2 m1 m2 f pref).
  assert (PO : 0 < orbital m1 m2 f).
  { unfold orbital. cbv zeta. set (v := Rpower _ _). assert (0 < v) by apply Rpower_pos. assert (0 < m1 * m2 / ((m1 + m2) * (m1 + m2))) by (apply Rdiv_lt_0_compat; nra).
    apply Rmult_lt_0_compat; [apply Rdiv_lt_0_compat; nra|]. assert (0 <= v ^ 2) by nra. nra. }
  assert (JZ : J = V 0 0 (orbital m1 m2 f + m1 ^ 2 * a1 + m2 ^ 2 * a2)).
  { unfold J, total_J, direction, vadd, vscale. rewrite sin_0, cos_0. apply vec_eq; cbn [vx vy vz]; ring. }
  set (j := orbital m1 m2 f + m1 ^ 2 * a1 + m2 ^ 2 * a2) in *. assert (Pj : 0 < j) by (unfold j; assert (0 <= m1 ^ 2 * a1) by (apply Rmult_le_pos; nra); assert (0 <= m2 ^ 2 * a2) by (apply Rmult_le_pos; nra); lra).
  assert (NJ : vnorm J = j). { rewrite JZ. unfold vnorm, vdot. cbn [vx vy vz]. replace (0 * 0 + 0 * 0 + j * j) with (j * j) by ring. apply sqrt_square. lra. }
  destruct (spins_spec tjn pjl 0 0 p12 a1 a2 m1 m2 f pref Hf H1 H2) as [incl [psi [tjl [Rot [N0 [RR [Ib [Tb [RJ [RN [RL [MN K]]]]]]]]]]]]; [fold J; rewrite NJ; exact Pj|]. fold J in RJ.
  (* J along L, so the angle from L equals the angle from J *)
  assert (CI : cos incl = cos tjn).
  { assert (A : vdot N0 (V 0 0 1) = cos incl).
    { rewrite <- (rot_dot _ (rotate_z_rot psi)). rewrite MN. unfold rotate_z, vdot. cbn [vx vy vz]. ring. }
    assert (B : vdot N0 J = j * cos tjn). { rewrite <- (rot_dot _ RR), RN, RJ, NJ. unfold vdot. cbn [vx vy vz]. ring. }
    rewrite JZ in B. unfold vdot in A, B. cbn [vx vy vz] in A, B. apply (Rmult_eq_reg_l j); [|lra]. rewrite <- B, <- A. ring. }
  assert (EI : incl = tjn) by (rewrite <- (acos_cos incl), <- (acos_cos tjn) by assumption; rewrite CI; reflexivity). subst incl.
  rewrite K. unfold direction, vscale. rewrite sin_0, cos_0. cbn [vx vy vz]. do 2 f_equal; apply vec_eq; cbn [vx vy vz]; ring.
Qed.
Theorem spins_f_ref tjn pjl t1 t2 p12 a1 a2 m1 m2 f pref : (exists s, bilby_spins_to_lalsim tjn pjl t1 t2 p12 a1 a2 m1 m2 f pref = Ok s) <-> 0 < f.
Proof.
  unfold bilby_spins_to_lalsim. destruct (Rle_dec f 0) as [L|L]; split; intros H; try lra.
  - destruct H as [s H]. discriminate.
  - eexists. reflexivity.
Qed.
Theorem spins_f_ref_error tjn pjl t1 t2 p12 a1 a2 m1 m2 f pref : f <= 0 -> bilby_spins_to_lalsim tjn pjl t1 t2 p12 a1 a2 m1 m2 f pref = Err ValueError.
Proof. unfold bilby_spins_to_lalsim. destruct (Rle_dec f 0); [reflexivity|lra]. Qed.
(** the hypotheses are met: an equal-mass precessing system *)
Example spins_ex : exists s, bilby_spins_to_lalsim (1/2) 1 (PI/2) 0 0 (1/2) 0 30 30 20 0 = Ok s /\ 0 < vnorm (total_J (PI/2) 0 0 (1/2) 0 30 30 20 0).
Proof.
  destruct (proj2 (spins_f_ref (1/2) 1 (PI/2) 0 0 (1/2) 0 30 30 20 0) ltac:(lra)) as [s E]. exists s. split; [exact E|].
  unfold vnorm. apply sqrt_lt_R0. unfold total_J, vdot, vadd, vscale, direction. cbn [vx vy vz]. rewrite cos_PI2, sin_PI2, !cos_0, !sin_0.
  match goal with |- 0 < ?a * ?a + ?b * ?b + ?c * ?c => assert (a = 450) by lra; nra end.
Qed.
