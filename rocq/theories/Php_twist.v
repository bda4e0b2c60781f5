(** IMRPhenomPv2: the sums over the five modes in closed form (phenom_p.py 269-296). *)
From Coq Require Import Reals Lra ZArith.
From Coquelicot Require Import Coquelicot.
From Verif Require Import Base Conv_model Conv_props Php_model Php_props Php_geom.
Local Open Scope R_scope.

Definition Kn : R := sqrt (5 / (64 * PI)).
Lemma Kn_pos : 0 < Kn. Proof. pose proof PI_RGT_0. apply sqrt_lt_R0, Rdiv_lt_0_compat; lra. Qed.
Lemma y2_half th : let c := cos (th / 2) in let s := sin (th / 2) in
  y2 th (-2) = 4 * Kn * s ^ 4 /\ y2 th (-1) = 8 * Kn * s ^ 3 * c /\ y2 th 0 = 4 * Kn * sqrt 6 * s ^ 2 * c ^ 2 /\ y2 th 1 = 8 * Kn * s * c ^ 3 /\ y2 th 2 = 4 * Kn * c ^ 4.
Proof.
  intros c s. destruct (y2_values th) as (A & B & C0 & D & E). cbv zeta in *. rewrite A, B, C0, D, E. assert (HP := PI_RGT_0).
  assert (S := sc (th / 2)). fold c s in S. assert (Ec : cos th = c * c - s * s) by (replace th with (2 * (th / 2)) by field; apply cos_2a). assert (Es : sin th = 2 * s * c) by (replace th with (2 * (th / 2)) by field; apply sin_2a).
  assert (M1 : 1 - cos th = 2 * s ^ 2) by (rewrite Ec; nra). assert (M2 : 1 + cos th = 2 * c ^ 2) by (rewrite Ec; nra).
  assert (K1 : sqrt (5 / (16 * PI)) = 2 * Kn). { unfold Kn. rewrite <- (sqrt_square 2) at 1 by lra. rewrite <- sqrt_mult_alt by lra. f_equal. field. lra. }
  assert (K2 : sqrt (15 / (32 * PI)) = Kn * sqrt 6). { unfold Kn. rewrite <- sqrt_mult_alt by (apply Rlt_le, Rdiv_lt_0_compat; lra). f_equal. field. lra. }
  rewrite K1, K2, M1, M2, Es. change (sqrt (5 / (64 * PI))) with Kn. repeat split; ring.
Qed.
Lemma cis_mul a b : Cmult (cis_ a) (cis_ b) = cis_ (a + b).
Proof. unfold cis_, Cmult. cbn [fst snd]. rewrite cos_plus, sin_plus. f_equal; ring. Qed.
Lemma cis_0 : cis_ 0 = RtoC 1. Proof. unfold cis_. rewrite cos_0, sin_0. reflexivity. Qed.
Lemma cis_mod a : Cmod (cis_ a) = 1.
Proof. unfold Cmod, cis_. cbn [fst snd]. replace (cos a ^ 2 + sin a ^ 2) with 1 by (pose proof (sc a); nra). apply sqrt_1. Qed.
Lemma cis_nz a : cis_ a <> RtoC 0.
Proof. intros E. pose proof (cis_mod a) as M. rewrite E, Cmod_0 in M. lra. Qed.
Lemma cis_inv a : Cdiv (RtoC 1) (cis_ a) = cis_ (- a).
Proof.
  assert (E : Cmult (cis_ (- a)) (cis_ a) = RtoC 1) by (rewrite cis_mul; replace (- a + a) with 0 by ring; apply cis_0).
  rewrite <- E. field. apply cis_nz.
Qed.
Definition C4 (z : Complex.C) : Complex.C := Cmult (Cmult z z) (Cmult z z).
Ltac cnum := 
  assert (E2 : RtoC 2 = Cplus (RtoC 1) (RtoC 1)) by (rewrite <- RtoC_plus; f_equal; ring);
  assert (E4 : RtoC 4 = Cmult (RtoC 2) (RtoC 2)) by (rewrite <- RtoC_mult; f_equal; ring);
  assert (E8 : RtoC 8 = Cmult (RtoC 2) (RtoC 4)) by (rewrite <- RtoC_mult; f_equal; ring);
  assert (E6 : RtoC 6 = Cplus (RtoC 4) (RtoC 2)) by (rewrite <- RtoC_plus; f_equal; ring);
  rewrite ?E8, ?E6, ?E4, ?E2 in *.
Ltac twist al th e em Y :=
  rewrite cis_inv, !Y; destruct (y2_half th) as (A & B & C0 & D & E); cbv zeta in *; rewrite A, B, C0, D, E; set (c := cos (th / 2)); set (s := sin (th / 2));
  replace (- (2 * al)) with (- al + - al) by ring; rewrite <- cis_mul; assert (H : Cmult (cis_ al) (cis_ (- al)) = RtoC 1) by (rewrite cis_mul; replace (al + - al) with 0 by ring; apply cis_0);
  set (e := cis_ al) in *; set (em := cis_ (- al)) in *; clearbody e em.
Theorem T2m_closed al cB sB th : T2m al cB sB (Y2 th) =
  Cmult (RtoC (4 * Kn)) (Cmult (cis_ (- (2 * al))) (C4 (Cminus (Cmult (cis_ al) (RtoC (cB * sin (th / 2)))) (RtoC (sB * cos (th / 2)))))).
Proof.
  unfold T2m. cbv zeta. twist al th e em Y2_y2.
  replace (RtoC (sqrt 6 * sB ^ 2 * cB ^ 2)) with (Cmult (RtoC (sqrt 6)) (RtoC (sB ^ 2 * cB ^ 2))) by (rewrite <- RtoC_mult; f_equal; ring).
  replace (RtoC (4 * Kn * sqrt 6 * s ^ 2 * c ^ 2)) with (Cmult (RtoC (sqrt 6)) (RtoC (4 * Kn * s ^ 2 * c ^ 2))) by (rewrite <- RtoC_mult; f_equal; ring).
  assert (S6 : Cmult (RtoC (sqrt 6)) (RtoC (sqrt 6)) = RtoC 6) by (rewrite <- RtoC_mult, sqrt_sqrt by lra; reflexivity). set (r6 := RtoC (sqrt 6)) in *. clearbody r6.
  unfold C4. cbn [pow]. rewrite !RtoC_mult. set (K := RtoC Kn). set (cc := RtoC c). set (ss := RtoC s). set (CB := RtoC cB). set (SB := RtoC sB). clearbody K cc ss CB SB.
  cnum. ring [H S6].
Qed.
Theorem Tm2m_closed al cB sB th : Tm2m al cB sB (Y2 th) =
  Cmult (RtoC (4 * Kn)) (Cmult (cis_ (- (2 * al))) (C4 (Cplus (Cmult (cis_ al) (RtoC (cB * cos (th / 2)))) (RtoC (sB * sin (th / 2)))))).
Proof.
  unfold Tm2m. cbv zeta. assert (YC : forall m, Cconj (Y2 th m) = RtoC (y2 th m)) by (intros m; rewrite Y2_y2; unfold Cconj, RtoC; cbn [fst snd]; f_equal; ring). twist al th e em YC.
  replace (RtoC (sqrt 6 * sB ^ 2 * cB ^ 2)) with (Cmult (RtoC (sqrt 6)) (RtoC (sB ^ 2 * cB ^ 2))) by (rewrite <- RtoC_mult; f_equal; ring).
  replace (RtoC (4 * Kn * sqrt 6 * s ^ 2 * c ^ 2)) with (Cmult (RtoC (sqrt 6)) (RtoC (4 * Kn * s ^ 2 * c ^ 2))) by (rewrite <- RtoC_mult; f_equal; ring).
  assert (S6 : Cmult (RtoC (sqrt 6)) (RtoC (sqrt 6)) = RtoC 6) by (rewrite <- RtoC_mult, sqrt_sqrt by lra; reflexivity). set (r6 := RtoC (sqrt 6)) in *. clearbody r6.
  unfold C4. cbn [pow]. rewrite !RtoC_mult. set (K := RtoC Kn). set (cc := RtoC c). set (ss := RtoC s). set (CB := RtoC cB). set (SB := RtoC sB). clearbody K cc ss CB SB.
  cnum. ring [H S6].
Qed.
(** the moduli depend only on the angle between the line of sight and the direction (beta, alpha), the precessing orbital axis *)
Lemma Cmod2 z : Cmod z * Cmod z = fst z ^ 2 + snd z ^ 2.
Proof. unfold Cmod. apply sqrt_sqrt. pose proof (pow2_ge_0 (fst z)). pose proof (pow2_ge_0 (snd z)). lra. Qed.
Lemma C4_mod z : Cmod (C4 z) = (Cmod z * Cmod z) ^ 2.
Proof. unfold C4. rewrite !Cmod_mult. ring. Qed.
Theorem twist_moduli al be th cB sB : cB = cos (be / 2) -> sB = sin (be / 2) -> let x := vdot (direction th 0) (direction be al) in
  Cmod (T2m al cB sB (Y2 th)) = Kn * (1 - x) ^ 2 /\ Cmod (Tm2m al cB sB (Y2 th)) = Kn * (1 + x) ^ 2.
Proof.
  intros EC ES x. assert (PK := Kn_pos). rewrite T2m_closed, Tm2m_closed, !Cmod_mult, !cis_mod, !C4_mod, !Cmod2, Cmod_R, Rabs_right by lra.
  assert (SB := sc (be / 2)). assert (ST := sc (th / 2)). assert (SA := sc al).
  assert (EX : x = (cB * cB - sB * sB) * (cos (th / 2) * cos (th / 2) - sin (th / 2) * sin (th / 2)) + 4 * cB * sB * cos (th / 2) * sin (th / 2) * cos al).
  { unfold x, vdot, direction. cbn [vx vy vz]. rewrite cos_0, sin_0. replace (cos be) with (cB * cB - sB * sB) by (rewrite EC, ES, <- cos_2a; f_equal; field). replace (sin be) with (2 * sB * cB) by (rewrite EC, ES, <- sin_2a; f_equal; field).
    replace (cos th) with (cos (th / 2) * cos (th / 2) - sin (th / 2) * sin (th / 2)) by (rewrite <- cos_2a; f_equal; field). replace (sin th) with (2 * sin (th / 2) * cos (th / 2)) by (rewrite <- sin_2a; f_equal; field). ring. }
  rewrite <- EC, <- ES in SB. set (c := cos (th / 2)) in *. set (s := sin (th / 2)) in *. set (ca := cos al) in *. set (sa := sin al) in *.
  unfold cis_, Cminus, Cplus, Copp, Cmult, RtoC. cbn [fst snd]. fold ca sa.
  assert (R1 : (ca * (cB * s) - sa * 0 + - (sB * c)) ^ 2 + (ca * 0 + sa * (cB * s) + - 0) ^ 2 = (1 - x) / 2).
  { rewrite EX. transitivity (cB * cB * (s * s) * (sa * sa + ca * ca) + sB * sB * (c * c) - 2 * cB * sB * c * s * ca); [ring|]. rewrite SA.
    replace (s * s) with (1 - c * c) by lra. replace (sB * sB) with (1 - cB * cB) by lra. field. }
  assert (R2 : (ca * (cB * c) - sa * 0 + sB * s) ^ 2 + (ca * 0 + sa * (cB * c) + 0) ^ 2 = (1 + x) / 2).
  { rewrite EX. transitivity (cB * cB * (c * c) * (sa * sa + ca * ca) + sB * sB * (s * s) + 2 * cB * sB * c * s * ca); [ring|]. rewrite SA.
    replace (s * s) with (1 - c * c) by lra. replace (sB * sB) with (1 - cB * cB) by lra. field. }
  rewrite R1, R2. split; field.
Qed.
