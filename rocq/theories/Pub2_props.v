(** Property C71: the precession angles of IMRPhenomPv2 as post-Newtonian series in the orbital frequency,
    written with the mass ratio k = m1/m2 <= 1 (q = 1/k is the code's argument), chi_l and chi_p. *)
From Coq Require Import Reals Lra.
From Coquelicot Require Import Coquelicot.
From Verif Require Import Base Conv_model Conv_props Php_fits Php_model Pub_props.
Local Open Scope R_scope.

Section Angles.
Variables (k chil chip : R).
Definition nn_eta : R := k / (1 + k) ^ 2.
Definition nn_x2 : R := / (1 + k).
(** the terms without in-plane spin: the angle epsilon *)
Definition nn1 (c : R) : R := c - 5 / 64 * (k - 1).
Definition nn2 : R := - 5 / 128 * (3 + 4 / k) * chil.
Definition nn3 (c : R) : R := c - 4555 / 7168 * (k - 1) - nn_eta * (515 / 384 + 15 / 256 * (k - 1) ^ 2 + 175 / 256 * (k - 1)).
Definition nn4 : R := - PI * (35 / 48 + 5 / 16 * (k - 1)) + chil * nn_x2 ^ 2 * (5 / 16 * (k - 1) ^ 2 + 5 / 3 * (k - 1) + 2545 / 1152)
  + chil / k * (2035 / 21504 * (k - 1) + 2995 / 9216).
Definition nn5 (c : R) : R := c + 27895885 / 21676032 * (k - 1)
  + nn_eta * (39695 / 86016 + 1615 / 28672 * (k - 1) ^ 2 - 265 / 14336 * (k - 1))
  + nn_eta ^ 2 * (955 / 576 + 15 / 1024 * (k - 1) ^ 3 + 35 / 256 * (k - 1) ^ 2 + 2725 / 3072 * (k - 1))
  - 5 / 16 * PI * chil * (3 + 4 / k)
  + chil ^ 2 * nn_x2 ^ 2 / k * (375 / 256 * (k - 1) ^ 2 + 1815 / 256 * (k - 1) + 1645 / 192).
(** what in-plane spin adds to alpha *)
Definition in3 : R := - 5 / 128 * (3 * k + 4) * (chip / k) ^ 2.
Definition in4 : R := - 5 / 384 * (3 * k + 4) * chil * chip ^ 2 / k ^ 3.
Definition in5 : R := 5 / 512 * (3 * k + 4) * chip ^ 2 * (4 * chil ^ 2 - chip ^ 2) / k ^ 4
  + (chip / k) ^ 2 * (475 / 6144 - 485 / 14336 * (k - 1)) + chip ^ 2 * nn_x2 ^ 2 / k * (15 / 256 * (k - 1) ^ 2 + 145 / 512 * (k - 1) + 575 / 1536).
End Angles.
Definition pn_angle (c1 c2 c3 c4 c5 w : R) : R := c1 / w + c2 / Rpower w (2 / 3) + c3 / Rpower w (1 / 3) + c4 * ln w + c5 * Rpower w (1 / 3).

Theorem pp_precession_angles : exists c1 c3 c5,
  near (1 / 10000000000000000) c1 (- 35 / 192) /\ near (1 / 1000000000000000) c3 (- 5515 / 3072) /\ near (1 / 1000000000000000) c5 (4318908476114695 / 1000000000000000)
  /\ forall k chil chip w, 0 < k -> 0 < w ->
     pp_epsilon (/ k) chil chip w = pn_angle (nn1 k c1) (nn2 k chil) (nn3 k c3) (nn4 k chil) (nn5 k chil c5) w
     /\ pp_alpha (/ k) chil chip w = pn_angle (nn1 k c1) (nn2 k chil) (nn3 k c3 + in3 k chip) (nn4 k chil + in4 k chil chip) (nn5 k chil c5 + in5 k chil chip) w.
Proof.
  exists (- (18229166666666666 / 100000000000000000)), (- (17952473958333333 / 10000000000000000)), (4318908476114694 / 1000000000000000).
  repeat match goal with |- near _ _ _ /\ _ => split; [unfold near; apply Rabs_le; lra|] end.
  intros k chil chip w Hk Hw.
  assert (Ew : Rpower w (1 / 3) * Rpower w (1 / 3) = Rpower w (2 / 3)) by (rewrite <- Rpower_plus; f_equal; lra).
  unfold pp_epsilon, pp_alpha, pn_angle. rewrite Ew.
  assert (K1 : 0 < 1 + k) by lra. assert (K2 : 0 < 1 + / k) by (pose proof (Rinv_0_lt_compat k Hk); lra).
  assert (F : forall a a' b b' c c' d d' e e' : R, a = a' -> b = b' -> c = c' -> d = d' -> e = e' ->
    a / w + b / Rpower w (2 / 3) + c / Rpower w (1 / 3) + d * ln w + e * Rpower w (1 / 3) = a' / w + b' / Rpower w (2 / 3) + c' / Rpower w (1 / 3) + d' * ln w + e' * Rpower w (1 / 3)) by (intros; subst; reflexivity).
  split; apply F;
    unfold epsiloncoeff1, epsiloncoeff2, epsiloncoeff3, epsiloncoeff4, epsiloncoeff5, alphacoeff1, alphacoeff2, alphacoeff3, alphacoeff4, alphacoeff5, nn1, nn2, nn3, nn4, nn5, in3, in4, in5, nn_eta, nn_x2;
    cbv zeta; (field || (unfold Rdiv; field)); repeat split; try lra; nra.
Qed.
(** the leading term is the ratio of the leading-order precession rate (2 + 3 k / 2) eta w^(5/3) to the quadrupole chirp rate 96/5 eta w^(11/3) *)
Theorem pp_leading_precession k e w : 0 < k -> 0 < w -> 0 < e ->
  is_derive (fun w => nn1 k (- 35 / 192) / w) w (((2 + 3 / 2 * k) * e * Rpower w (5 / 3)) / (96 / 5 * e * Rpower w (11 / 3))).
Proof.
  intros Hk Hw He. replace (11 / 3) with (5 / 3 + 2) by lra. rewrite Rpower_plus.
  replace (Rpower w 2) with (w ^ 2). 2:{ rewrite <- (Rpower_pow 2) by assumption. f_equal; cbn [INR]; try lra. }
  pose proof (Rpower_pos w (5 / 3)) as P. unfold nn1. auto_derive; [lra|]. field. lra.
Qed.
(** at equal masses and no spin the two leading coefficients are -35/192 and -5515/3072 - 515/1536 *)
Example nn3_equal : nn3 1 (- 5515 / 3072) = - 6545 / 3072.
Proof. unfold nn3, nn_eta. lra. Qed.
