(** Property C56: the spin terms of the TaylorF2 phasing, as published (symmetric and antisymmetric spin
    combinations, Khan et al. 2016 eqs. B6-B13 for the terms linear in spin; quadratic terms per body). *)
From Coq Require Import Reals Lra.
From Coquelicot Require Import Coquelicot.
From Verif Require Import Base Conv_model Conv_props Wave_model Wave_props Tf2_model Tf2_props.
Local Open Scope R_scope.

Section Published.
Variables (m1 m2 chi1 chi2 : R).
(** symmetric mass ratio, mass asymmetry, symmetric and antisymmetric spins *)
Definition pub_eta : R := m1 * m2 / (m1 + m2) ^ 2.
Definition pub_delta : R := (m1 - m2) / (m1 + m2).
Definition pub_chis : R := (chi1 + chi2) / 2.
Definition pub_chia : R := (chi1 - chi2) / 2.
(** fractions of the total mass *)
Definition pub_x1 : R := m1 / (m1 + m2).
Definition pub_x2 : R := m2 / (m1 + m2).
End Published.

Theorem tf2_spin_coefficients m1 m2 chi1 chi2 : 0 < m1 -> 0 < m2 ->
  let eta := pub_eta m1 m2 in let delta := pub_delta m1 m2 in
  let chis := pub_chis chi1 chi2 in let chia := pub_chia chi1 chi2 in
  let x1 := pub_x1 m1 m2 in let x2 := pub_x2 m1 m2 in
  let c := tf2_coeffs m1 m2 chi1 chi2 in
  let spin5 := delta * (- 732985 / 2268 - 140 / 9 * eta) * chia + (- 732985 / 2268 + 24260 / 81 * eta + 340 / 9 * eta ^ 2) * chis in
  p_N c = 3 / (128 * eta)
  /\ p2 c = 3715 / 756 + 55 / 9 * eta
  /\ p3 c = - 16 * PI + 113 / 3 * delta * chia + (113 / 3 - 76 / 3 * eta) * chis
  /\ p4 c = 15293365 / 508032 + 27145 / 504 * eta + 3085 / 72 * eta ^ 2
            + (- 405 / 8 + 200 * eta) * chia ^ 2 - 405 / 4 * delta * chia * chis + (- 405 / 8 + 5 / 2 * eta) * chis ^ 2
  /\ p5 c = 38645 / 756 * PI - 65 / 9 * PI * eta + spin5
  /\ p5l c = 3 * (38645 / 756 * PI - 65 / 9 * PI * eta + spin5)
  /\ p6l c = - 6848 / 21
  /\ p6 c = 11583231236531 / 4694215680 - 6848 / 21 * (EulerGamma + ln 4) - 640 / 3 * PI ^ 2
            + (- 15737765635 / 3048192 + 2255 / 12 * PI ^ 2) * eta + 76055 / 1728 * eta ^ 2 - 127825 / 1296 * eta ^ 3
            + (2270 / 3 * PI * delta * chia + (2270 / 3 * PI - 520 * PI * eta) * chis)
            + (32675 / 112 + 5575 / 18 * eta) * eta * chi1 * chi2
            + x1 ^ 2 * (- 1645 / 32 + 1595 / 4 * x1 - 3065 / 36 * x1 ^ 2) * chi1 ^ 2
            + x2 ^ 2 * (- 1645 / 32 + 1595 / 4 * x2 - 3065 / 36 * x2 ^ 2) * chi2 ^ 2
  /\ p7 c = 77096675 / 254016 * PI + 378515 / 1512 * PI * eta - 74045 / 756 * PI * eta ^ 2
            + delta * (- 25150083775 / 3048192 + 26804935 / 6048 * eta - 1985 / 48 * eta ^ 2) * chia
            + (- 25150083775 / 3048192 + 10566655595 / 762048 * eta - 1042165 / 3024 * eta ^ 2 + 5345 / 36 * eta ^ 3) * chis.
Proof.
  intros H1 H2. unfold tf2_coeffs, pub_eta, pub_delta, pub_chis, pub_chia, pub_x1, pub_x2. cbv zeta. cbn [p_N p2 p3 p4 p5 p5l p6 p6l p7].
  repeat split; try lra; field; lra.
Qed.
(** the hypotheses are met: equal masses, aligned maximal spins give 1.5PN coefficient -16 pi + 94/3 *)
Example tf2_spin_equal : p3 (tf2_coeffs 30 30 1 1) = - 16 * PI + 94 / 3.
Proof. unfold tf2_coeffs. cbn [p3]. lra. Qed.
