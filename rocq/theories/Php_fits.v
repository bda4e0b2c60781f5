(** The NNLO angle coefficients of ml4gw/waveforms/cbc/phenom_p.py, translated from the source by tools/gen_phenom.py. *)
From Coq Require Import Reals.
Local Open Scope R_scope.

(** phenom_p.py 682-684, [alphacoeff1] *)
Definition alphacoeff1 (q chil chip : R) : R :=
  let m2 := q / (1 + q) in
  let m1 := 1 / (1 + q) in
  let dm := m1 - m2 in
  (- (18229166666666666 / 100000000000000000)) - 5 * dm / (64 * m2).
(** phenom_p.py 686-688, [alphacoeff2] *)
Definition alphacoeff2 (q chil chip : R) : R :=
  let m2 := q / (1 + q) in
  let m1 := 1 / (1 + q) in
  let dm := m1 - m2 in
  let mtot := 1 in
  let eta := m1 * m2 in
  let mtot2 := mtot * mtot in
  let m2_2 := m2 * m2 in
  (- 15) * dm * m2 * chil / (128 * mtot2 * eta) - 35 * m2_2 * chil / (128 * mtot2 * eta).
(** phenom_p.py 690-698, [alphacoeff3] *)
Definition alphacoeff3 (q chil chip : R) : R :=
  let m2 := q / (1 + q) in
  let m1 := 1 / (1 + q) in
  let dm := m1 - m2 in
  let mtot := 1 in
  let eta := m1 * m2 in
  let eta2 := eta * eta in
  let mtot2 := mtot * mtot in
  let mtot4 := mtot2 * mtot2 in
  let chip2 := chip * chip in
  let dm2 := dm * dm in
  let m2_2 := m2 * m2 in
  let m2_3 := m2_2 * m2 in
  let m2_4 := m2_3 * m2 in
  (- (17952473958333333 / 10000000000000000)) - 4555 * dm / (7168 * m2) - 15 * chip2 * dm * m2_3 / (128 * mtot4 * eta2) - 35 * chip2 * m2_4 / (128 *
  mtot4 * eta2) - 515 * eta / 384 - 15 * dm2 * eta / (256 * m2_2) - 175 * dm * eta / (256 * m2).
(** phenom_p.py 700-710, [alphacoeff4] *)
Definition alphacoeff4 (q chil chip : R) : R :=
  let m2 := q / (1 + q) in
  let m1 := 1 / (1 + q) in
  let dm := m1 - m2 in
  let mtot := 1 in
  let eta := m1 * m2 in
  let eta2 := eta * eta in
  let eta3 := eta2 * eta in
  let mtot2 := mtot * mtot in
  let mtot4 := mtot2 * mtot2 in
  let mtot6 := mtot4 * mtot2 in
  let chip2 := chip * chip in
  let dm2 := dm * dm in
  let m2_2 := m2 * m2 in
  let m2_3 := m2_2 * m2 in
  let m2_4 := m2_3 * m2 in
  let m2_5 := m2_4 * m2 in
  let m2_6 := m2_5 * m2 in
  (- (35 * PI)) / 48 - 5 * dm * PI / (16 * m2) + 5 * dm2 * chil / (16 * mtot2) + 5 * dm * m2 * chil / (3 * mtot2) + 2545 * m2_2 * chil / (1152 * mtot2)
  - 5 * chip2 * dm * m2_5 * chil / (128 * mtot6 * eta3) - 35 * chip2 * m2_6 * chil / (384 * mtot6 * eta3) + 2035 * dm * m2 * chil / (21504 * mtot2 *
  eta) + 2995 * m2_2 * chil / (9216 * mtot2 * eta).
(** phenom_p.py 712-736, [alphacoeff5] *)
Definition alphacoeff5 (q chil chip : R) : R :=
  let m2 := q / (1 + q) in
  let m1 := 1 / (1 + q) in
  let dm := m1 - m2 in
  let mtot := 1 in
  let eta := m1 * m2 in
  let eta2 := eta * eta in
  let eta3 := eta2 * eta in
  let eta4 := eta3 * eta in
  let mtot2 := mtot * mtot in
  let mtot4 := mtot2 * mtot2 in
  let mtot6 := mtot4 * mtot2 in
  let mtot8 := mtot6 * mtot2 in
  let chil2 := chil * chil in
  let chip2 := chip * chip in
  let chip4 := chip2 * chip2 in
  let dm2 := dm * dm in
  let dm3 := dm2 * dm in
  let m2_2 := m2 * m2 in
  let m2_3 := m2_2 * m2 in
  let m2_4 := m2_3 * m2 in
  let m2_5 := m2_4 * m2 in
  let m2_6 := m2_5 * m2 in
  let m2_7 := m2_6 * m2 in
  let m2_8 := m2_7 * m2 in
  (4318908476114694 / 1000000000000000) + 27895885 * dm / (21676032 * m2) - 15 * chip4 * dm * m2_7 / (512 * mtot8 * eta4) - 35 * chip4 * m2_8 / (512 *
  mtot8 * eta4) - 485 * chip2 * dm * m2_3 / (14336 * mtot4 * eta2) + 475 * chip2 * m2_4 / (6144 * mtot4 * eta2) + 15 * chip2 * dm2 * m2_2 / (256 * mtot4
  * eta) + 145 * chip2 * dm * m2_3 / (512 * mtot4 * eta) + 575 * chip2 * m2_4 / (1536 * mtot4 * eta) + 39695 * eta / 86016 + 1615 * dm2 * eta / (28672 *
  m2_2) - 265 * dm * eta / (14336 * m2) + 955 * eta2 / 576 + 15 * dm3 * eta2 / (1024 * m2_3) + 35 * dm2 * eta2 / (256 * m2_2) + 2725 * dm * eta2 / (3072
  * m2) - 15 * dm * m2 * PI * chil / (16 * mtot2 * eta) - 35 * m2_2 * PI * chil / (16 * mtot2 * eta) + 15 * chip2 * dm * m2_7 * chil2 / (128 * mtot8 *
  eta4) + 35 * chip2 * m2_8 * chil2 / (128 * mtot8 * eta4) + 375 * dm2 * m2_2 * chil2 / (256 * mtot4 * eta) + 1815 * dm * m2_3 * chil2 / (256 * mtot4 *
  eta) + 1645 * m2_4 * chil2 / (192 * mtot4 * eta).
(** phenom_p.py 738-740, [epsiloncoeff1] *)
Definition epsiloncoeff1 (q chil chip : R) : R :=
  let m2 := q / (1 + q) in
  let m1 := 1 / (1 + q) in
  let dm := m1 - m2 in
  (- (18229166666666666 / 100000000000000000)) - 5 * dm / (64 * m2).
(** phenom_p.py 741-743, [epsiloncoeff2] *)
Definition epsiloncoeff2 (q chil chip : R) : R :=
  let m2 := q / (1 + q) in
  let m1 := 1 / (1 + q) in
  let dm := m1 - m2 in
  let mtot := 1 in
  let eta := m1 * m2 in
  let mtot2 := mtot * mtot in
  let m2_2 := m2 * m2 in
  (- 15) * dm * m2 * chil / (128 * mtot2 * eta) - 35 * m2_2 * chil / (128 * mtot2 * eta).
(** phenom_p.py 744-750, [epsiloncoeff3] *)
Definition epsiloncoeff3 (q chil chip : R) : R :=
  let m2 := q / (1 + q) in
  let m1 := 1 / (1 + q) in
  let dm := m1 - m2 in
  let eta := m1 * m2 in
  let dm2 := dm * dm in
  let m2_2 := m2 * m2 in
  (- (17952473958333333 / 10000000000000000)) - 4555 * dm / (7168 * m2) - 515 * eta / 384 - 15 * dm2 * eta / (256 * m2_2) - 175 * dm * eta / (256 * m2).
(** phenom_p.py 751-759, [epsiloncoeff4] *)
Definition epsiloncoeff4 (q chil chip : R) : R :=
  let m2 := q / (1 + q) in
  let m1 := 1 / (1 + q) in
  let dm := m1 - m2 in
  let mtot := 1 in
  let eta := m1 * m2 in
  let mtot2 := mtot * mtot in
  let dm2 := dm * dm in
  let m2_2 := m2 * m2 in
  (- (35 * PI)) / 48 - 5 * dm * PI / (16 * m2) + 5 * dm2 * chil / (16 * mtot2) + 5 * dm * m2 * chil / (3 * mtot2) + 2545 * m2_2 * chil / (1152 * mtot2)
  + 2035 * dm * m2 * chil / (21504 * mtot2 * eta) + 2995 * m2_2 * chil / (9216 * mtot2 * eta).
(** phenom_p.py 760-775, [epsiloncoeff5] *)
Definition epsiloncoeff5 (q chil chip : R) : R :=
  let m2 := q / (1 + q) in
  let m1 := 1 / (1 + q) in
  let dm := m1 - m2 in
  let mtot := 1 in
  let eta := m1 * m2 in
  let eta2 := eta * eta in
  let mtot2 := mtot * mtot in
  let mtot4 := mtot2 * mtot2 in
  let chil2 := chil * chil in
  let dm2 := dm * dm in
  let dm3 := dm2 * dm in
  let m2_2 := m2 * m2 in
  let m2_3 := m2_2 * m2 in
  let m2_4 := m2_3 * m2 in
  (4318908476114694 / 1000000000000000) + 27895885 * dm / (21676032 * m2) + 39695 * eta / 86016 + 1615 * dm2 * eta / (28672 * m2_2) - 265 * dm * eta /
  (14336 * m2) + 955 * eta2 / 576 + 15 * dm3 * eta2 / (1024 * m2_3) + 35 * dm2 * eta2 / (256 * m2_2) + 2725 * dm * eta2 / (3072 * m2) - 15 * dm * m2 *
  PI * chil / (16 * mtot2 * eta) - 35 * m2_2 * PI * chil / (16 * mtot2 * eta) + 375 * dm2 * m2_2 * chil2 / (256 * mtot4 * eta) + 1815 * dm * m2_3 *
  chil2 / (256 * mtot4 * eta) + 1645 * m2_4 * chil2 / (192 * mtot4 * eta).
