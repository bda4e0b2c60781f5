(** Model of ml4gw/waveforms/cbc/taylorf2.py, one batch element and one frequency at a time, in real arithmetic.
    (The [.mT] arithmetic applies a (batch,) coefficient to each row of a (batch, frequency) array.) *)
From Coq Require Import Reals Lra.
From Coquelicot Require Import Coquelicot.
From Verif Require Import Base Conv_model.
Local Open Scope R_scope.

(** 150-306, the coefficients of [taylorf2_phase] *)
Record tf2c := mktf { p_N : R; p2 : R; p3 : R; p4 : R; p5 : R; p5l : R; p6 : R; p6l : R; p7 : R }.
Definition tf2_coeffs (mass1 mass2 chi1 chi2 : R) : tf2c :=
  let M := mass1 + mass2 in
  let eta := mass1 * mass2 / M / M in
  let m1M := mass1 / M in let m2M := mass2 / M in
  let chi1sq := chi1 * chi1 in let chi2sq := chi2 * chi2 in
  let so5 m := 13915 / 84 - 10 / 3 * m * (1 - m) + m * (12760 / 81 + 170 / 9 * m * (1 - m)) in  (* 203-206 *)
  let ss6 m := (47035 / 84 + 2935 / 6 * m - 120 * m * m) * m * m
               + (- 410825 / 672 - 1085 / 12 * m + 1255 / 36 * m * m) * m * m in                (* 248-272 *)
  let so7 m := m * (- 170978035 / 48384 + eta * 2876425 / 672 + eta * eta * 4735 / 144
               + m * (- 7189233785 / 1524096 + eta * 458555 / 3024 - eta * eta * 5345 / 72)) in (* 281-306 *)
  let pv6l := - 6848 / 21 in                                                                    (* 232 *)
  mktf (3 / (128 * eta))                                                                        (* 169 *)
    (5 * (743 / 84 + 11 * eta) / 9)                                                             (* 172 *)
    (- 16 * PI + (m1M * (25 + 38 / 3 * m1M) * chi1 + m2M * (25 + 38 / 3 * m2M) * chi2))         (* 173-178 *)
    (5 * (3058673 / 7056 + 5429 / 7 * eta + 617 * eta * eta) / 72                               (* 179-183 *)
      + (2470 / 48 * eta * chi1 * chi2 + - 7210 / 48 * eta * chi1 * chi2
         + (- 7200 / 96 * m1M * m1M + 10 / 96 * m1M * m1M) * chi1sq + (- 7200 / 96 * m2M * m2M + 10 / 96 * m2M * m2M) * chi2sq
         + (2400 / 96 * m1M * m1M + - 70 / 96 * m1M * m1M) * chi1sq + (2400 / 96 * m2M * m2M + - 70 / 96 * m2M * m2M) * chi2sq))  (* 185-196 *)
    (5 / 9 * (7729 / 84 - 13 * eta) * PI + (- m1M * so5 m1M * chi1 + - m2M * so5 m2M * chi2))   (* 198, 216-231 *)
    (5 / 3 * (7729 / 84 - 13 * eta) * PI + 3 * (- m1M * so5 m1M * chi1 - m2M * so5 m2M * chi2)) (* 197, 200-215 *)
    (11583231236531 / 4694215680 - 640 / 3 * PI * PI - 6848 / 21 * EulerGamma
      + eta * (- 15737765635 / 3048192 + 2255 / 12 * PI * PI) + eta * eta * 76055 / 1728 - eta * eta * eta * 127825 / 1296
      + pv6l * ln 4                                                                             (* 233-241 *)
      + (PI * m1M * (1490 / 3 + m1M * 260) * chi1 + PI * m2M * (1490 / 3 + m2M * 260) * chi2
         + (32675 / 112 + 5575 / 18 * eta) * eta * chi1 * chi2 + ss6 m1M * chi1sq + ss6 m2M * chi2sq))  (* 243-273 *)
    pv6l
    (PI * (77096675 / 254016 + 378515 / 1512 * eta - 74045 / 756 * eta * eta) + (so7 m1M * chi1 + so7 m2M * chi2)).  (* 274-306 *)
(** 157-166, 307-335: the phase and "its derivative w.r.t. Mf" *)
Definition tf2_phase (c : tf2c) (Mf : R) : R * R :=
  let v1 := Rpower (PI * Mf) (1 / 3) in
  let v2 := v1 * v1 in let v3 := v2 * v1 in let v4 := v3 * v1 in let v5 := v4 * v1 in let v6 := v5 * v1 in let v7 := v6 * v1 in
  let logv := ln v1 in
  let ph := v7 * p7 c in
  let ph := ph + (v6 * p6 c + v6 * logv * p6l c) in
  let ph := ph + (v5 * p5 c + v5 * logv * p5l c) in
  let ph := ph + v4 * p4 c in let ph := ph + v3 * p3 c in let ph := ph + v2 * p2 c in
  let ph := ph + 1 in
  let ph := ph / v5 * p_N c in
  let d := 2 * v7 * p7 c in
  let d := d + v6 * (p6 c + p6l c) in let d := d + v6 * logv * p6l c in let d := d + v5 * p5l c in
  let d := d + - 1 * v4 * p4 c in let d := d + - 2 * v3 * p3 c in let d := d + - 3 * v2 * p2 c in
  let d := d - 5 in
  let d := d / (3 * v1 * v7) * PI * p_N c in
  (ph, d).
(** 112-137, [taylorf2_amplitude] *)
Definition tf2_amplitude (Mf mass1 mass2 eta distance : R) : R :=
  let m1s := mass1 * MTSUN_SI in let m2s := mass2 * MTSUN_SI in
  let v := Rpower (PI * Mf) (1 / 3) in let v10 := v ^ 10 in
  let FTaN := 32 * eta * eta / 5 in let dETaN := 2 * (- eta / 2) in
  let amp0 := - 4 * m1s * m2s * sqrt (PI / 12) / (distance * MPC_SEC) in
  let flux := v10 * FTaN in let dEnergy := v * dETaN in
  sqrt (- dEnergy / flux) * v * amp0.
(** 83-110, [taylorf2_htilde] *)
Definition tf2_htilde (f mass1 mass2 chi1 chi2 distance phic f_ref : R) : C :=
  let m1s := mass1 * MTSUN_SI in let m2s := mass2 * MTSUN_SI in let Ms := m1s + m2s in
  let eta := m1s * m2s / Ms / Ms in
  let c := tf2_coeffs mass1 mass2 chi1 chi2 in
  let Psi := fst (tf2_phase c (Ms * f)) - 2 * phic - fst (tf2_phase c (Ms * f_ref)) in
  let amp := tf2_amplitude (Ms * f) mass1 mass2 eta distance in
  let th := - (Psi - PI / 4) in
  (amp * cos th, amp * sin th).
(** 14-81: (hc, hp) for parameters of one batch element *)
Definition tf2_one (f mc q chi1 chi2 distance phic inclination f_ref : R) : C * C :=
  let (m1, m2) := components mc q in
  let cfac := cos inclination in let pfac := 5 / 10 * (1 + cfac * cfac) in
  let h := tf2_htilde f m1 m2 chi1 chi2 distance phic f_ref in
  (Cmult (Copp (Cmult Ci h)) (RtoC cfac), Cmult h (RtoC pfac)).
(** the module on lists of batch parameters: 56-81 *)
Definition tf2_forward (f : list R) (mc q chi1 chi2 distance phic inclination : list R) (f_ref : R) : res (list (list (C * C))) :=
  let n := List.length mc in
  if forallb (fun l => List.length l =? n)%nat [q; chi1; chi2; distance; phic; inclination] then
    Ok (map (fun i => map (fun fj => tf2_one fj (nth i mc 0) (nth i q 0) (nth i chi1 0) (nth i chi2 0) (nth i distance 0) (nth i phic 0) (nth i inclination 0) f_ref) f) (seq 0 n))
  else Err ValueError.
