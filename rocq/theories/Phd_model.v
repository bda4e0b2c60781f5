(** Model of ml4gw/waveforms/cbc/phenom_d.py, one batch element and one frequency at a time, in real arithmetic.
    (The [.mT] arithmetic applies a (batch,) coefficient to each row of a (batch, frequency) array.)
    The fits are in Phd_fits.v, the quasi-normal-mode tables in Phd_data.v. Integer powers of positive numbers are written as such. *)
From Coq Require Import Reals Lra.
From Coquelicot Require Import Coquelicot.
From Verif Require Import Base Conv_model Tf2_model Phd_fits Phd_data.
Local Open Scope R_scope.

Definition theta (b : bool) : R := if b then 1 else 0.
Definition le_ (x y : R) : bool := if Rle_dec x y then true else false.
Definition gt_ (x y : R) : bool := if Rlt_dec y x then true else false.

(** the quantities handed around by [phenom_d_htilde] (and by PhenomPv2); eta2 is always eta * eta *)
Record dpar := mkd { d_m1 : R; d_m2 : R; d_eta : R; d_Seta : R; d_chi1 : R; d_chi2 : R; d_chi12 : R; d_chi22 : R; d_xi : R; d_fRD : R; d_fDM : R }.
Section One.
Variable p : dpar.
Let eta := d_eta p. Let eta2 := eta * eta. Let xi := d_xi p. Let fRD := d_fRD p. Let fDM := d_fDM p. Let chi1 := d_chi1 p. Let chi2 := d_chi2 p.

(** 505-549, [subtract3PNSS] *)
Definition sub3PNSS (Mf : R) : R * R :=
  let M := d_m1 p + d_m2 p in
  let v1 := Rpower (PI * Mf) (1 / 3) in let v5 := v1 ^ 5 in let v6 := v1 ^ 6 in let v7 := v1 ^ 7 in
  let pfaN := 3 / (128 * eta) in
  let ss := pn_ss3 eta (d_m1 p / M) (d_m2 p / M) chi1 chi2 in
  (v6 * ss / v5 * pfaN, PI * (v6 * ss) / (3 * v1 * v7) * pfaN).
(** 551-581, [phenom_d_inspiral_phase] *)
Definition ins_phase (Mf : R) : R * R :=
  let tf := tf2_phase (tf2_coeffs (d_m1 p) (d_m2 p) chi1 chi2) Mf in
  let ss := sub3PNSS Mf in
  let sigma1 := sigma1Fit eta eta2 xi in let sigma2 := sigma2Fit eta eta2 xi in let sigma3 := sigma3Fit eta eta2 xi in let sigma4 := sigma4Fit eta eta2 xi in
  (fst tf - fst ss + Mf * sigma1 / eta + Rpower Mf (4 / 3) * (75 / 100) * sigma2 / eta + Rpower Mf (5 / 3) * (6 / 10) * sigma3 / eta + Mf ^ 2 * (5 / 10) * sigma4 / eta,
   snd tf - snd ss + sigma1 / eta + Rpower Mf (1 / 3) * sigma2 / eta + Rpower Mf (2 / 3) * sigma3 / eta + Mf * sigma4 / eta).
(** 486-503, [phenom_d_int_phase]: the phase without its factor 1/eta, the derivative with it *)
Definition int_phase (Mf : R) : R * R :=
  let beta1 := beta1Fit eta eta2 xi in let beta2 := beta2Fit eta eta2 xi in let beta3 := beta3Fit eta eta2 xi in
  (Mf * beta1 + ln Mf * beta2 - / Mf ^ 3 / 3 * beta3, (/ Mf ^ 4 * beta3 + / Mf * beta2 + beta1) / eta).
(** 462-484, [phenom_d_mrd_phase]: likewise *)
Definition mrd_phase (Mf : R) : R * R :=
  let alpha1 := alpha1Fit eta eta2 xi in let alpha2 := alpha2Fit eta eta2 xi in let alpha3 := alpha3Fit eta eta2 xi in let alpha4 := alpha4Fit eta eta2 xi in let alpha5 := alpha5Fit eta eta2 xi in
  let u := Mf - alpha5 * fRD in
  (Mf * alpha1 - 1 / Mf * alpha2 + 4 / 3 * (Rpower Mf (3 / 4) * alpha3) + atan (u / fDM) * alpha4,
   (alpha4 * fDM / (u ^ 2 + fDM ^ 2) + Rpower Mf (- (1 / 4)) * alpha3 + / Mf ^ 2 * alpha2 + alpha1) / eta).
(** 400-460, [phenom_d_phase] *)
Definition phi_join : R := 18 / 1000.
Definition C2Int : R := snd (ins_phase phi_join) - snd (int_phase phi_join).
Definition C1Int : R := fst (ins_phase phi_join) - fst (int_phase phi_join) / eta - C2Int * phi_join.
Definition rd_join : R := 5 / 10 * fRD.
Definition C2MRD : R := C2Int + snd (int_phase rd_join) - snd (mrd_phase rd_join).
Definition C1MRD : R := fst (int_phase rd_join) / eta + C1Int + C2Int * rd_join - fst (mrd_phase rd_join) / eta - C2MRD * rd_join.
Definition pd_phase (Mf : R) : R * R :=
  let int_ := fst (int_phase Mf) / eta + C1Int + Mf * C2Int in
  let mrd_ := fst (mrd_phase Mf) / eta + C1MRD + Mf * C2MRD in
  (theta (le_ Mf phi_join) * fst (ins_phase Mf) + theta (gt_ Mf phi_join) * int_ * theta (le_ Mf rd_join) + theta (gt_ Mf rd_join) * mrd_,
   theta (le_ Mf phi_join) * snd (ins_phase Mf) + theta (gt_ Mf phi_join) * snd (int_phase Mf) * theta (le_ Mf rd_join) + theta (gt_ Mf rd_join) * snd (mrd_phase Mf)).

(** 275-398, [phenom_d_inspiral_amp] *)
Definition ins_amp (Mf : R) : R * R :=
  let pre f := f eta eta2 (d_Seta p) xi chi1 chi2 (d_chi12 p) (d_chi22 p) : R in
  let t1 := Rpower Mf (1 / 3) in let t2 := t1 * t1 in let t4 := t2 * t2 in let t5 := t4 * t1 in let t7 := t5 * t2 in let t8 := t7 * t1 in let f2 := Mf * Mf in let f3 := f2 * Mf in
  (1 + (t2 * pre prefactors_two_thirds + t4 * pre prefactors_four_thirds + t5 * pre prefactors_five_thirds + t7 * pre prefactors_seven_thirds
        + t8 * pre prefactors_eight_thirds + Mf * pre prefactors_one + f2 * pre prefactors_two + f3 * pre prefactors_three),
   2 / 3 / t1 * pre prefactors_two_thirds + 4 / 3 * t1 * pre prefactors_four_thirds + 5 / 3 * t2 * pre prefactors_five_thirds + 7 / 3 * t4 * pre prefactors_seven_thirds
        + 8 / 3 * t5 * pre prefactors_eight_thirds + pre prefactors_one + 2 * Mf * pre prefactors_two + 3 * f2 * pre prefactors_three).
Let gamma1 := gamma1_fun eta eta2 xi. Let gamma2 := gamma2_fun eta eta2 xi. Let gamma3 := gamma3_fun eta eta2 xi.
(** 593-596, [fmaxCalc] *)
Definition pd_peak : R := Rabs (fRD + fDM * (- 1 + sqrt (Rmax (1 - gamma2 ^ 2) 0)) * gamma3 / gamma2).
(** 261-273, [phenom_d_mrd_amp] *)
Definition mrd_amp (Mf : R) : R * R :=
  let fg := fDM * gamma3 in let fg2 := fg * fg in let u := Mf - fRD in
  let el := exp (u * gamma2 / fg) * (u ^ 2 + fg2) in
  (1 / el * gamma1 * gamma3 * fDM, (u * - (2) * fDM * gamma1 * gamma3 / (u * u + fg2) - gamma2 * gamma1) / el).
(** 215-259, [phenom_d_int_amp] *)
Definition amp_join : R := 14 / 1000.
Definition int_amp (Mf : R) : R * R :=
  let f1 := amp_join in let f3 := pd_peak in let f2 := f1 + 5 / 10 * (f3 - f1) in
  let (v1, d1) := ins_amp f1 in let (v3, d2) := mrd_amp f3 in
  let v2 := AmpIntColFitCoeff eta eta2 xi in
  let D f := f f1 f2 f3 v1 v2 v3 d1 d2 : R in
  (D delta_0 + Mf * D delta_1 + Mf ^ 2 * (D delta_2 + Mf * D delta_3 + Mf ^ 2 * D delta_4),
   D delta_1 + Mf * (2 * D delta_2 + 3 * Mf * D delta_3 + 4 * Mf ^ 2 * D delta_4)).
(** 153-213, [phenom_d_amp] *)
Definition pd_amp (Mf : R) : R * R :=
  (theta (le_ Mf amp_join) * fst (ins_amp Mf) + theta (gt_ Mf amp_join) * fst (int_amp Mf) * theta (le_ Mf pd_peak) + theta (gt_ Mf pd_peak) * fst (mrd_amp Mf),
   theta (le_ Mf amp_join) * snd (ins_amp Mf) + theta (gt_ Mf amp_join) * snd (int_amp Mf) * theta (le_ Mf pd_peak) + theta (gt_ Mf pd_peak) * snd (mrd_amp Mf)).
End One.

(** torch.bucketize(x, a) on increasing [a]: how many entries are below x *)
Definition bucketize (a : list R) (x : R) : nat := List.length (filter (fun y => gt_ x y) a).
(** 598-630, [_linear_interp_finspin] for one entry: RuntimeError outside the grid *)
Definition off_grid (a : list R) (x : R) : bool := gt_ (nth 0 a 0) x || gt_ x (nth (List.length a - 1) a 0).
Definition interp_right (a : list R) (x : R) : nat := Nat.min (Nat.max (bucketize a x) 1) (List.length a - 1).
Definition interp1 (a y : list R) (x : R) : R :=
  let r := interp_right a x in let l := (r - 1)%nat in
  (nth r y 0 - nth l y 0) / (nth r a 0 - nth l a 0) * (x - nth l a 0) + nth l y 0.
Definition tab (l : list Z) : list R := map (fun z => IZR z / 10000000000) l.
Definition qnm_a : list R := tab QNMData_a_z.
Definition qnm_fring : list R := tab QNMData_fring_z.
Definition qnm_fdamp : list R := tab QNMData_fdamp_z.
(** 583-591, [fring_fdamp] *)
Definition fring_fdamp (eta chi1 chi2 : R) : R * R :=
  let finspin := FinalSpin0815 eta (eta * eta) chi1 chi2 in
  let Erad := PhenomInternal_EradRational0815 eta (eta * eta) chi1 chi2 in
  (interp1 qnm_a qnm_fring finspin / (1 - Erad), interp1 qnm_a qnm_fdamp finspin / (1 - Erad)).

(** 80-151, [phenom_d_htilde]; x ** 1.2, x ** 0.6 and x ** (5/3) of positive x *)
Definition pd_total (mc q : R) : R := mc * Rpower (1 + q) (12 / 10) / Rpower q (6 / 10).
Definition pd_eta (mc q : R) : R := Rpower (mc / pd_total mc q) (5 / 3).
Definition pd_params (mc q chi1 chi2 : R) : dpar :=
  let M := pd_total mc q in let m1 := M / (1 + q) in let m2 := m1 * q in
  let eta := pd_eta mc q in
  let Seta := sqrt (Rmax (1 - 4 * eta) 0) in
  let xi := - 1 + chiPN Seta eta chi1 chi2 in
  let (fRD, fDM) := fring_fdamp eta chi1 chi2 in
  mkd m1 m2 eta Seta chi1 chi2 (chi1 * chi1) (chi2 * chi2) xi fRD fDM.
Definition pd_Psi (p : dpar) (Ms phic f_ref f : R) : R :=
  let t0 := snd (mrd_phase p (pd_peak p)) in
  fst (pd_phase p (Ms * f)) - 2 * phic - fst (pd_phase p (Ms * f_ref)) - (Ms * f - Ms * f_ref) * t0.
Definition pd_htilde (f mc q chi1 chi2 distance phic f_ref : R) : C :=
  let p := pd_params mc q chi1 chi2 in
  let Ms := pd_total mc q * MTSUN_SI in
  let Psi := pd_Psi p Ms phic f_ref f in
  let amp := fst (pd_amp p (Ms * f)) in
  let amp_0 := tf2_amplitude (Ms * f) (d_m1 p) (d_m2 p) (d_eta p) distance in
  (- amp_0 * amp * cos (- Psi), - amp_0 * amp * sin (- Psi)).
(** 17-78, [forward]: (hc, hp) *)
Definition pd_one (f mc q chi1 chi2 distance phic inclination f_ref : R) : C * C :=
  let cfac := cos inclination in let pfac := 5 / 10 * (1 + cfac * cfac) in
  let h := pd_htilde f mc q chi1 chi2 distance phic f_ref in
  (Copp (Cmult Ci (Cmult h (RtoC cfac))), Cmult h (RtoC pfac)).
Definition pd_forward (f : list R) (mc q chi1 chi2 distance phic inclination : list R) (f_ref : R) : res (list (list (C * C))) :=
  let n := List.length mc in
  if forallb (fun l => List.length l =? n)%nat [q; chi1; chi2; distance; phic; inclination] then
    if existsb (fun i => let eta := pd_eta (nth i mc 0) (nth i q 0) in off_grid qnm_a (FinalSpin0815 eta (eta * eta) (nth i chi1 0) (nth i chi2 0))) (seq 0 n) then Err RuntimeError else
    Ok (map (fun i => map (fun fj => pd_one fj (nth i mc 0) (nth i q 0) (nth i chi1 0) (nth i chi2 0) (nth i distance 0) (nth i phic 0) (nth i inclination 0) f_ref) f) (seq 0 n))
  else Err ValueError.
