(** Model of ml4gw/waveforms/cbc/phenom_p.py (IMRPhenomPv2), one batch element and one frequency at a time, in real arithmetic.
    The NNLO angle coefficients are in Php_fits.v; the aligned-spin (IMRPhenomD) amplitude and phase are those of Phd_model.v.
    Every operation is elementwise over the batch (the [.mT] / [unsqueeze] juggling pairs a (batch,) coefficient with the rows of a (batch, frequency) array);
    inputs of different batch sizes are not modelled. *)
From Coq Require Import Reals Lra.
From Coquelicot Require Import Coquelicot.
From Verif Require Import Base Conv_model Tf2_model Phd_fits Phd_data Phd_model Php_fits.
Local Open Scope R_scope.

(** 395-432, [interpolate] for one entry: torch.searchsorted(right=False) - 1 indexes the list of the len-1 slopes; -1 wraps to the last slope,
    len-1 is out of range (IndexError) *)
Definition pp_index (a : list R) (x : R) : res nat :=
  let b := bucketize a x in let n := List.length a in
  if (b =? 0)%nat then Ok (n - 2)%nat else if (b - 1 <? n - 1)%nat then Ok (b - 1)%nat else Err IndexError.
Definition pp_interp (a y : list R) (x : R) : res R :=
  let* i := pp_index a x in
  let m := (nth (i + 1) y 0 - nth i y 0) / (nth (i + 1) a 0 - nth i a 0) in
  let b := nth i y 0 - m * nth i a 0 in
  Ok (m * x + b).
(** 434-451, [L2PNR]: x ** 0.5 with x = v ** 2 *)
Definition L2PNR (v eta : R) : R :=
  let x := v ^ 2 in
  eta * (1 + (15 / 10 + eta / 6) * x + (3375 / 1000 - 19 * eta / 8 - eta ^ 2 / 24) * x ^ 2) / sqrt x.

(** 453-587, [convert_spins] (m2 is meant to be the larger mass) *)
Record pconv := mkpc { pc_chi1 : R; pc_chi2 : R; pc_chip : R; pc_thetaJN : R; pc_alpha0 : R; pc_phi_aligned : R; pc_zeta : R }.
Definition pp_chip (m1 m2 : R) (s1 s2 : vec) : R :=                                              (* 489-499 *)
  let S1_perp := m1 * m1 * sqrt (vx s1 ^ 2 + vy s1 ^ 2) in let S2_perp := m2 * m2 * sqrt (vx s2 ^ 2 + vy s2 ^ 2) in
  let A1 := 2 + 3 * m2 / (2 * m1) in let A2 := 2 + 3 * m1 / (2 * m2) in
  Rmax (A1 * S1_perp) (A2 * S2_perp) / (A2 * (m2 * m2)).
Definition pp_J0 (m1 m2 f_ref : R) (s1 s2 : vec) : vec :=                                        (* 501-508 *)
  let M := m1 + m2 in let eta := m1 * m2 / (M * M) in
  let v_ref := Rpower (PI * (M * MTSUN_SI) * f_ref) (1 / 3) in
  let L0 := M * M * L2PNR v_ref eta in
  V (m1 * m1 * vx s1 + m2 * m2 * vx s2) (m1 * m1 * vy s1 + m2 * m2 * vy s2) (L0 + m1 * m1 * vz s1 + m2 * m2 * vz s2).
Definition pp_N (phic inclination : R) : vec := V (sin inclination * cos (PI / 2 - phic)) (sin inclination * sin (PI / 2 - phic)) (cos inclination).   (* 519-521 *)
Definition pp_X (phic inclination : R) : vec := V (- cos inclination * sin phic) (- cos inclination * cos phic) (sin inclination).                      (* 561-563 *)
Definition convert_spins (m1 m2 f_ref phic inclination : R) (s1 s2 : vec) : pconv :=
  let J0 := pp_J0 m1 m2 f_ref s1 s2 in
  let J := sqrt (vx J0 * vx J0 + vy J0 * vy J0 + vz J0 * vz J0) in
  let thetaJ_sf := acos (vz J0 / J) in let phiJ_sf := atan2 (vy J0) (vx J0) in                    (* 510-512 *)
  let toJ v := rotate_y (- thetaJ_sf) (rotate_z (- phiJ_sf) v) in
  let N := pp_N phic inclination in
  let kappa := - atan2 (vy (toJ N)) (vx (toJ N)) in                                              (* 530 *)
  let toJf v := rotate_z kappa (toJ v) in
  let LN := toJf (V 0 0 1) in                                                                    (* 533-538 *)
  let NJ := toJf N in let X := toJf (pp_X phic inclination) in
  let XdotP := vx X * 0 + vy X * - (1) + vz X * 0 in                                             (* 573-586 *)
  let XdotQ := vx X * vz NJ + vy X * 0 + vz X * - vx NJ in
  mkpc (vz s1) (vz s2) (pp_chip m1 m2 s1 s2) (acos (vz NJ)) (atan2 (vy LN) (vx LN)) (- phiJ_sf) (atan2 XdotQ XdotP).

(** 590-631, [SpinWeightedY]: None for any other weight or degree (the function falls through), ValueError for |m| > 2 *)
Definition SpinWeightedY (theta phi : R) (s l m : Z) : res (option C) :=
  if (s =? -2)%Z && (l =? 2)%Z then
    let* fac :=
      (if (m =? -2)%Z then Ok (sqrt (5 / (64 * PI)) * (1 - cos theta) * (1 - cos theta))
       else if (m =? -1)%Z then Ok (sqrt (5 / (16 * PI)) * sin theta * (1 - cos theta))
       else if (m =? 0)%Z then Ok (sqrt (15 / (32 * PI)) * sin theta * sin theta)
       else if (m =? 1)%Z then Ok (sqrt (5 / (16 * PI)) * sin theta * (1 + cos theta))
       else if (m =? 2)%Z then Ok (sqrt (5 / (64 * PI)) * (1 + cos theta) * (1 + cos theta))
       else Err ValueError) in
    Ok (Some (fac * cos (IZR m * phi), fac * sin (IZR m * phi)))
  else Ok None.
(** the five calls of forward (144-149): s = -2, l = 2, |m| <= 2, phi = 0 *)
Definition Y2 (theta : R) (m : Z) : C := match SpinWeightedY theta 0 (-2) 2 m with Ok (Some y) => y | _ => RtoC 0 end.

(** 633-648, [WignerdCoefficients] *)
Definition Wignerd (v SL eta Sp : R) : R * R :=
  let s := Sp / (L2PNR v eta + SL) in
  let cos_beta := 1 / sqrt (1 + s ^ 2) in
  (sqrt ((1 + cos_beta) / 2), sqrt ((1 - cos_beta) / 2)).

(** 778-797, [FinalSpin_inplane]; copysign(1, x) is 1 for x >= 0 (signed zeros aside) *)
Definition FinalSpin_inplane (m1 m2 chi1_l chi2_l chip : R) : R :=
  let M := m1 + m2 in let eta := m1 * m2 / (M * M) in
  let q_factor := m1 / M in
  let af_parallel := FinalSpin0815 eta (eta * eta) chi1_l chi2_l in
  let Sperp := chip * q_factor * q_factor in
  (if Rle_dec 0 af_parallel then 1 else - (1)) * sqrt (Sperp * Sperp + af_parallel * af_parallel).
(** 799-818, [phP_get_fRD_fdamp] *)
Definition phP_fRD_fdamp (m1 m2 chi1_l chi2_l chip : R) : res (R * R) :=
  let finspin := FinalSpin_inplane m1 m2 chi1_l chi2_l chip in
  let M_s := m1 * MTSUN_SI + m2 * MTSUN_SI in
  let eta_s := m1 * MTSUN_SI * (m2 * MTSUN_SI) / M_s ^ 2 in
  let Erad := PhenomInternal_EradRational0815 eta_s (eta_s * eta_s) chi1_l chi2_l in
  let* a := pp_interp qnm_a qnm_fring finspin in
  let* b := pp_interp qnm_a qnm_fdamp finspin in
  Ok (a / (1 - Erad) / M_s, b / (1 - Erad) / M_s).

(** 820-826, [get_Amp0] *)
Definition get_Amp0 (Mf eta : R) : R := sqrt (2 / 3 * eta) * Rpower Mf (- (7 / 6)) * Rpower PI (- (1 / 6)).
(** 307-391, [PhenomPOneFrequency]: its parameters, the strain and the (negated) phase slope at ringdown by central differences *)
Definition RDphase (p : dpar) (M_s fRD : R) (k : nat) : R := fst (pd_phase p (M_s * (fRD * (8 / 10 + 4 / 10 * INR k / 999)))).
Definition diffRD (p : dpar) (M_s fRD : R) : R :=
  let delta := (12 / 10 * fRD - 8 / 10 * fRD) / 999 in
  let diff k := RDphase p M_s fRD (k + 1) - RDphase p M_s fRD k in
  let slope j := (diff (j + 1)%nat + diff j) / (2 * delta) in
  - (slope 498%nat + slope 499%nat) / 2.
Definition PhenomPOne (f m1 m2 eta Seta chi1 chi2 chi12 chi22 chip phic M xi distance : R) : res (C * R) :=
  let M_s := M * MTSUN_SI in
  let* fr := phP_fRD_fdamp m1 m2 chi1 chi2 chip in
  let (fRD, fDM) := fr : R * R in
  let p := mkd m1 m2 eta Seta chi1 chi2 chi12 chi22 xi (M_s * fRD) (M_s * fDM) in
  let phase := fst (pd_phase p (M_s * f)) - (phic + PI / 4) in
  let Amp := get_Amp0 (M_s * f) eta * fst (pd_amp p (M_s * f)) * (M_s ^ 2) / (distance * MPC_SEC) in
  Ok ((Amp * cos (- phase), Amp * sin (- phase)), diffRD p M_s fRD).

(** 123-142: the two NNLO angles as functions of omega = pi M f *)
Definition pp_alpha (q chil chip w : R) : R :=
  alphacoeff1 q chil chip / w + alphacoeff2 q chil chip / (Rpower w (1 / 3) * Rpower w (1 / 3)) + alphacoeff3 q chil chip / Rpower w (1 / 3) + alphacoeff4 q chil chip * ln w + alphacoeff5 q chil chip * Rpower w (1 / 3).
Definition pp_epsilon (q chil chip w : R) : R :=
  epsiloncoeff1 q chil chip / w + epsiloncoeff2 q chil chip / (Rpower w (1 / 3) * Rpower w (1 / 3)) + epsiloncoeff3 q chil chip / Rpower w (1 / 3) + epsiloncoeff4 q chil chip * ln w + epsiloncoeff5 q chil chip * Rpower w (1 / 3).
Definition cis_ (a : R) : C := (cos a, sin a).
(** 267-298: the sums over the m modes; real Y2m *)
Definition T2m (alpha cB sB : R) (Y : Z -> C) : C :=
  let e := cis_ alpha in let e2 := Cmult e e in let em := Cdiv (RtoC 1) e in let em2 := Cmult em em in
  Cplus (Cminus (Cplus (Cminus
    (Cmult (Cmult e2 (RtoC (cB ^ 4))) (Y (-2)%Z))
    (Cmult (Cmult e (RtoC (2 * cB ^ 3 * sB))) (Y (-1)%Z)))
    (Cmult (RtoC (sqrt 6 * sB ^ 2 * cB ^ 2)) (Y 0%Z)))
    (Cmult (Cmult em (RtoC (2 * cB * sB ^ 3))) (Y 1%Z)))
    (Cmult (Cmult em2 (RtoC (sB ^ 4))) (Y 2%Z)).
Definition Tm2m (alpha cB sB : R) (Y : Z -> C) : C :=
  let e := cis_ alpha in let e2 := Cmult e e in let em := Cdiv (RtoC 1) e in let em2 := Cmult em em in
  Cplus (Cplus (Cplus (Cplus
    (Cmult (Cmult em2 (RtoC (sB ^ 4))) (Cconj (Y (-2)%Z)))
    (Cmult (Cmult em (RtoC (2 * cB * sB ^ 3))) (Cconj (Y (-1)%Z))))
    (Cmult (RtoC (sqrt 6 * sB ^ 2 * cB ^ 2)) (Cconj (Y 0%Z))))
    (Cmult (Cmult e (RtoC (2 * cB ^ 3 * sB))) (Cconj (Y 1%Z))))
    (Cmult (Cmult e2 (RtoC (cB ^ 4))) (Cconj (Y 2%Z))).
(** 199-305, [PhenomPCoreTwistUp]: (hp, hc) *)
Definition TwistUp (f : R) (hPhenom : C) (eta chi1_l chi2_l chip M q chil alphaoffset epsilonoffset : R) (Y : Z -> C) : C * C :=
  let fg := f * MTSUN_SI * M in
  let q' := (1 + sqrt (1 - 4 * eta) - 2 * eta) / (2 * eta) in
  let m1 := 1 / (1 + q') in let m2 := q' / (1 + q') in
  let Sperp := chip * (m2 * m2) in
  let SL := chi1_l * m1 * m1 + chi2_l * m2 * m2 in
  let w := PI * fg in
  let alpha := pp_alpha q chil chip w - alphaoffset in
  let epsilon := pp_epsilon q chil chip w - epsilonoffset in
  let (cB, sB) := Wignerd (Rpower w (1 / 3)) SL eta Sperp in
  let T2 := T2m alpha cB sB Y in let Tm2 := Tm2m alpha cB sB Y in
  let E := Cdiv (Cmult (cis_ (- (2 * epsilon))) hPhenom) (RtoC 2) in
  (Cmult E (Cplus T2 Tm2), Cmult E (Cmult Ci (Cminus T2 Tm2))).

(** 24-197, [forward] for one element: (hcross, hplus); x ** (1/3) of a positive x *)
Definition pp_one (f mc mass_ratio : R) (s1 s2 : vec) (distance phic inclination f_ref tc : R) : res (C * C) :=
  let (ma, mb) := components mc mass_ratio in
  let m1 := mb in let m2 := ma in let s1' := s2 in let s2' := s1 in                              (* 89-93 *)
  let pc := convert_spins m1 m2 f_ref phic inclination s1' s2' in
  let phic' := 2 * pc_phi_aligned pc in
  let q := m2 / m1 in let M := m1 + m2 in
  let chi1_l := pc_chi1 pc in let chi2_l := pc_chi2 pc in let chip := pc_chip pc in
  let chi_eff := (m1 * chi1_l + m2 * chi2_l) / M in
  let chil := (1 + q) / q * chi_eff in
  let eta := m1 * m2 / (M * M) in
  let Seta := sqrt (1 - 4 * eta) in
  let chi22 := chi2_l * chi2_l in let chi12 := chi1_l * chi1_l in
  let xi := - 1 + chiPN Seta eta chi2_l chi1_l in
  let w_ref := PI * (M * MTSUN_SI) * f_ref in
  let* hd := PhenomPOne f m2 m1 eta Seta chi2_l chi1_l chi12 chi22 chip phic' M xi distance in
  let (hPhenom, diffRDphase) := hd : C * R in
  let (hp, hc) := TwistUp f hPhenom eta chi1_l chi2_l chip M q chil (pp_alpha q chil chip w_ref - pc_alpha0 pc) (pp_epsilon q chil chip w_ref) (Y2 (pc_thetaJN pc)) in
  let t0 := diffRDphase / (2 * PI) in
  let phase_corr := (cos (2 * PI * f * t0), - sin (2 * PI * f * t0)) in
  let M_s := (m1 + m2) * MTSUN_SI in
  let phase_corr_tc := cis_ (- (f * M_s * tc)) in
  let hp := Cmult hp (Cmult phase_corr phase_corr_tc) in let hc := Cmult hc (Cmult phase_corr phase_corr_tc) in
  let c2z := RtoC (cos (2 * pc_zeta pc)) in let s2z := RtoC (sin (2 * pc_zeta pc)) in
  Ok (Cminus (Cmult c2z hc) (Cmult s2z hp), Cplus (Cmult c2z hp) (Cmult s2z hc)).
(** the batch (all inputs with the same number of entries); tc = None means zeros (line 79) *)
Definition pp_forward (f : list R) (mc q : list R) (s1 s2 : list vec) (distance phic inclination : list R) (f_ref : R) (tc : option (list R)) : res (list (list (C * C))) :=
  let v0 := V 0 0 0 in
  let t i := match tc with None => 0 | Some l => nth i l 0 end in
  sequence (map (fun i => sequence (map (fun fj =>
    pp_one fj (nth i mc 0) (nth i q 0) (nth i s1 v0) (nth i s2 v0) (nth i distance 0) (nth i phic 0) (nth i inclination 0) f_ref (t i)) f)) (seq 0 (List.length mc))).
