(** Model of ml4gw/waveforms/conversion.py and constants.py, one batch element at a time (every operation is elementwise over the batch),
    in real arithmetic. *)
From Coq Require Import Reals Lra.
From Verif Require Import Base.
Local Open Scope R_scope.

(** constants.py; PI is taken to be the real number pi (the literal agrees to double precision) *)
Definition MSUN : R := 1988409902147041637325262574352366540 / 10 ^ 6.                          (* line 8 *)
Definition MRSUN : R := 1476625038050124729627979840144936351 / 10 ^ 33.                        (* line 11 *)
Definition Gn : R := 667430 / 10 ^ 16.                                                          (* line 14 *)
Definition Cl : R := 299792458.                                                                 (* line 17 *)
Definition MTSUN_SI : R := 4925490947641266978197229498498379006 / 10 ^ 42.                     (* line 27 *)
Definition m_per_Mpc : R := 3085677581491367278913937957796471611 / 10 ^ 14.                    (* line 30 *)
Definition MPC_SEC : R := m_per_Mpc / Cl.                                                       (* line 33 *)
Definition EulerGamma : R := 577215664901532860606512090082402431 / 10 ^ 36.                    (* line 5 *)

(** torch.atan2 (signed zeros aside: atan2 0 0 = 0) *)
Definition atan2 (y x : R) : R :=
  let r := sqrt (x * x + y * y) in
  if Req_EM_T r 0 then 0 else if Rle_dec 0 y then acos (x / r) else - acos (x / r).

Record vec := V { vx : R; vy : R; vz : R }.
(** 7-16 *)
Definition rotate_z (a : R) (v : vec) : vec := V (vx v * cos a - vy v * sin a) (vx v * sin a + vy v * cos a) (vz v).
Definition rotate_y (a : R) (v : vec) : vec := V (vx v * cos a + vz v * sin a) (vy v) (- vx v * sin a + vz v * cos a).
(** 19-32 *)
Definition inspiral_LN (M eta v : R) : R := M ^ 2 * eta / v.
Definition inspiral_L_2PN (eta : R) : R := 15 / 10 + eta / 6.
(** 35-50; x ** 1.2 and x ** 0.6 for positive x *)
Definition components (mc q : R) : R * R :=
  let M := mc * Rpower (1 + q) (12 / 10) / Rpower q (6 / 10) in
  let m1 := M / (1 + q) in (m1, m1 * q).

(** 53-205 *)
Record spins := mksp { sp_incl : R; sp_1 : vec; sp_2 : vec }.
Definition vscale (a : R) (v : vec) : vec := V (vx v * a) (vy v * a) (vz v * a).
Definition bilby_spins_to_lalsim (theta_jn phi_jl tilt_1 tilt_2 phi_12 a_1 a_2 mass_1 mass_2 f_ref phi_ref : R) : res spins :=
  if Rle_dec f_ref 0 then Err ValueError else                                                   (* 87-91 *)
  let lnh := V 0 0 1 in
  let s1hat := V (sin tilt_1 * cos phi_ref) (sin tilt_1 * sin phi_ref) (cos tilt_1) in          (* 107-109 *)
  let s2hat := V (sin tilt_2 * cos (phi_12 + phi_ref)) (sin tilt_2 * sin (phi_12 + phi_ref)) (cos tilt_2) in
  let total_mass := mass_1 + mass_2 in
  let eta := mass_1 * mass_2 / (mass_1 + mass_2) / (mass_1 + mass_2) in
  let v0 := Rpower ((mass_1 + mass_2) * MTSUN_SI * PI * f_ref) (1 / 3) in                       (* 119 *)
  let l_mag := inspiral_LN total_mass eta v0 * (1 + v0 * v0 * inspiral_L_2PN eta) in            (* 123-125 *)
  let Jx := mass_1 * mass_1 * a_1 * vx s1hat + mass_2 * mass_2 * a_2 * vx s2hat in              (* 126-134 *)
  let Jy := mass_1 * mass_1 * a_1 * vy s1hat + mass_2 * mass_2 * a_2 * vy s2hat in
  let Jz := l_mag + mass_1 * mass_1 * a_1 * vz s1hat + mass_2 * mass_2 * a_2 * vz s2hat in
  let Jnorm := sqrt (Jx * Jx + Jy * Jy + Jz * Jz) in
  let theta0 := acos (Jz / Jnorm) in                                                            (* 141-142 *)
  let phi0 := atan2 (Jy / Jnorm) (Jx / Jnorm) in
  let s1hat := rotate_z (- phi0) s1hat in let s2hat := rotate_z (- phi0) s2hat in               (* 145-146 *)
  let lnh := rotate_y (- theta0) lnh in let s1hat := rotate_y (- theta0) s1hat in let s2hat := rotate_y (- theta0) s2hat in
  let lnh := rotate_z (phi_jl - PI) lnh in let s1hat := rotate_z (phi_jl - PI) s1hat in let s2hat := rotate_z (phi_jl - PI) s2hat in
  let N := V 0 (sin theta_jn) (cos theta_jn) in                                                 (* 165-168 *)
  let incl := acos (vx N * vx lnh + vy N * vy lnh + vz N * vz lnh) in
  let thetalj := acos (vz lnh) in let phil := atan2 (vy lnh) (vx lnh) in                        (* 173-174 *)
  let s1hat := rotate_z (- phil) s1hat in let s2hat := rotate_z (- phil) s2hat in let N := rotate_z (- phil) N in
  let s1hat := rotate_y (- thetalj) s1hat in let s2hat := rotate_y (- thetalj) s2hat in let N := rotate_y (- thetalj) N in
  let phiN := atan2 (vy N) (vx N) in                                                            (* 187 *)
  let s1hat := rotate_z (PI / 2 - phiN - phi_ref) s1hat in let s2hat := rotate_z (PI / 2 - phiN - phi_ref) s2hat in
  Ok (mksp incl (vscale a_1 s1hat) (vscale a_2 s2hat)).                                         (* 198-205 *)
