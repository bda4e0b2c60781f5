(** Model of ml4gw/waveforms/adhoc (SineGaussian, Ringdown) and ml4gw/waveforms/cbc/utils.py, coefficients.py, in real arithmetic.
    Elementwise arithmetic on broadcast parameters is written as one formula per output entry; [broadcast] gives the resulting batch. *)
From Coq Require Import Reals Lra.
From Verif Require Import Base Tensor Gw_model Conv_model.
Local Open Scope R_scope.

(** broadcasting the first axes of tensors of shape (n_i, 1): one size, RuntimeError if two differ and neither is 1 *)
Fixpoint broadcast (l : list nat) : res nat :=
  match l with [] => Ok 1%nat | n :: l => let* m := broadcast l in bdim n m end.
(** entry i of t.view(-1, 1) after broadcasting *)
Definition pel (t : tensor R) (i : nat) : R := elt t (unravel (shape t) (if (numel t =? 1)%nat then 0%nat else i)).

(** ** adhoc/sine_gaussian.py *)
(** 7-10 *)
Definition semi_major_minor (e : R) : R * R := let a := 1 / sqrt (2 - e * e) in (a, a * sqrt (1 - e * e)).
(** 27-29: the times *)
Definition sg_num (sample_rate duration : R) : nat := Z.to_nat (rtrunc (duration * sample_rate)).
Definition sg_time (sample_rate duration : R) (j : nat) : R := INR j / sample_rate - duration / 2.
(** 67-111, one sample: (cross, plus) *)
Definition sg_sample (q f hrss phase e t : R) : R * R :=
  let (a, b) := semi_major_minor e in                                                        (* 76 *)
  let norm := q / (4 * f * sqrt PI) in                                                       (* 77 *)
  let cn := norm * (1 + exp (- q * q)) in let sn := norm * (1 - exp (- q * q)) in            (* 78-79 *)
  let h0_plus := hrss * a / sqrt (cn * (cos phase) ^ 2 + sn * (sin phase) ^ 2) in            (* 83-89 *)
  let h0_cross := hrss * b / sqrt (cn * (sin phase) ^ 2 + sn * (cos phase) ^ 2) in           (* 90-96 *)
  let phi := 2 * PI * f * t in
  let env := exp (phi ^ 2 / (- 2 * q ^ 2)) in                                                (* 99-103: exp(x + i y) = exp x (cos y + i sin y) *)
  (env * sin (phi - phase) * h0_cross, env * cos (phi - phase) * h0_plus).                   (* 105-106 *)
Definition sg_forward (sample_rate duration : R) (q f hrss phase e : tensor R) : res (tensor R * tensor R) :=
  let* b := broadcast [numel q; numel f; numel hrss; numel phase; numel e] in
  let n := sg_num sample_rate duration in
  let at_ i := match i with
     | [p; j] => sg_sample (pel q p) (pel f p) (pel hrss p) (pel phase p) (pel e p) (sg_time sample_rate duration j)
     | _ => (0, 0) end in
  Ok (mk [b; n] (fun i => fst (at_ i)), mk [b; n] (fun i => snd (at_ i))).                   (* returns cross, plus: 111 *)

(** ** adhoc/ringdown.py *)
Definition rd_time (sample_rate : R) (j : nat) : R := INR j / sample_rate.                   (* 23 *)
Definition rd_sample (f q eps phase incl dist t : R) : R * R :=
  let d := dist * m_per_Mpc in                                                               (* 65 *)
  let spin := 1 - Rpower (2 / q) (20 / 9) in                                                 (* 71 *)
  let mass := (1 / (2 * PI)) * (Cl ^ 3 / (Gn * f)) * (1 - 63 / 100 * Rpower (2 / q) (2 / 3)) in  (* 72-76 *)
  let FQ := 1 + (7 / 24) / q ^ 2 in                                                          (* 79 *)
  let ga := 1 - 63 / 100 * Rpower (1 - spin) (3 / 10) in                                     (* 80 *)
  let amp := sqrt (5 / 2) * eps * (Gn * mass / Cl ^ 2) * Rpower q (- (1 / 2)) * Rpower FQ (- (1 / 2)) * Rpower ga (- (1 / 2)) in  (* 81-88 *)
  let e := exp (- PI * f * t / q) in let ph := 2 * PI * f * t + phase in                     (* 96-97 *)
  let a_plus := (amp / d) * (1 + (cos incl) ^ 2) * e in let a_cross := (amp / d) * (2 * sin incl) * e in  (* 99-100 *)
  (a_cross * sin ph, a_plus * cos ph).                                                       (* 102-109 *)
Definition rd_forward (sample_rate duration : R) (f q eps phase incl dist : tensor R) : res (tensor R * tensor R) :=
  let* b := broadcast [numel f; numel q; numel eps; numel phase; numel incl; numel dist] in
  let n := sg_num sample_rate duration in                                                    (* 22 *)
  let at_ i := match i with
     | [p; j] => rd_sample (pel f p) (pel q p) (pel eps p) (pel phase p) (pel incl p) (pel dist p) (rd_time sample_rate j)
     | _ => (0, 0) end in
  Ok (mk [b; n] (fun i => fst (at_ i)), mk [b; n] (fun i => snd (at_ i))).

(** ** cbc/coefficients.py and cbc/utils.py (masses in kg) *)
Definition t2_0pn (M eta : R) : R := - 5 * (M * Gn / Cl ^ 3) / (256 * eta).                  (* coefficients.py 7-13 *)
Definition t2_2pn (eta : R) : R := 743 / 252 + 11 / 3 * eta.                                 (* 16-20 *)
Definition t2_4pn (eta : R) : R := 3058673 / 508032 + 5429 / 504 * eta + 617 / 72 * eta ^ 2. (* 23-27 *)
Definition t3_0pn (M : R) : R := 1 / (8 * PI * (M * Gn / Cl ^ 3)).                           (* 30-35 *)
(** utils.py 13-38 *)
Definition chirp_time_bound (fstart m1 m2 s1 s2 : R) : R :=
  let M := m1 + m2 in let mu := m1 * m2 / M in let eta := mu / M in
  let chi := Rabs (Rmax (Rabs s1) (Rabs s2)) in
  let c0 := Rabs (t2_0pn M eta) in let c2 := t2_2pn eta in let c3 := (226 / 15) * chi in let c4 := t2_4pn eta in
  let v := Rpower (PI * M * fstart * Gn) (1 / 3) / Cl in
  c0 * / v ^ 8 * (1 + (c2 + (c3 + c4 * v) * v) * v * v).
(** 41-57 *)
Definition chirp_start_frequency_bound (tchirp m1 m2 : R) : R :=
  let M := m1 + m2 in let mu := m1 * m2 / M in let eta := mu / M in
  t3_0pn M * Rpower (5 * M * (MTSUN_SI / MSUN) / (eta * tchirp)) (3 / 8).
(** 60-70 *)
Definition final_spin_bound (s1z s2z : R) : R :=
  Rmin (Rmax (Rmax (686 / 1000 + 15 / 100 * (s1z + s2z)) (Rabs s1z)) (Rabs s2z)) (998 / 1000).
(** 73-82 *)
Definition merge_time_bound (m1 m2 : R) : R := 1 * (2 * PI * (9 * (m1 + m2) * MRSUN / MSUN) / (Cl / 3)).
(** 85-103; (1 - s) ** f3 *)
Definition ringdown_time_bound (M s : R) : R :=
  let omega := (15251 / 10000 + - (11568 / 10000) * Rpower (1 - s) (1292 / 10000)) / (M * MTSUN_SI / MSUN) in
  let Q := 7000 / 10000 + 14187 / 10000 * Rpower (1 - s) (- (4990 / 10000)) in
  11 * (2 * Q / omega).
(** 106-109 *)
Definition frequency_isco (m1 m2 : R) : R := 1 / (Rpower 9 (15 / 10) * PI * (m1 + m2) * MTSUN_SI / MSUN).
