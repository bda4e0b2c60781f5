(** Model of ml4gw/waveforms/generator.py (TimeDomainCBCWaveformGenerator), in real arithmetic (.double() / .float() / device are identities).
    The parameters mass_1, mass_2, s1z, s2z of equal batch size are a list of rows.  The approximant with all its other arguments (f_ref included,
    208-210) is any function from the requested frequencies to rows of (cross, plus) values; the coefficients of the high-pass filter
    (scipy design, 92-109) are arbitrary lists, the cut-off handed to the design is [cutoff]. *)
From Coq Require Import Reals Lra.
From Coquelicot Require Import Coquelicot.
From Verif Require Import Base Tensor Rutil Dft Gw_model Conv_model Wave_model Qt_model Iir_model.
Local Open Scope R_scope.

(** 56-73: constructor arguments; g_a, g_b: the coefficients of the high-pass filter *)
Record gen := mkgen { g_sr : R; g_dur : R; g_fmin : R; g_rpad : R; g_a : list R; g_b : list R }.
(** one entry of each of mass_1, mass_2 (solar masses), s1z, s2z *)
Record row := mkrow { m_1 : R; m_2 : R; s_1 : R; s_2 : R }.

Definition nyquist (g : gen) : Z := rtrunc (g_sr g / 2).                                     (* 79-81 *)
Definition out_size (g : gen) : Z := rtrunc (g_dur g * g_sr g).                              (* 83-86, the property [size] *)
(** 98-102: order 8, the cut-off frequency in Hz *)
Definition cutoff (g : gen) : R :=
  let w1 := tan (PI * g_fmin g / g_sr g) in
  let wc := w1 * Rpower (1 / sqrt (99 / 100) - 1) (1 / (2 * 8)) in
  g_sr g * atan wc / PI.
(** 111-114: the frequencies *)
Definition num_freqs (g : gen) (df : R) : nat := (Z.to_nat (rtrunc (IZR (nyquist g) / df)) + 1)%nat.
Definition freq (g : gen) (n k : nat) : R := IZR (nyquist g) * INR k / INR (n - 1).          (* torch.linspace(0, nyquist, n)[k] *)

(** ** 146-193: quantities of one row *)
Definition kg (m : R) : R := m * MSUN.                                                       (* 146-149 *)
Definition row_isco (r : row) : R := frequency_isco (kg (m_1 r)) (kg (m_2 r)).               (* 154 *)
Definition row_fmin (g : gen) (r : row) : R := Rmin (row_isco r) (g_fmin g).                 (* 155-158 *)
Definition row_tchirp (g : gen) (r : row) : R := chirp_time_bound (row_fmin g r) (kg (m_1 r)) (kg (m_2 r)) (s_1 r) (s_2 r).  (* 161 *)
Definition row_tmerge (r : row) : R :=                                                       (* 164-169 *)
  merge_time_bound (kg (m_1 r)) (kg (m_2 r)) + ringdown_time_bound (kg (m_1 r) + kg (m_2 r)) (final_spin_bound (s_1 r) (s_2 r)).
Definition row_textra (g : gen) (r : row) : R := 3 / row_fmin g r.                           (* 174 *)
Definition row_fstart (g : gen) (r : row) : R :=                                             (* 178-180 *)
  chirp_start_frequency_bound ((1 + 1 / 10) * row_tchirp g r) (kg (m_1 r)) (kg (m_2 r)).
Definition row_time (g : gen) (r : row) : R :=                                               (* 183-190 *)
  chirp_time_bound (row_fstart g r) (kg (m_1 r)) (kg (m_2 r)) (s_1 r) (s_2 r) + row_tmerge r + 2 * row_textra g r.
(** 188-193; torch's 2 ** ceil(log(0)/log 2) = 0 never occurs for the generators the theorems are about *)
Definition row_chirplen (g : gen) (r : row) : R := powerRZ 2 (rceil (ln (IZR (rround (row_time g r * g_sr g))) / ln 2)).
(** tensor.max(), tensor.min(): RuntimeError on an empty batch *)
Definition lmax (l : list R) : res R := match l with [] => Err RuntimeError | x :: l' => Ok (fold_left Rmax l' x) end.
Definition lmin (l : list R) : res R := match l with [] => Err RuntimeError | x :: l' => Ok (fold_left Rmin l' x) end.
(** 197 *)
Definition delta_f (g : gen) (rs : list row) : res R := let* L := lmax (map (row_chirplen g) rs) in Ok (1 / (L / g_sr g)).

(** ** 200-269: the conditioned spectrum *)
Definition leR (x y : R) : bool := if Rle_dec x y then true else false.
Definition ltR (x y : R) : bool := if Rlt_dec x y then true else false.
(** 204-205: indices of the frequencies that are requested from the approximant *)
Definition requested (g : gen) (n : nat) (lo : R) : list nat := filter (fun k => leR lo (freq g n k)) (seq 0 n).
(** 244-246; 0/0 (NaN) for k1 = k0 is excluded by theorem [taper_nonempty] *)
Definition window (k0 k1 : Z) (k : nat) : R := 1 / 2 - 1 / 2 * cos (PI * (INR k - IZR k0) / (IZR k1 - IZR k0)).
(** one polarisation of one row: [vals] are the approximant's values at the requested frequencies *)
Definition cond_entry (g : gen) (df : R) (n : nat) (lo : R) (r : row) (vals : list C) (k : nat) : C :=
  let k0 := rround (row_fstart g r / df) in let k1 := rround (row_fmin g r / df) in          (* 230-231 *)
  let v := if leR lo (freq g n k) then nth (List.length (filter (fun j => leR lo (freq g n j)) (seq 0 k))) vals (RtoC 0) else RtoC 0 in  (* 216-221: hc_spectrum[:, freq_mask] = cross *)
  let v := if (k0 <=? Z.of_nat k)%Z && (Z.of_nat k <=? k1)%Z then Cmult v (RtoC (window k0 k1 k)) else v in  (* 233-249 *)
  let v := if ltR (freq g n k) (row_fstart g r) then RtoC 0 else v in                        (* 252-254 *)
  if (k =? n - 1)%nat then RtoC 0 else v.                                                    (* 257 *)
(** 262-267: the shift towards earlier times *)
Definition tshift (g : gen) : R := IZR (rround (g_rpad g * g_sr g)) / g_sr g.
Definition spec_entry (g : gen) (df : R) (n : nat) (lo : R) (r : row) (vals : list C) (k : nat) : C :=
  Cmult (cond_entry g df n lo r vals k) (cis (2 * PI * df * tshift g * INR k)).
(** generate_conditioned_fd_waveform: (number of bins, row -> bin -> (cross, plus)) *)
Definition conditioned_fd (g : gen) (approx : list R -> res (list (list (C * C)))) (rs : list row) : res (nat * (nat -> nat -> C * C)) :=
  let* df := delta_f g rs in
  let n := num_freqs g df in
  let* lo := lmin (map (row_fstart g) rs) in
  let fs := map (freq g n) (requested g n lo) in
  let* h := approx fs in                                                                     (* 208-210 *)
  (* 220-221: one value per requested frequency, or a single one that is broadcast; 240: one row per binary *)
  let* h := if forallb (fun l => List.length l =? List.length fs)%nat h then Ok h
            else if forallb (fun l => List.length l =? 1)%nat h then Ok (map (fun l => repeat (hd (RtoC 0, RtoC 0) l) (List.length fs)) h)
            else Err RuntimeError in
  if (List.length h =? List.length rs)%nat then
    let r i := nth i rs (mkrow 0 0 0 0) in
    Ok (n, fun i k => (spec_entry g df n lo (r i) (map fst (nth i h [])) k, spec_entry g df n lo (r i) (map snd (nth i h [])) k))
  else Err IndexError.                                   (* 240, indices[taper_mask]: the mask has another shape *)

(** ** 271-317: apply_td_condition_stage2 on n samples *)
Definition ntaper_start (g : gen) : Z := Z.max (rround (g_sr g / g_fmin g)) 4.               (* 293-295 *)
Definition w_start (g : gen) (t : nat) : R := 1 / 2 - 1 / 2 * cos (PI * INR t / IZR (ntaper_start g)).  (* 297 *)
Definition ntaper_end (g : gen) (r : row) : Z := Z.max (rround (g_sr g / row_isco r)) 4.     (* 303-305 *)
Definition max_ntaper (g : gen) (rs : list row) : Z := fold_left Z.max (map (ntaper_end g) rs) 4%Z.  (* 306; every entry is at least 4 *)
Definition w_end (g : gen) (rs : list row) (r : row) (j : nat) : R :=                        (* 308-312 *)
  let idx := (max_ntaper g rs - 1 - Z.of_nat j)%Z in
  if (idx <? ntaper_end g r)%Z then 1 / 2 - 1 / 2 * cos (PI * IZR idx / IZR (ntaper_end g r)) else 1.
Definition stage2 (g : gen) (rs : list row) (n : nat) (r : row) (x : nat -> R) (t : nat) : R :=
  let y := if (Z.of_nat t <? ntaper_start g)%Z then x t * w_start g t else x t in            (* 298-299 *)
  let s := (Z.of_nat n - max_ntaper g rs + 1)%Z in
  if (s <=? Z.of_nat t)%Z then y * w_end g rs r (Z.to_nat (Z.of_nat t - s)) else y.          (* 314-315 *)

(** ** 319-367: forward, returning (hc, hp) *)
(** torch.nn.functional.pad(x, (pad, 0)): a negative pad crops; RuntimeError if nothing non-negative is left *)
Definition pad_front (p : Z) (b n : nat) (x : nat -> nat -> R) : res (tensor R) :=
  if (Z.of_nat n + p <? 0)%Z then Err RuntimeError else
  Ok (mk [b; Z.to_nat (Z.of_nat n + p)] (fun i => match i with
     | [i; t] => let u := (Z.of_nat t - p)%Z in if (u <? 0)%Z then 0 else x i (Z.to_nat u)
     | _ => 0 end)).
(** 352-355 for one polarisation: irfft, scaling, stage 2 *)
Definition td_series (g : gen) (rs : list row) (n : nat) (i : nat) (X : nat -> C) : nat -> R :=
  stage2 g rs n (nth i rs (mkrow 0 0 0 0)) (fun t => irfft n X t * g_sr g).
Definition gen_forward (g : gen) (approx : list R -> res (list (list (C * C)))) (rs : list row) : res (tensor R * tensor R) :=
  let* p := conditioned_fd g approx rs in
  let n := (2 * (fst p - 1))%nat in
  if (n =? 0)%nat then Err RuntimeError else                                                 (* torch.fft.irfft of one bin *)
  if (Z.of_nat n <? ntaper_start g)%Z then Err RuntimeError else                             (* 298: sizes n and ntaper_start differ *)
  if (Z.of_nat n <? max_ntaper g rs - 1)%Z then Err RuntimeError else                        (* 314 *)
  let hc i := td_series g rs n i (fun k => fst (snd p i k)) in
  let hp i := td_series g rs n i (fun k => snd (snd p i k)) in
  let pad := rtrunc (g_dur g * g_sr g - INR n) in                                            (* 358 *)
  let* hc := pad_front pad (List.length rs) n hc in
  let* hp := pad_front pad (List.length rs) n hp in
  let* hp := iir_forward (g_a g) (g_b g) hp in                                               (* 364 *)
  let* hc := iir_forward (g_a g) (g_b g) hc in                                               (* 365 *)
  Ok (hc, hp).
