(** Model of ml4gw/transforms/qtransform.py (real arithmetic: float32 / float64 roundings and casts are identities). *)
From Coq Require Import String Ascii.
From Verif Require Import Base Tensor Rutil Slicing_model Autoenc_model Norm_model Dft Gw_model Spectral_model Trans_model.
From Coquelicot Require Import Complex.
Local Open Scope R_scope.

(** math.ceil / torch.ceil to an integer *)
Definition rceil (x : R) : Z := (- Int_part (- x))%Z.
(** torch.round: to the nearest integer, ties to the even one *)
Definition rround (x : R) : Z :=
  let z := Int_part x in let d := x - IZR z in
  if Rlt_dec d (/ 2) then z else if Rlt_dec (/ 2) d then (z + 1)%Z else if Z.even z then z else (z + 1)%Z.
(** math.log2 / torch.log2 *)
Definition log2 (x : R) : R := ln x / ln 2.
(** str.lower, on ASCII *)
Definition lower_ascii (c : ascii) : ascii :=
  let n := nat_of_ascii c in if ((65 <=? n) && (n <=? 90))%nat then ascii_of_nat (n + 32) else c.
Fixpoint lower (s : string) : string := match s with EmptyString => EmptyString | String c s' => String (lower_ascii c) (lower s') end.

(** ** QTile (20-155) *)
(** the constructor arguments, 44-51 *)
Record qtile := mkqt { qt_q : R; qt_f : R; qt_dur : R; qt_sr : R; qt_mm : R }.
Definition deltam (mm : R) : R := 2 * sqrt (mm / 3).                             (* 55, 298, 511 *)
Definition qprime (q : R) : R := q / sqrt 11.                                    (* 56, 230 *)
(** 61-63; frequency 0 (ZeroDivision in the window, no tiles) is not excluded here but by the theorems *)
Definition windowsize (t : qtile) : Z := (2 * rtrunc (qt_f t / qprime (qt_q t) * qt_dur t) + 1)%Z.
(** 70-75, [ntiles]: 2 ** ceil(log2(..)), truncated: 0 for a negative exponent (as is Z.pow) *)
Definition ntiles (t : qtile) : Z :=
  (2 ^ rceil (log2 (qt_dur t * 2 * PI * qt_f t / qt_q t / deltam (qt_mm t))))%Z.
(** 64-65 *)
Definition pad_left (t : qtile) : Z := rtrunc ((IZR (ntiles t - windowsize t) - 1) / 2).
Definition pad_right (t : qtile) : Z := rtrunc ((IZR (ntiles t - windowsize t) + 1) / 2).
(** 77-79, [_get_indices]: -half .. half; here the j-th of them *)
Definition win_half (t : qtile) : Z := rtrunc ((IZR (windowsize t) - 1) / 2).
Definition win_len (t : qtile) : nat := Z.to_nat (2 * win_half t + 1).
Definition win_idx (t : qtile) (j : nat) : Z := (- win_half t + Z.of_nat j)%Z.
(** 81-92, [get_window] *)
Definition win (t : qtile) (j : nat) : R :=
  let x := IZR (win_idx t j) / qt_dur t * qprime (qt_q t) / qt_f t in
  let norm := IZR (ntiles t) / (qt_dur t * qt_sr t) * sqrt (315 * qprime (qt_q t) / (128 * qt_f t)) in
  (1 - x ^ 2) ^ 2 * norm.
(** 94-104, [get_data_indices] *)
Definition data_index (t : qtile) (j : nat) : Z :=
  let n_rfft := (rtrunc (qt_dur t * qt_sr t) / 2)%Z in
  Z.max 0 (Z.min (rround (IZR (win_idx t j) + 1 + qt_f t * qt_dur t)) n_rfft).
(** F.pad(x, (l, r)) of the last axis with possibly negative (cropping) amounts; an output of size <= 0 is a
    RuntimeError (of F.pad, or of the ifft that follows) *)
Definition pad_z {A} (zero : A) (l r : Z) (x : tensor A) : res (tensor A) :=
  let n := Z.of_nat (last (shape x) 0%nat) in
  if (l + n + r <=? 0)%Z then Err RuntimeError else
  Ok (mk (removelast (shape x) ++ [Z.to_nat (l + n + r)])
         (fun i => let j := (Z.of_nat (last i 0%nat) - l)%Z in
                   if ((0 <=? j) && (j <? n))%Z then elt x (removelast i ++ [Z.to_nat j]) else zero)).
(** torch.fft.ifftshift of the last axis *)
Definition ifftshift {A} (x : tensor A) : tensor A :=
  let n := last (shape x) 0%nat in mk (shape x) (fun i => elt x (removelast i ++ [((last i 0 + n / 2) mod n)%nat])).
(** torch.fft.ifft of the last axis *)
Definition ifft_last (x : tensor C) : tensor C :=
  let n := last (shape x) 0%nat in mk (shape x) (fun i => idft n (fun k => elt x (removelast i ++ [k])) (last i 0%nat)).
(** x / keepdim-reduction of x along the last axis *)
Definition div_by_last (agg : nat -> (nat -> R) -> R) (x : tensor R) : tensor R :=
  mk (shape x) (fun i => elt x i / agg (last (shape x) 0%nat) (fun j => elt x (removelast i ++ [j]))).
(** 144-155: a division by a zero median or mean (NaN or infinity in torch) is Coq's unspecified x / 0: the
    theorems about normalised energies assume that it does not occur *)
Definition qnormalise (norm : option string) (energy : tensor R) : res (tensor R) :=
  match norm with
  | None | Some EmptyString => Ok energy
  | Some s => if string_dec (lower s) "median" then Ok (div_by_last quantile_half energy)
              else if string_dec (lower s) "mean" then Ok (div_by_last mean energy)
              else Err ValueError
  end.
(** 107-155, [forward] *)
Definition qtile_forward (t : qtile) (fseries : tensor C) (norm : option string) : res (tensor R) :=
  if (3 <? ndim fseries)%nat then Err ValueError else                                       (* 131-132 *)
  let fseries := pad_ndim3 fseries in                                                       (* 134-135 *)
  let* x := index_select_last fseries (map (data_index t) (seq 0 (win_len t))) in           (* 137 *)
  let windowed := mk (shape x) (fun i => Cmult (elt x i) (RtoC (win t (last i 0%nat)))) in  (* 137 *)
  let* padded := pad_z (RtoC 0) (pad_left t) (pad_right t) windowed in                      (* 138-139 *)
  let wenergy := ifftshift padded in                                                        (* 140 *)
  let tdenergy := ifft_last wenergy in                                                      (* 142 *)
  let energy := tmap (fun z => Re z ^ 2 + Im z ^ 2) tdenergy in                             (* 143 *)
  qnormalise norm energy.                                                                   (* 144-155 *)

(** ** SingleQTransform (158-431) *)
(** torch.unique: the distinct values in increasing order *)
Fixpoint uinsert (x : R) (l : list R) : list R :=
  match l with
  | [] => [x]
  | y :: l' => if Req_EM_T x y then l else if Rlt_dec x y then x :: l else y :: uinsert x l'
  end.
Definition unique (l : list R) : list R := fold_right uinsert [] l.
(** 289-307, [get_freqs].  math.log of a non-positive ratio is a ValueError *)
Definition fcum_mismatch (q minf maxf : R) : R := ln (maxf / minf) * sqrt (2 + q ^ 2) / 2.        (* 295-297 *)
Definition nfreq (q mm minf maxf : R) : Z := Z.max 1 (rceil (fcum_mismatch q minf maxf / deltam mm)). (* 298-299 *)
(** a // b * b of floats *)
Definition floor_to (b x : R) : R := IZR (Int_part (x / b)) * b.
Definition freq_cand (q dur mm minf maxf : R) (i : nat) : R :=
  let fstep := fcum_mismatch q minf maxf / IZR (nfreq q mm minf maxf) in                     (* 300 *)
  let fstepmin := 1 / dur in                                                                 (* 301 *)
  let freq_base := exp (2 / sqrt (2 + q ^ 2) * fstep) in                                     (* 303 *)
  floor_to fstepmin (minf * Rpower freq_base (INR i + / 2)).                                 (* 304-306 *)
Definition get_freqs (q dur mm minf maxf : R) : res (list R) :=
  if Rle_dec (maxf / minf) 0 then Err ValueError else
  Ok (unique (map (freq_cand q dur mm minf maxf) (seq 0 (Z.to_nat (nfreq q mm minf maxf))))).  (* 307 *)

(** the largest allowed q, 216 and 477 *)
Definition max_q (dur sr : R) : R := PI * dur * sr / 50 - sqrt 11.
(** frange: a lower limit and an upper limit, None = infinite *)
Definition frange_arg := (R * option R)%type.
Inductive imethod := Bilinear | Bicubic | Spline.
Definition parse_method (s : string) : res imethod :=
  if string_dec s "bilinear" then Ok Bilinear else if string_dec s "bicubic" then Ok Bicubic
  else if string_dec s "spline" then Ok Spline else Err ValueError.
Record qtransform := mkqtr { tr_q : R; tr_frange : R * R; tr_freqs : list R; tr_tiles : list qtile; tr_method : imethod }.
(** 197-252, [__init__]; self.qtiles starts as None.  self.frange is the very list passed as frange: after the call that
    list of the caller holds [tr_frange]. *)
Definition qtr_create (dur sr q : R) (frange : option frange_arg) (mm : R) (method : string) : res qtransform :=
  let fr := match frange with Some f => f | None => (0, None) end in                         (* 210 *)
  if Rle_dec (max_q dur sr) q then Err ValueError else                                       (* 216-221 *)
  let* m := parse_method method in                                                           (* 223-228 *)
  let lo := if Rle_dec (fst fr) 0 then 50 * q / (2 * PI * dur) else fst fr in                (* 231-232 *)
  let hi := match snd fr with None => sr / 2 / (1 + 1 / qprime q) | Some f => f end in       (* 233-234 *)
  let* freqs := get_freqs q dur mm lo hi in                                                  (* 236 *)
  Ok (mkqtr q (lo, hi) freqs (map (fun f => mkqt q f dur sr mm) freqs) m).                   (* 237-248 *)

(** rfft with norm="forward" of the last axis; then bins 1.. doubled (364-365) *)
Definition qspectrum (X : tensor R) : res (tensor C) :=
  let n := last (shape X) 0%nat in
  if ((ndim X =? 0) || (n =? 0))%nat then Err RuntimeError else
  Ok (mk (removelast (shape X) ++ [rbins n])
         (fun i => let k := last i 0%nat in
                   Cmult (RtoC ((if (k =? 0)%nat then 1 else 2) / INR n)) (rfft n (fun s => elt X (removelast i ++ [s])) k))).
(** 354-366, [compute_qtiles]: the list stored in self.qtiles *)
Definition compute_qtiles (m : qtransform) (X : tensor R) (norm : option string) : res (list (tensor R)) :=
  let* Xf := qspectrum X in
  sequence (map (fun t => qtile_forward t Xf norm) (tr_tiles m)).

(** torch.max / Python's max of the (non-empty) values f 0 .. f (n-1) *)
Fixpoint fmax (n : nat) (f : nat -> R) : R :=
  match n with O => 0 | S O => f O | S m => Rmax (fmax m f) (f m) end.
Definition lmax (l : list R) : R := fmax (List.length l) (fun i => nth i l 0).
(** torch.max(x): of all entries; RuntimeError when there are none *)
Definition max_all (x : tensor R) : res R :=
  if (numel x =? 0)%nat then Err RuntimeError else Ok (lmax (map (elt x) (all_idx (shape x)))).
(** torch.max(x, dim).values for the last (resp. last but one) axis; IndexError for an empty axis *)
Definition max_last (x : tensor R) : res (tensor R) :=
  let n := last (shape x) 0%nat in
  if (n =? 0)%nat then Err IndexError else Ok (mk (removelast (shape x)) (fun i => fmax n (fun j => elt x (i ++ [j])))).
Definition max_first2 (x : tensor R) : res (tensor R) :=
  match shape x with
  | [B; D] => if (B =? 0)%nat then Err IndexError
              else Ok (mk [D] (fun i => match i with [c] => fmax B (fun b => elt x [b; c]) | _ => 0 end))
  | _ => Err IndexError
  end.
(** min(torch.argwhere(freqs > v)): the first position; ValueError (min of an empty sequence) if there is none *)
Fixpoint first_above (l : list R) (v : R) : option nat :=
  match l with [] => None | f :: l' => if Rlt_dec v f then Some 0%nat else option_map S (first_above l' v) end.
Definition first_above_res (l : list R) (v : R) : res nat := match first_above l v with Some k => Ok k | None => Err ValueError end.
(** 333-338 *)
Definition search_slice (freqs : list R) (fsearch : option (R * R)) (tiles : list (tensor R)) : res (list (tensor R)) :=
  match fsearch with
  | None => Ok tiles
  | Some (lo, hi) =>
    let* start := first_above_res freqs lo in
    let* stop := first_above_res freqs hi in
    Ok (pyslice (Some (Z.of_nat start)) (Some (Z.of_nat stop)) tiles)
  end.
(** torch.stack(l, dim=-1) *)
Definition stack_last {A} (ts : list (tensor A)) : res (tensor A) :=
  match ts with
  | [] => Err RuntimeError
  | t0 :: _ => if forallb (fun t => if list_eq_dec Nat.eq_dec (shape t) (shape t0) then true else false) ts
               then Ok (mk (shape t0 ++ [List.length ts]) (fun i => elt (nth (last i 0%nat) ts t0) (removelast i)))
               else Err RuntimeError
  end.
(** 309-352, [get_max_energy]; [tiles] is self.qtiles (None before the first compute_qtiles); a 0-d result for "both" *)
Definition get_max_energy (freqs : list R) (tiles : option (list (tensor R))) (fsearch : option (R * R)) (dimension : string)
    : res (tensor R) :=
  if negb (existsb (fun s => if string_dec dimension s then true else false) ["both"; "neither"; "channel"; "batch"]%string)
  then Err ValueError else                                                                  (* 324-326 *)
  match tiles with
  | None => Err RuntimeError                                                                (* 328-331 *)
  | Some tiles =>
    let* tiles := search_slice freqs fsearch tiles in                                       (* 333-338 *)
    if string_dec dimension "both" then                                                     (* 340-341 *)
      let* ms := sequence (map max_all tiles) in
      match ms with [] => Err ValueError | _ => Ok (mk [] (fun _ => lmax ms)) end
    else
      let* mt := sequence (map max_last tiles) in                                           (* 343 *)
      let* mt := stack_last mt in                                                           (* 344 *)
      let* mft := max_last mt in                                                            (* 345 *)
      if string_dec dimension "neither" then Ok mft                                         (* 347-348 *)
      else if string_dec dimension "channel" then max_first2 mft                            (* 349-350 *)
      else max_last mft                                                                     (* 351-352 *)
  end.

(** ** interpolate (368-404) *)
(** torch's bicubic kernel (align_corners=False, A = -3/4): output j of a resize from n to size reads the four input
    bins around position (j+1/2) n/size - 1/2, clamped to the edges *)
Definition cub1 (x : R) : R := ((-(3/4) + 2) * x - (-(3/4) + 3)) * x * x + 1.
Definition cub2 (x : R) : R := ((-(3/4) * x - 5 * -(3/4)) * x + 8 * -(3/4)) * x - 4 * -(3/4).
Definition interp_cub (n size : nat) (f : nat -> R) (j : nat) : R :=
  let p := (INR j + / 2) * (INR n / INR size) - / 2 in
  let i := Int_part p in let t := p - IZR i in
  let at_ k := f (Z.to_nat (Z.max 0 (Z.min (i + k) (Z.of_nat n - 1)))) in
  cub2 (t + 1) * at_ (-1)%Z + cub1 t * at_ 0%Z + cub1 (1 - t) * at_ 1%Z + cub2 (2 - t) * at_ 2%Z.
Definition interp1 (m : imethod) : nat -> nat -> (nat -> R) -> nat -> R := match m with Bilinear => interp_lin | _ => interp_cub end.
(** F.interpolate(x, (h, w), mode) of a 4D tensor: separable; RuntimeError for empty axes *)
Definition interpolate2 (m : imethod) (h w : nat) (x : tensor R) : res (tensor R) :=
  match shape x with
  | [a; b; H; W] =>
    if ((a =? 0) || (b =? 0) || (H =? 0) || (W =? 0) || (h =? 0) || (w =? 0))%nat then Err RuntimeError else
    Ok (mk [a; b; h; w] (fun i => match i with
          | [p; q; y; z] => interp1 m H h (fun k => interp1 m W w (fun l => elt x [p; q; k; l]) z) y | _ => 0 end))
  | _ => Err NotImplementedError
  end.
(** torch.stack(l, dim=-2) of 4D tensors (1, B, D, T) *)
Definition stack_m2 (ts : list (tensor R)) : res (tensor R) :=
  match ts with
  | [] => Err RuntimeError
  | t0 :: _ => if forallb (fun t => if list_eq_dec Nat.eq_dec (shape t) (shape t0) then true else false) ts
               then Ok (mk (removelast (shape t0) ++ [List.length ts; last (shape t0) 0%nat])
                      (fun i => elt (nth (last (removelast i) 0%nat) ts t0) (removelast (removelast i) ++ [last i 0%nat])))
               else Err RuntimeError
  end.
(** t[0] *)
Definition select0 {A} (t : tensor A) : tensor A := mk (tl (shape t)) (fun i => elt t (0%nat :: i)).
(** torch.squeeze: all axes of size 1 are dropped *)
Fixpoint unsqueeze_idx (s i : list nat) : list nat :=
  match s with
  | [] => []
  | d :: s' => if (d =? 1)%nat then 0%nat :: unsqueeze_idx s' i
               else match i with x :: i' => x :: unsqueeze_idx s' i' | [] => 0%nat :: unsqueeze_idx s' [] end
  end.
Definition squeeze {A} (t : tensor A) : tensor A :=
  mk (filter (fun d => negb (d =? 1)%nat) (shape t)) (fun i => elt t (unsqueeze_idx (shape t) i)).
(** [interpolate] for the bilinear and bicubic methods (389-404) *)
Definition interpolate_tiles (m : imethod) (nf nt : nat) (tiles : option (list (tensor R))) : res (tensor R) :=
  match tiles with
  | None => Err RuntimeError                                                                 (* 369-372 *)
  | Some tiles =>
    let* rs := sequence (map (fun q => interpolate2 m (nth 1 (shape q) 0%nat) nt (unsqueeze0 q)) tiles) in  (* 390-397 *)
    let* r := stack_m2 rs in                                                                 (* 398 *)
    let* r := interpolate2 m nf nt (select0 r) in                                            (* 399-403 *)
    Ok (squeeze r)                                                                           (* 404 *)
  end.
(** the grouping of the spline method (255-260, 374-377): the positions of the tiles of each distinct length, by
    increasing length *)
Fixpoint zinsert (x : Z) (l : list Z) : list Z :=
  match l with [] => [x] | y :: l' => if (x =? y)%Z then l else if (x <? y)%Z then x :: l else y :: zinsert x l' end.
Definition zunique (l : list Z) : list Z := fold_right zinsert [] l.
Definition stack_idx (m : qtransform) : list (list nat) :=
  let nt := map ntiles (tr_tiles m) in
  map (fun n => filter (fun i => (nth i nt 0 =? n)%Z) (seq 0 (List.length nt))) (zunique nt).
(** [forward] (406-431), bilinear and bicubic methods: the output, and the new self.qtiles *)
Definition qtr_forward (m : qtransform) (nf nt : nat) (X : tensor R) (norm : option string) : res (tensor R * list (tensor R)) :=
  let* tiles := compute_qtiles m X norm in
  let* out := interpolate_tiles (tr_method m) nf nt (Some tiles) in
  Ok (out, tiles).

(** ** QScan (434-561) *)
(** 507-520, [get_qs]; a non-positive ratio is a ValueError *)
Definition nplanes (q0 q1 mm : R) : Z := Z.max (rceil (ln (q1 / q0) / sqrt 2 / deltam mm)) 1.   (* 511-513 *)
Definition q_plane (q0 q1 mm : R) (i : nat) : R :=
  q0 * exp (sqrt 2 * (ln (q1 / q0) / sqrt 2 / IZR (nplanes q0 q1 mm)) * (INR i + / 2)).        (* 514-518 *)
Definition get_qs (q0 q1 mm : R) : res (list R) :=
  if Rle_dec (q1 / q0) 0 then Err ValueError else Ok (map (q_plane q0 q1 mm) (seq 0 (Z.to_nat (nplanes q0 q1 mm)))).
(** 462-505, [__init__] (the warning is not modelled); every transform gets its own copy of frange *)
Definition qscan_create (dur sr : R) (qrange : option (R * R)) (frange : option frange_arg) (method : string) (mm : R)
    : res (list qtransform) :=
  let qr := match qrange with Some q => q | None => (4, 64) end in
  let* qs := get_qs (fst qr) (snd qr) mm in
  sequence (map (fun q => qtr_create dur sr q frange mm method)
                (filter (fun q => if Rlt_dec q (max_q dur sr) then true else false) qs)).
(** torch.argmax of a non-empty list: the first position of the maximum *)
Fixpoint argmax_from (best : R) (bi i : nat) (l : list R) : nat :=
  match l with [] => bi | v :: l' => if Rlt_dec best v then argmax_from v i (S i) l' else argmax_from best bi (S i) l' end.
Definition argmax (l : list R) : res nat := match l with [] => Err IndexError | v :: l' => Ok (argmax_from v 0 1 l') end.
(** 522-561, [forward] (bilinear and bicubic) *)
Definition qscan_forward (ms : list qtransform) (nf nt : nat) (X : tensor R) (fsearch : option (R * R)) (norm : option string)
    : res (tensor R) :=
  let* all := sequence (map (fun m => compute_qtiles m X norm) ms) in                        (* 551-552 *)
  let* es := sequence (map (fun p => get_max_energy (tr_freqs (fst p)) (Some (snd p)) fsearch "both") (combine ms all)) in (* 553-560 *)
  let* idx := argmax (map (fun e => elt e []) es) in
  match nth_error (combine ms all) idx with
  | Some (m, tiles) => interpolate_tiles (tr_method m) nf nt (Some tiles)                    (* 561 *)
  | None => Err IndexError
  end.
