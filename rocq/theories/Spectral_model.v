(** Model of ml4gw/spectral.py.  Real arithmetic: the float64 / float32 conversions of the code are identities here. *)
From Coq Require Import String.
From Verif Require Import Base Tensor Rutil Slicing_model Streaming_model Norm_model Gw_model Dft.
From Coquelicot Require Import Complex.
Local Open Scope R_scope.

(** ** aggregation *)
Fixpoint rinsert (x : R) (l : list R) : list R :=
  match l with [] => [x] | y :: l' => if Rle_dec x y then x :: l else y :: rinsert x l' end.
Definition rsort (l : list R) : list R := fold_right rinsert [] l.
(** torch.quantile(x, q=0.5) of n values: linear interpolation at position (n-1)/2 of the sorted values *)
Definition quantile_half (n : nat) (f : nat -> R) : R :=
  let s := rsort (map f (seq 0 n)) in
  let lo := nth ((n - 1) / 2) s 0 in let hi := nth (n / 2) s 0 in
  lo + (if Nat.even n then / 2 else 0) * (hi - lo).
(** spectral.py 34-36 *)
Definition median_bias (n : nat) : R :=
  1 + Rsum ((n - 1) / 2) (fun i => let ii_2 := 2 * (INR i + 1) in 1 / (ii_2 + 1) - 1 / ii_2).
(** spectral.py 27-37, [median] (of the n values along one axis) *)
Definition median (n : nat) (f : nat -> R) : R := quantile_half n f / median_bias n.
Definition mean (n : nat) (f : nat -> R) : R := Rsum n f / INR n.
(** any string other than "mean" selects the median (229-241, 342-345) *)
Definition aggregate (average : string) : nat -> (nat -> R) -> R := if string_dec average "mean" then mean else median.

(** spectral.py 40-85, [_validate_shapes] (a function of the shapes only); x.shape[-1] of a 0-d tensor is an IndexError *)
Definition validate_shapes (x : list nat) (nperseg : nat) (y : option (list nat)) : res unit :=
  match x with
  | [] => Err IndexError
  | _ =>
    if (last x 0 <? nperseg)%nat then Err ValueError else                                     (* 41-45 *)
    if (3 <? List.length x)%nat then Err ValueError else                                      (* 46-49 *)
    match y with
    | None => Ok tt                                                                           (* 51-52 *)
    | Some [] => Err IndexError
    | Some y =>
      let nx := List.length x in let ny := List.length y in
      if negb (last x 0 =? last y 0)%nat then Err ValueError else                             (* 58-62 *)
      if ((nx =? 1) && negb (ny =? 1))%nat then Err ValueError else                           (* 63-67 *)
      if ((1 <? nx) && (ny =? nx))%nat then                                                   (* 68-74 *)
        if list_eq_dec Nat.eq_dec y x then Ok tt else Err ValueError
      else if ((1 <? nx) && negb (ny =? nx - 1))%nat then Err ValueError                      (* 75-79 *)
      else if ((2 <? nx) && negb (hd 0 y =? hd 0 x))%nat then Err ValueError                  (* 80-85 *)
      else Ok tt
    end
  end.

(** fft[..., 1:stop] *= 2 along axis [ax], stop = None for odd nperseg and -1 for even nperseg *)
Definition double_axis {A} (dbl : A -> A) (ax nperseg : nat) (t : tensor A) : tensor A :=
  let F := nth ax (shape t) 0%nat in
  mk (shape t) (fun i => let f := nth ax i 0%nat in
     if ((1 <=? f) && (if Nat.odd nperseg then f <? F else f <? F - 1))%nat then dbl (elt t i) else elt t i).

(** reduction of axis -2 / axis -1 *)
Definition reduce_m2 {A B} (agg : nat -> (nat -> A) -> B) (t : tensor A) : tensor B :=
  let s := shape t in
  mk (removelast (removelast s) ++ [last s 0%nat])
     (fun i => agg (last (removelast s) 0%nat) (fun k => elt t (removelast i ++ [k; last i 0%nat]))).
Definition reduce_m1 {A B} (agg : nat -> (nat -> A) -> B) (t : tensor A) : tensor B :=
  mk (removelast (shape t)) (fun i => agg (last (shape t) 0%nat) (fun k => elt t (i ++ [k]))).

(** spectral.py 249-345, [spectral_density], nperseg and nstride natural numbers *)
Definition spectral_density (x : tensor R) (nperseg nstride : nat) (window : tensor R) (scale : R) (average : string)
  : res (tensor R) :=
  let* _ := validate_shapes (shape x) nperseg None in                                         (* 289 *)
  let T := last (shape x) 0%nat in
  let dims := map Z.of_nat (removelast (shape x)) in                                          (* 300-308 *)
  let x := to4d x in
  if (nstride =? 0)%nat then Err ZeroDivisionError else
  let num_segments := ((T - nperseg) / nstride + 1)%nat in                                    (* 312 *)
  let stop := ((num_segments - 1) * nstride + nperseg)%nat in                                 (* 313 *)
  let x := slice_last None (Some (Z.of_nat stop)) x in                                        (* 314 *)
  let* x := unfold_1k (Z.of_nat num_segments) (Z.of_nat nstride) x in                         (* 320-321 *)
  let* x := bzip Rminus x (mean_last true x) in                                               (* 322 *)
  let* x := bzip_inplace Rmult x window in                                                    (* 323 *)
  let* fft := rfft_abs x in                                                                   (* 328 *)
  let fft := tmap (fun v => v ^ 2) fft in
  let fft := double_axis (fun v => v * 2) (ndim fft - 1) nperseg fft in                       (* 330-333 *)
  let fft := tmap (fun v => v * scale) fft in                                                 (* 334 *)
  let* fft := reshape (dims ++ [Z.of_nat num_segments; -1]%Z) fft in                          (* 339-340 *)
  Ok (reduce_m2 (aggregate average) fft).                                                     (* 342-345 *)

(** torch.stft(x, n_fft, hop_length, window, center=False) of a 1D or 2D tensor: (..., n_fft/2+1, frames) *)
Definition stft (n hop : nat) (window x : tensor R) : res (tensor C) :=
  let T := last (shape x) 0%nat in
  if ((ndim x =? 0) || (2 <? ndim x) || (n =? 0) || (T <? n) || (hop =? 0))%nat then Err RuntimeError else
  if negb (if list_eq_dec Nat.eq_dec (shape window) [n] then true else false) then Err RuntimeError else
  Ok (mk (removelast (shape x) ++ [rbins n; ((T - n) / hop + 1)%nat])
         (fun i => let pre := removelast (removelast i) in
                   rfft n (fun t => elt window [t] * elt x (pre ++ [(last i 0 * hop + t)%nat])) (last (removelast i) 0%nat))).

Definition cagg (agg : nat -> (nat -> R) -> R) (n : nat) (f : nat -> C) : C := (agg n (fun k => Re (f k)), agg n (fun k => Im (f k))).
(** t[:, None] of a 3D tensor *)
Definition unsqueeze1 {A} (t : tensor A) : tensor A :=
  mk (match shape t with a :: s => a :: 1%nat :: s | [] => [1%nat] end)
     (fun i => match i with a :: _ :: r => elt t (a :: r) | _ => elt t i end).

(** spectral.py 88-246, [fast_spectral_density].  The result is real when y is None (here: complex with zero imaginary
    part; the median of the real part is the real part of [cagg]). *)
Definition fast_spectral_density (x : tensor R) (nperseg nstride : nat) (window : tensor R) (scale : R) (average : string)
    (y : option (tensor R)) : res (tensor C) :=
  let* _ := validate_shapes (shape x) nperseg (option_map shape y) in                         (* 159 *)
  let T := last (shape x) 0%nat in
  let batch := match shape x with [b; c; _] => Some (b, c) | _ => None end in                 (* 165-178 *)
  let* x := match batch with Some _ => reshape [-1; Z.of_nat T]%Z x | None => Ok x end in
  let* y := match batch, y with
            | Some _, Some y' => if (ndim y' =? 3)%nat then let* r := reshape [-1; Z.of_nat T]%Z y' in Ok (Some r) else Ok (Some y')
            | _, _ => Ok y
            end in
  let* x := bzip Rminus x (mean_last true x) in                                               (* 180 *)
  let* fft := stft nperseg nstride window x in                                                (* 181-189 *)
  let* (fft, other) :=
    match y with                                                                              (* 191-209 *)
    | None => Ok (fft, fft)
    | Some y =>
      let* y := bzip Rminus y (mean_last true y) in
      let* y_fft := stft nperseg nstride window y in
      match batch with
      | Some (b, c) =>
        if negb (hd 0 (shape fft) =? hd 0 (shape y_fft))%nat then
          let* fft := reshape [Z.of_nat b; Z.of_nat c; Z.of_nat (rbins nperseg); -1]%Z fft in
          Ok (fft, unsqueeze1 y_fft)
        else Ok (fft, y_fft)
      | None => Ok (fft, y_fft)
      end
    end in
  let* fft := bzip (fun a b => Cmult (Cconj a) b) fft other in                                (* 211 *)
  let fft := match y with None => tmap (fun z => RtoC (Re z)) fft | Some _ => fft end in      (* 212-213 *)
  let ax := if (ndim x =? 1)%nat then 0%nat else if (ndim fft <? 4)%nat then 1%nat else 2%nat in   (* 220-226 *)
  let fft := double_axis (fun v => Cmult v (RtoC 2)) ax nperseg fft in
  let fft := tmap (fun v => Cmult v (RtoC scale)) fft in                                      (* 227 *)
  let fft := reduce_m1 (cagg (aggregate average)) fft in                                      (* 229-240 *)
  match batch with                                                                            (* 242-245 *)
  | Some (b, c) => if (ndim fft =? 2)%nat then reshape [Z.of_nat b; Z.of_nat c; -1]%Z fft else Ok fft
  | None => Ok fft
  end.

(** ** whitening *)
(** a power spectral density value: a real number or +inf *)
Inductive ext := Fin (r : R) | Inf.
(** fduration: a number of seconds, or a 1D window tensor *)
Inductive fduration := Seconds (s : R) | Window (w : tensor R).
(** the number of samples in half of fduration (420-427, 532-535) *)
Definition fd_pad (fd : fduration) (sample_rate : R) : Z :=
  match fd with Seconds s => rtrunc (s * sample_rate / 2) | Window w => Z.of_nat (last (shape w) 0%nat / 2) end.
(** torch.hann_window(n) (periodic) *)
Definition hann (n : nat) (i : nat) : R := (1 - cos (2 * PI * INR i / INR n)) / 2.
Definition fd_window (fd : fduration) (pad : Z) : res (nat * (nat -> R)) :=
  match fd with
  | Seconds _ => if (pad <? 0)%Z then Err RuntimeError else Ok (Z.to_nat (2 * pad), hann (Z.to_nat (2 * pad)))
  | Window w => Ok (last (shape w) 0%nat, fun i => elt w [i])
  end.
(** q[:, :, lo:hi] *= w for a 1D w with n entries: RuntimeError unless the lengths agree (or n = 1) *)
Definition mul_slice (lo hi : Z) (n : nat) (w : nat -> R) (q : tensor R) : res (tensor R) :=
  let len := Z.to_nat (hi - lo) in
  if ((n =? len) || (n =? 1))%nat then
    Ok (mk (shape q) (fun i => let j := Z.of_nat (last i 0%nat) in
          if ((lo <=? j) && (j <? hi))%Z then elt q i * w (if (n =? 1)%nat then 0%nat else Z.to_nat (j - lo)) else elt q i))
  else Err RuntimeError.
(** q[:, :, lo:hi] = 0 *)
Definition zero_slice (lo hi : Z) (q : tensor R) : tensor R :=
  mk (shape q) (fun i => let j := Z.of_nat (last i 0%nat) in if ((lo <=? j) && (j <? hi))%Z then 0 else elt q i).

(** spectral.py 348-439, [truncate_inverse_power_spectrum].  psd positive (a zero or negative entry gives inf / nan in
    torch and is not modelled); fewer than three axes: IndexError; more than three axes are not modelled. *)
Definition truncate_inverse_power_spectrum (psd : tensor R) (fd : fduration) (sample_rate : R) (highpass lowpass : option R)
  : res (tensor ext) :=
  if negb (ndim psd =? 3)%nat then Err IndexError else
  let F := last (shape psd) 0%nat in
  let n := ((F - 1) * 2)%nat in                                                               (* 396-397 *)
  if (n =? 0)%nat then Err ZeroDivisionError else
  let inv_asd := tmap (fun p => 1 / sqrt p) psd in                                            (* 401 *)
  let df := sample_rate / INR n in                                                            (* 405 *)
  let Fz := Z.of_nat F in
  let inv_asd := match highpass with                                                          (* 406-408 *)
                 | Some f => zero_slice 0 (slice_hi Fz (Some (rtrunc (f / df)))) inv_asd | None => inv_asd end in
  let inv_asd := match lowpass with                                                           (* 409-411 *)
                 | Some f => zero_slice (slice_lo Fz (Some (rtrunc (f / df)))) Fz inv_asd | None => inv_asd end in
  let inv_asd := if Nat.odd F then zero_slice (Fz - 1) Fz inv_asd else inv_asd in             (* 413-414 *)
  let q := mk (removelast (shape psd) ++ [n])                                                 (* 417 *)
              (fun i => INR n * irfft n (fun k => RtoC (elt inv_asd (removelast i ++ [k]))) (last i 0%nat)) in
  let pad := fd_pad fd sample_rate in                                                         (* 420-426 *)
  let* (wn, w) := fd_window fd pad in
  let nz := Z.of_nat n in let wz := Z.of_nat wn in
  let l1 := slice_lo wz (Some (- pad)%Z) in
  let* q := mul_slice 0 (slice_hi nz (Some pad)) (Z.to_nat (wz - l1)) (fun i => w (Z.to_nat l1 + i)%nat) q in     (* 429 *)
  let* q := mul_slice (slice_lo nz (Some (- pad)%Z)) nz (Z.to_nat (slice_hi wz (Some pad))) w q in                (* 430 *)
  let q := if (2 * pad <? nz)%Z then zero_slice pad (nz - pad) q else q in                    (* 431-432 *)
  Ok (mk (shape psd) (fun i =>                                                                (* 436-439 *)
        let a := Cmult (RtoC (/ INR n)) (rfft n (fun t => elt q (removelast i ++ [t])) (last i 0%nat)) in
        let inv_psd := Cmod (Cmult a (Cconj a)) in
        if Req_EM_T inv_psd 0 then Inf else Fin (1 / inv_psd / 2))).

(** torch.nan_to_num(psd ** -0.5); fmax is the largest finite float64 *)
Definition inv_sqrt_num (fmax : R) (p : ext) : R :=
  match p with Inf => 0 | Fin p => if Rlt_dec 0 p then 1 / sqrt p else if Req_EM_T p 0 then fmax else 0 end.

(** spectral.py 442-466, [normalize_by_psd]; X 3D *)
Definition normalize_by_psd (fmax : R) (X : tensor R) (psd : tensor ext) (sample_rate : R) (pad : Z) (crop : bool) : res (tensor R) :=
  let n := last (shape X) 0%nat in
  if (ndim X =? 0)%nat then Err IndexError else
  if (n =? 0)%nat then Err RuntimeError else
  let* X := bzip Rminus X (mean_last true X) in                                               (* 453 *)
  let X_tilde := mk (removelast (shape X) ++ [rbins n])                                       (* 454 *)
                    (fun i => Cmult (RtoC (/ INR n)) (rfft n (fun t => elt X (removelast i ++ [t])) (last i 0%nat))) in
  let* X_tilde := bzip (fun x p => Cmult x (RtoC (inv_sqrt_num fmax p))) X_tilde psd in       (* 455-456 *)
  let Y := mk (removelast (shape X_tilde) ++ [n])                                             (* 460-461 *)
              (fun i => INR n * irfft n (fun k => elt X_tilde (removelast i ++ [k])) (last i 0%nat) / sqrt sample_rate) in
  if crop then                                                                                (* 464-465 *)
    if negb (ndim Y =? 3)%nat then Err IndexError else Ok (slice_last (Some pad) (Some (- pad)%Z) Y)
  else Ok Y.

(** spectral.py 469-568, [whiten] *)
Definition whiten (fmax : R) (X psd : tensor R) (fd : fduration) (sample_rate : R) (highpass lowpass : option R) (crop : bool)
  : res (tensor R) :=
  let pad := fd_pad fd sample_rate in                                                         (* 532-535 *)
  if (ndim X =? 0)%nat then Err IndexError else
  let n := last (shape X) 0%nat in                                                            (* 537 *)
  if (Z.of_nat n <=? 2 * pad)%Z then Err ValueError else                                      (* 538-542 *)
  let psd := pad_ndim3 psd in                                                                 (* 545-546 *)
  let num_freqs := (n / 2 + 1)%nat in                                                         (* 550 *)
  let* psd := if (last (shape psd) 0 =? num_freqs)%nat then Ok psd else interpolate_last num_freqs psd in   (* 551-556 *)
  let* psd := truncate_inverse_power_spectrum psd fd sample_rate highpass lowpass in          (* 560-566 *)
  normalize_by_psd fmax X psd sample_rate pad crop.                                           (* 568 *)
