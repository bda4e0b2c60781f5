(** Whitening with a PSD that has zero (or negative) bins: ml4gw/spectral.py 348-568 once more, with IEEE infinities and NaNs.
    (Spectral_model computes with real numbers and therefore needs a positive PSD.) *)
From Coq Require Import String.
From Coquelicot Require Import Complex.
From Verif Require Import Dist2_model.
From Verif Require Import Base Tensor Rutil Slicing_model Autoenc_model Norm_model Dft Streaming_model Gw_model Spectral_model.
Local Open Scope R_scope.

Definition nonfinite (a : er) : Prop := forall r, a <> EF r.
(** torch.fft.irfft(x, n, norm="forward") of one real-valued row and torch.fft.rfft(x, n, norm="forward") of one real row. On finite
    rows they are the transforms of Dft.v; with infinities and NaNs the result depends on the algorithm, and an implementation is
    only required to propagate: a non-finite bin k makes every sample non-finite to which it contributes with a non-zero weight, and
    a NaN sample makes (the real or imaginary part of) every bin NaN. *)
Definition irfft_impl (IR : nat -> (nat -> er) -> nat -> er) : Prop := forall n s t, (0 < n)%nat -> (t < n)%nat ->
  (forall g, (forall k, (k < rbins n)%nat -> s k = EF (g k)) -> IR n s t = EF (INR n * irfft n (fun k => RtoC (g k)) t)) /\
  (forall k, (k < rbins n)%nat -> nonfinite (s k) -> cos (2 * PI * INR k * INR t / INR n) <> 0 -> nonfinite (IR n s t)).
Definition rfft_impl (RF : nat -> (nat -> er) -> nat -> er * er) : Prop := forall n q k, (0 < n)%nat -> (k < rbins n)%nat ->
  (forall x, (forall t, (t < n)%nat -> q t = EF (x t)) -> RF n q k = (EF (Re (rfft n x k) / INR n), EF (Im (rfft n x k) / INR n))) /\
  (forall t, (t < n)%nat -> q t = EN -> fst (RF n q k) = EN \/ snd (RF n q k) = EN).

(** 1 / psd**0.5 (401) *)
Definition inv_amp0 (p : R) : er := if Rlt_dec 0 p then EF (1 / sqrt p) else if Req_EM_T p 0 then EP else EN.
(** q[:, :, lo:hi] = 0 and q[:, :, lo:hi] *= w, as in Spectral_model *)
Definition zero_slice_x (lo hi : Z) (q : tensor er) : tensor er :=
  mk (shape q) (fun i => let j := Z.of_nat (last i 0%nat) in if ((lo <=? j) && (j <? hi))%Z then EF 0 else elt q i).
Definition mul_slice_x (lo hi : Z) (n : nat) (w : nat -> R) (q : tensor er) : res (tensor er) :=
  let len := Z.to_nat (hi - lo) in
  if ((n =? len) || (n =? 1))%nat then
    Ok (mk (shape q) (fun i => let j := Z.of_nat (last i 0%nat) in
          if ((lo <=? j) && (j <? hi))%Z then emul (elt q i) (EF (w (if (n =? 1)%nat then 0%nat else Z.to_nat (j - lo)))) else elt q i))
  else Err RuntimeError.
(** abs of a complex number: hypot, infinite as soon as one part is, else NaN as soon as one part is *)
Definition ehypot (a b : er) : er :=
  match a, b with
  | EP, _ | EM, _ | _, EP | _, EM => EP
  | EF x, EF y => EF (sqrt (x ^ 2 + y ^ 2))
  | _, _ => EN
  end.
(** spectral.py 348-439, [truncate_inverse_power_spectrum]; 3D inputs as in Spectral_model *)
Definition truncate_x (IR : nat -> (nat -> er) -> nat -> er) (RF : nat -> (nat -> er) -> nat -> er * er)
    (psd : tensor R) (fd : fduration) (sample_rate : R) (highpass lowpass : option R) : res (tensor er) :=
  if negb (ndim psd =? 3)%nat then Err IndexError else
  let F := last (shape psd) 0%nat in
  let n := ((F - 1) * 2)%nat in                                                               (* 396-397 *)
  if (n =? 0)%nat then Err ZeroDivisionError else
  let inv_asd := tmap inv_amp0 psd in                                                         (* 401 *)
  let df := sample_rate / INR n in                                                            (* 405 *)
  let Fz := Z.of_nat F in
  let inv_asd := match highpass with                                                          (* 406-408 *)
                 | Some f => zero_slice_x 0 (slice_hi Fz (Some (rtrunc (f / df)))) inv_asd | None => inv_asd end in
  let inv_asd := match lowpass with                                                           (* 409-411 *)
                 | Some f => zero_slice_x (slice_lo Fz (Some (rtrunc (f / df)))) Fz inv_asd | None => inv_asd end in
  let inv_asd := if Nat.odd F then zero_slice_x (Fz - 1) Fz inv_asd else inv_asd in           (* 413-414 *)
  let q := mk (removelast (shape psd) ++ [n])                                                 (* 417 *)
              (fun i => IR n (fun k => elt inv_asd (removelast i ++ [k])) (last i 0%nat)) in
  let pad := fd_pad fd sample_rate in                                                         (* 420-426 *)
  let* (wn, w) := fd_window fd pad in
  let nz := Z.of_nat n in let wz := Z.of_nat wn in
  let l1 := slice_lo wz (Some (- pad)%Z) in
  let* q := mul_slice_x 0 (slice_hi nz (Some pad)) (Z.to_nat (wz - l1)) (fun i => w (Z.to_nat l1 + i)%nat) q in     (* 429 *)
  let* q := mul_slice_x (slice_lo nz (Some (- pad)%Z)) nz (Z.to_nat (slice_hi wz (Some pad))) w q in                (* 430 *)
  let q := if (2 * pad <? nz)%Z then zero_slice_x pad (nz - pad) q else q in                  (* 431-432 *)
  Ok (mk (shape psd) (fun i =>                                                                (* 436-439 *)
        let a := RF n (fun t => elt q (removelast i ++ [t])) (last i 0%nat) in
        let re := eadd (emul (fst a) (fst a)) (emul (snd a) (snd a)) in
        let im := esub (emul (snd a) (fst a)) (emul (fst a) (snd a)) in
        ediv (ediv (EF 1) (ehypot re im)) (EF 2))).
(** psd as [normalize_by_psd] of Spectral_model reads it: nan_to_num(psd ** -0.5) is 0 for +inf and for NaN alike *)
Definition to_ext (a : er) : ext := match a with EF p => Fin p | _ => Inf end.
(** spectral.py 469-568, [whiten] *)
Definition whiten_x (IR : nat -> (nat -> er) -> nat -> er) (RF : nat -> (nat -> er) -> nat -> er * er)
    (fmax : R) (X psd : tensor R) (fd : fduration) (sample_rate : R) (highpass lowpass : option R) (crop : bool) : res (tensor R) :=
  let pad := fd_pad fd sample_rate in                                                         (* 532-535 *)
  if (ndim X =? 0)%nat then Err IndexError else
  let n := last (shape X) 0%nat in                                                            (* 537 *)
  if (Z.of_nat n <=? 2 * pad)%Z then Err ValueError else                                      (* 538-542 *)
  let psd := pad_ndim3 psd in                                                                 (* 545-546 *)
  let num_freqs := (n / 2 + 1)%nat in                                                         (* 550 *)
  let* psd := if (last (shape psd) 0 =? num_freqs)%nat then Ok psd else interpolate_last num_freqs psd in   (* 551-556 *)
  let* psd := truncate_x IR RF psd fd sample_rate highpass lowpass in                         (* 560-566 *)
  normalize_by_psd fmax X (tmap to_ext psd) sample_rate pad crop.                             (* 568 *)
