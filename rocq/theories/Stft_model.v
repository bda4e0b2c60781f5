(** torchaudio.transforms.Spectrogram as MultiResolutionSpectrogram uses it (spectrogram.py 60-70 and 157): the [spec_of] parameter of
    Mspec_model made concrete.  Modelled keywords: n_fft, win_length, hop_length, pad, power (a number >= 0), normalized; the
    others (window_fn, center, pad_mode, onesided) keep their defaults: Hann window, centred frames, reflection, one side.
    With several faulty dictionaries the error is the one of the first of them. *)
From Coq Require Import String.
From Verif Require Import Base Tensor Rutil Dft Spectral_model Fit_model Dist_model Mspec_model.
From Coquelicot Require Import Complex.
Local Open Scope R_scope.

(** keyword values *)
Inductive kwv := KInt (z : Z) | KReal (r : R) | KBool (b : bool) | KStr (s : string) | KNone.
(** Python truth values (spectrogram.py 53: all(kwargs["normalized"])) *)
Definition truthy (v : kwv) : bool :=
  match v with
  | KInt z => negb (z =? 0)%Z | KReal r => if Req_EM_T r 0 then false else true | KBool b => b
  | KStr s => if string_dec s "" then false else true | KNone => false end.
Definition klookup (key : string) (d : list (string * kwv)) : option kwv :=
  match List.find (fun kv => if string_dec (fst kv) key then true else false) d with Some (_, v) => Some v | None => None end.
(** an int, or None where that means the default; anything else is a TypeError *)
Definition kint (default : Z) (none_ok : bool) (v : option kwv) : res Z :=
  match v with None => Ok default | Some KNone => if none_ok then Ok default else Err TypeError | Some (KInt z) => Ok z | Some _ => Err TypeError end.
Definition kpower (v : option kwv) : res R :=
  match v with None => Ok 2 | Some (KInt z) => Ok (IZR z) | Some (KReal r) => Ok r | Some _ => Err TypeError end.
(** torchaudio.functional._get_spec_norms: no normalization, 1/sqrt(n_fft), or 1/sqrt(sum of the squared window) *)
Inductive snorm := NoNorm | FrameLength | WindowNorm.
Definition knorm (v : option kwv) : res snorm :=
  match v with
  | None | Some (KBool false) => Ok NoNorm
  | Some (KBool true) => Ok WindowNorm
  | Some (KStr s) => if string_dec s "window" then Ok WindowNorm else if string_dec s "frame_length" then Ok FrameLength else Err ValueError
  | Some _ => Err TypeError end.
Definition known (key : string) : bool :=
  existsb (fun k => if string_dec key k then true else false) ["n_fft"; "win_length"; "hop_length"; "pad"; "power"; "normalized"]%string.

(** F.pad(x, (pad, pad)) with zeros *)
Definition zpad (pad len : nat) (x : nat -> R) (j : nat) : R := if (j <? pad)%nat then 0 else if (j <? pad + len)%nat then x (j - pad)%nat else 0.
(** F.pad(x, (r, r), mode="reflect") of len > r samples: without repeating the edge sample *)
Definition reflect (r len : nat) (x : nat -> R) (j : nat) : R :=
  if (j <? r)%nat then x (r - j)%nat else if (j <? r + len)%nat then x (j - r)%nat else x (2 * (len - 1) - (j - r))%nat.
(** torch.stft centres a window shorter than n_fft between zeros *)
Definition center_window (n_fft win : nat) (m : nat) : R :=
  let left := ((n_fft - win) / 2)%nat in
  if (m <? left)%nat then 0 else if (m <? left + win)%nat then hann_window win (m - left) else 0.
(** torch.stft with center=True, onesided=True: bin f of frame t *)
Definition stft (n_fft win hop len : nat) (x : nat -> R) (f t : nat) : C :=
  let y := reflect (n_fft / 2) len x in
  rfft n_fft (fun m => center_window n_fft win m * y (t * hop + m)%nat) f.
Definition stft_frames (n_fft hop len : nat) : nat := ((len + 2 * (n_fft / 2) - n_fft) / hop + 1)%nat.
(** torchaudio.functional.spectrogram *)
Definition spec_row (n_fft win hop pad : nat) (power : R) (nm : snorm) (len : nat) (x : nat -> R) (f t : nat) : R :=
  let s := stft n_fft win hop (len + 2 * pad) (zpad pad len x) f t in
  let scale := match nm with NoNorm => 1 | FrameLength => / sqrt (INR n_fft) | WindowNorm => / sqrt (Rsum win (fun i => hann_window win i ^ 2)) end in
  let a := Cmod (Cmult (RtoC scale) s) in
  if Req_EM_T power 1 then a else if Req_EM_T power 2 then a * a else tpow a power.
Definition spectrogram (n_fft win hop pad : nat) (power : R) (nm : snorm) : spectro :=
  mksp (rbins n_fft) (fun len => stft_frames n_fft hop (len + 2 * pad)) (spec_row n_fft win hop pad power nm).
(** Spectrogram of one dictionary, called on the dummy input of T samples (spectrogram.py 63-70): torch.hann_window and torch.stft raise
    RuntimeError for an empty or too long window, for hop_length < 1, and when the reflection is longer than the input *)
Definition spectro_of (T : nat) (d : list (string * kwv)) : res spectro :=
  if negb (forallb (fun kv => known (fst kv)) d) then Err TypeError else
  let* n_fft := kint 400 false (klookup "n_fft" d) in
  let* win := kint n_fft true (klookup "win_length" d) in
  let* hop := kint (win / 2) true (klookup "hop_length" d) in
  let* pad := kint 0 false (klookup "pad" d) in
  let* power := kpower (klookup "power" d) in
  if (win <? 0)%Z then Err RuntimeError else
  let* nm := knorm (klookup "normalized" d) in
  let pad := Z.to_nat pad in
  if ((n_fft <? 1) || (Z.of_nat (T + 2 * pad) <=? n_fft / 2) || (win <? 1) || (n_fft <? win) || (hop <? 1))%Z then Err RuntimeError else
  Ok (spectrogram (Z.to_nat n_fft) (Z.to_nat win) (Z.to_nat hop) pad power nm).
(** MultiResolutionSpectrogram(kernel_length, sample_rate, **kwargs) *)
Definition mrs_torchaudio (kernel_length sample_rate : R) (kwargs : list (string * list kwv)) : res mrs :=
  mrs_create truthy (KBool true) (spectro_of (Z.to_nat (Gw_model.rtrunc (kernel_length * sample_rate)))) kernel_length sample_rate kwargs.
