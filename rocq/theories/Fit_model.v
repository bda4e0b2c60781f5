(** Model of ml4gw/transforms/{transform,scaler,snr_rescaler,whitening,spectral}.py. *)
From Coq Require Import String.
From Verif Require Import Base Tensor Rutil Slicing_model Streaming_model Norm_model Gw_model Dft Spectral_model.
Local Open Scope nat_scope.

(** ** FittableTransform: a torch module with persistent buffers and a [built] flag *)
Record fit (A : Type) := mkfit { bufs : list (string * tensor A); built : bool }.
Arguments mkfit {A}. Arguments bufs {A}. Arguments built {A}.
Fixpoint assoc {V} (n : string) (l : list (string * V)) : option V :=
  match l with [] => None | (m, v) :: l' => if string_dec n m then Some v else assoc n l' end.
Fixpoint update {V} (n : string) (v : V) (l : list (string * V)) : list (string * V) :=
  match l with [] => [] | (m, u) :: l' => if string_dec n m then (m, v) :: l' else (m, u) :: update n v l' end.
(** buffer.copy_(value): the value is broadcast to the shape of the buffer, RuntimeError if that is impossible *)
Definition copy_ {A} (b v : tensor A) : res (tensor A) :=
  match bshape (shape b) (shape v) with
  | Ok s => if list_eq_dec Nat.eq_dec s (shape b) then Ok (mk (shape b) (fun i => elt v (bidx (shape v) i))) else Err RuntimeError
  | Err _ => Err RuntimeError
  end.
(** transform.py 12-16, [build]: buffers are overwritten one by one, [built] is set at the end *)
Fixpoint build {A} (st : fit A) (params : list (string * tensor A)) : fit A * res unit :=
  match params with
  | [] => (mkfit (bufs st) true, Ok tt)
  | (n, v) :: ps =>
    match assoc n (bufs st) with
    | None => (st, Err KeyError)
    | Some b => match copy_ b v with
                | Err e => (st, Err e)
                | Ok b' => build (mkfit (update n b' (bufs st)) (built st)) ps
                end
    end
  end.
(** transform.py 18-27, [_check_built] / [__call__]: what reaches forward is the buffers *)
Definition call {A} (st : fit A) : res (list (string * tensor A)) := if built st then Ok (bufs st) else Err ValueError.
(** transform.py 29-39, [_load_from_state_dict], inside torch's [load_state_dict]: buffers present with the right shape are
    copied, a shape mismatch adds an error message, a missing key does not; the transform counts as built when no message was
    added; load_state_dict raises afterwards if there were messages, or (strict) missing or unexpected keys *)
Definition load_one {A} (sd : list (string * tensor A)) (nb : string * tensor A) : string * tensor A :=
  match assoc (fst nb) sd with
  | Some v => if list_eq_dec Nat.eq_dec (shape v) (shape (snd nb)) then (fst nb, v) else nb
  | None => nb
  end.
Definition mismatch {A} (sd : list (string * tensor A)) (nb : string * tensor A) : bool :=
  match assoc (fst nb) sd with Some v => if list_eq_dec Nat.eq_dec (shape v) (shape (snd nb)) then false else true | None => false end.
Definition load {A} (st : fit A) (strict : bool) (sd : list (string * tensor A)) : fit A * res unit :=
  let err := existsb (mismatch sd) (bufs st) in
  let missing := existsb (fun nb => match assoc (fst nb) sd with None => true | Some _ => false end) (bufs st) in
  let unexpected := existsb (fun nv => match assoc (fst nv) (bufs st) with None => true | Some _ => false end) sd in
  (mkfit (map (load_one sd) (bufs st)) (built st || negb err),
   if err || (strict && (missing || unexpected)) then Err RuntimeError else Ok tt).
(** a history of operations on one transform *)
Inductive op (A : Type) := OBuild (params : list (string * tensor A)) | OLoad (strict : bool) (sd : list (string * tensor A)) | OCall.
Arguments OBuild {A}. Arguments OLoad {A}. Arguments OCall {A}.
Definition step {A} (st : fit A) (o : op A) : fit A * res unit :=
  match o with
  | OBuild ps => build st ps
  | OLoad strict sd => load st strict sd
  | OCall => (st, match call st with Ok _ => Ok tt | Err e => Err e end)
  end.
Fixpoint run {A} (st : fit A) (h : list (op A)) : fit A * list (res unit) :=
  match h with
  | [] => (st, [])
  | o :: h' => let '(st1, r) := step st o in let '(st2, rs) := run st1 h' in (st2, r :: rs)
  end.

Local Open Scope R_scope.
(** torch.hann_window(n): a window of one sample is [1] *)
Definition hann_window (n : nat) (i : nat) : R := if (n =? 1)%nat then 1 else hann n i.
(** torch.nn.functional.interpolate(x, size) with the default mode "nearest", on one row of n values *)
Definition interp_nearest (n size : nat) (f : nat -> R) (j : nat) : R := f (Nat.min (j * n / size) (n - 1)).

(** transform.py 43-76, [normalize_psd].  nperseg < 1 or nstride < 0 make torch raise RuntimeError. *)
Definition normalize_psd (x : tensor R) (sample_rate : R) (num_freqs : nat) (fftlength overlap : option R) : res (tensor R) :=
  let* x := match fftlength with
    | None => Ok x
    | Some fl =>
      let nperseg := rtrunc (fl * sample_rate) in                                            (* 55 *)
      let overlap := match overlap with Some o => if Req_EM_T o 0 then fl / 2 else o | None => fl / 2 end in   (* 57 *)
      let nstride := (nperseg - rtrunc (overlap * sample_rate))%Z in                         (* 58 *)
      if ((nperseg <? 1) || (nstride <? 0))%Z then Err RuntimeError else
      let n := Z.to_nat nperseg in
      let window := mk [n] (fun i => hann_window n (hd 0%nat i)) in                          (* 60 *)
      let scale := 1 / (sample_rate * Rsum n (fun t => hann_window n t ^ 2)) in              (* 61 *)
      spectral_density x n (Z.to_nat nstride) window scale "median"                          (* 62-68 *)
    end in
  let m := numel x in
  if (m =? 0)%nat then Err RuntimeError else                                                 (* 73-76: view(1, 1, -1) *)
  let row := fun k => elt x (unravel (shape x) k) in
  Ok (mk [num_freqs] (fun i => let j := hd 0%nat i in if (m =? num_freqs)%nat then row j else interp_nearest m num_freqs row j)).

(** ** scaler.py *)
(** 25-35 *)
Definition scaler_create (num_channels : option nat) : fit R :=
  let s := match num_channels with None => [1%nat] | Some n => [if (n =? 0)%nat then 1%nat else n; 1%nat] end in
  mkfit [("mean"%string, mk s (fun _ => 0)); ("std"%string, mk s (fun _ => 1))] false.
Definition pop_std (n : nat) (f : nat -> R) : R := sqrt (Rsum n (fun t => (f t - Rsum n f / INR n) ^ 2) / INR n).
Definition std_last (t : tensor R) : tensor R :=
  mk (removelast (shape t) ++ [1%nat]) (fun i => pop_std (last (shape t) 0%nat) (fun k => elt t (removelast i ++ [k]))).
Definition ndim_of (st : fit R) (n : string) : nat := match assoc n (bufs st) with Some b => ndim b | None => 0%nat end.
(** 37-63; a failed assert is AssertionError *)
Definition scaler_fit (st : fit R) (X : tensor R) (std_reg : R) : fit R * res unit :=
  let go := build st [("mean"%string, mean_last true X); ("std"%string, tmap (fun v => v + std_reg) (std_last X))] in
  match shape X with
  | [_] => if ((ndim_of st "mean" =? 1) && (ndim_of st "std" =? 1))%nat then go else (st, Err AssertionError)
  | [c; _] =>
    match assoc "mean" (bufs st), assoc "std" (bufs st) with
    | Some m, Some s =>
      if ((ndim m =? 2) && (ndim s =? 2) && (c =? hd 0 (shape m)) && (c =? hd 0 (shape s)))%nat then go else (st, Err AssertionError)
    | _, _ => (st, Err AssertionError)
    end
  | _ => (st, Err ValueError)
  end.
(** 65-71, through __call__ *)
Definition scaler_forward (st : fit R) (X : tensor R) (reverse : bool) : res (tensor R) :=
  let* b := call st in
  match assoc "mean" b, assoc "std" b with
  | Some mean, Some std =>
    if negb reverse then let* y := bzip Rminus X mean in bzip Rdiv y std
    else let* y := bzip Rmult std X in bzip Rplus y mean
  | _, _ => Err AttributeError
  end.

(** ** snr_rescaler.py 8-84 *)
Record rescaler := mkresc { rs_sr : R; rs_ch : nat; rs_size : nat; rs_hp : cutoff; rs_lp : cutoff; rs_fit : fit R }.
(** 9-41; waveform_size = int(waveform_duration * sample_rate) must not be negative *)
Definition mask_of (keep : R -> R -> bool) (n : nat) (sr f : R) : tensor R :=
  mk [rbins n] (fun i => if keep (rfftfreq n sr (hd 0%nat i)) f then 1 else 0).
Definition rescaler_create (num_channels : nat) (sample_rate waveform_duration : R) (highpass lowpass : option R) : res rescaler :=
  let size := rtrunc (waveform_duration * sample_rate) in
  if (size <? 0)%Z then Err RuntimeError else
  let n := Z.to_nat size in
  Ok (mkresc sample_rate num_channels n
        (match highpass with Some f => Mask (mask_of ge_b n sample_rate f) | None => NoCut end)
        (match lowpass with Some f => Mask (mask_of lt_b n sample_rate f) | None => NoCut end)
        (mkfit [("background"%string, mk [num_channels; rbins n] (fun _ => 0))] false)).
(** 43-63; f32 is the rounding to the buffer's dtype *)
Definition rescaler_fit (f32 : R -> R) (m : rescaler) (background : list (tensor R)) (fftlength overlap : option R) : rescaler * res unit :=
  if negb (List.length background =? rs_ch m)%nat then (m, Err ValueError) else
  match (let* psds := sequence (map (fun x => normalize_psd x (rs_sr m) (rbins (rs_size m)) fftlength overlap) background) in stack_at0 psds) with
  | Err e => (m, Err e)
  | Ok b => let '(st, r) := build (rs_fit m) [("background"%string, tmap f32 b)] in
            (mkresc (rs_sr m) (rs_ch m) (rs_size m) (rs_hp m) (rs_lp m) st, r)
  end.
(** 65-84; perm is the result of torch.randperm(len(snrs)) *)
Definition rescaler_forward (m : rescaler) (perm : list nat) (responses : tensor R) (target : option (tensor R)) : res (tensor R * tensor R) :=
  let* b := call (rs_fit m) in
  match assoc "background" b with
  | None => Err AttributeError
  | Some background =>
    let* snrs := compute_network_snr responses background (rs_sr m) (rs_hp m) (rs_lp m) in
    let target := match target with Some t => t | None => mk (shape snrs) (fun i => elt snrs [nth (hd 0%nat i) perm 0%nat]) end in
    let* weights := bzip Rdiv target snrs in
    let wv := mk [numel weights; 1; 1]%nat (fun i => elt weights (unravel (shape weights) (hd 0%nat i))) in    (* view(-1, 1, 1) *)
    let* r := bzip Rmult responses wv in
    Ok (r, target)
  end.

(** ** whitening.py *)
(** 13-121, [Whiten] *)
Definition whiten_module (fmax : R) (fdur sample_rate : R) (highpass lowpass : option R) (X psd : tensor R) (crop : bool) : res (tensor R) :=
  let size := rtrunc (fdur * sample_rate) in
  if (size <? 0)%Z then Err RuntimeError else
  let n := Z.to_nat size in
  whiten fmax X psd (Window (mk [n] (fun i => hann_window n (hd 0%nat i)))) sample_rate highpass lowpass crop.

(** [FixedWhiten]: the psd buffer is float64, fduration is a float32 buffer of one element *)
Record fwhiten := mkfw { fw_ch : nat; fw_len : R; fw_sr : R; fw_psd : fit ext; fw_fd : R }.
(** 143-162 *)
Definition fw_create (num_channels : nat) (kernel_length sample_rate : R) : res fwhiten :=
  let N := rtrunc (kernel_length * sample_rate) in
  if (N <? -1)%Z then Err RuntimeError else
  Ok (mkfw num_channels kernel_length sample_rate
        (mkfit [("psd"%string, mk [num_channels; Z.to_nat (N / 2 + 1)] (fun _ => Fin 0))] false) 0).
(** 164-253.  The second buffer, fduration, has one element and always accepts the copy. *)
Definition fw_fit (f32 : R -> R) (m : fwhiten) (fdur : R) (background : list (tensor R)) (fftlength highpass lowpass overlap : option R)
  : fwhiten * res unit :=
  if negb (List.length background =? fw_ch m)%nat then (m, Err ValueError) else
  let num_freqs := match assoc "psd" (bufs (fw_psd m)) with Some b => last (shape b) 0%nat | None => 0%nat end in
  let one x := let* x := normalize_psd x (fw_sr m) num_freqs fftlength overlap in
               let* p := truncate_inverse_power_spectrum (mk [1; 1; num_freqs]%nat (fun i => elt x [last i 0%nat])) (Seconds fdur) (fw_sr m) highpass lowpass in
               Ok (mk [last (shape p) 0%nat] (fun i => elt p [0; 0; hd 0 i]%nat)) in
  match (let* psds := sequence (map one background) in stack_at0 psds) with
  | Err e => (m, Err e)
  | Ok psd => match build (fw_psd m) [("psd"%string, psd)] with
              | (st, Ok _) => (mkfw (fw_ch m) (fw_len m) (fw_sr m) st (f32 fdur), Ok tt)
              | (st, Err e) => (mkfw (fw_ch m) (fw_len m) (fw_sr m) st (fw_fd m), Err e)
              end
  end.
(** 255-285 *)
Definition fw_forward (fmax : R) (m : fwhiten) (X : tensor R) (crop : bool) : res (tensor R) :=
  let* b := call (fw_psd m) in
  match assoc "psd" b with
  | None => Err AttributeError
  | Some psd =>
    if (ndim X =? 0)%nat then Err IndexError else
    if negb (Z.of_nat (last (shape X) 0%nat) =? rtrunc (fw_len m * fw_sr m))%Z then Err ValueError else
    normalize_by_psd fmax X psd (fw_sr m) (rtrunc (fw_fd m * fw_sr m / 2)) crop
  end.

(** ** transforms/spectral.py 9-117, [SpectralDensity] *)
Record sdens := mksd { sd_n : nat; sd_stride : nat; sd_win : tensor R; sd_scale : R; sd_avg : string; sd_fast : bool }.
Definition sd_create (sample_rate fftlength : R) (overlap : option R) (average : string) (window : option (tensor R)) (fast : bool) : res sdens :=
  let* overlap := match overlap with
                  | None => Ok (fftlength / 2)
                  | Some o => if Rle_dec fftlength o then Err ValueError else Ok o
                  end in
  let nperseg := rtrunc (fftlength * sample_rate) in
  let nstride := (nperseg - rtrunc (overlap * sample_rate))%Z in
  if (nperseg <? 0)%Z then Err RuntimeError else
  let n := Z.to_nat nperseg in
  let win := match window with Some w => w | None => mk [n] (fun i => hann_window n (hd 0%nat i)) end in
  if negb (hd 0%nat (shape win) =? n)%nat then Err ValueError else
  let scale := 1 / (sample_rate * Rsum (numel win) (fun k => elt win (unravel (shape win) k) ^ 2)) in
  if string_dec average "mean" then Ok (mksd n (Z.to_nat nstride) win scale average fast)
  else if string_dec average "median" then Ok (mksd n (Z.to_nat nstride) win scale average fast)
  else Err ValueError.
Definition sd_forward (m : sdens) (x : tensor R) (y : option (tensor R)) : res (tensor C) :=
  if sd_fast m then fast_spectral_density x (sd_n m) (sd_stride m) (sd_win m) (sd_scale m) (sd_avg m) y
  else match y with
       | Some _ => Err NotImplementedError
       | None => let* r := spectral_density x (sd_n m) (sd_stride m) (sd_win m) (sd_scale m) (sd_avg m) in Ok (tmap RtoC r)
       end.
