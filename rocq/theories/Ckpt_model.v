(** Model of saving and loading the fittable transforms, and of histories of operations on them
    (ml4gw/transforms/{transform,scaler,snr_rescaler,whitening,spectral}.py with torch's state_dict / load_state_dict). *)
From Coq Require Import String.
From Verif Require Import Base Tensor Rutil Slicing_model Streaming_model Norm_model Gw_model Dft Spectral_model Fit_model.
Local Open Scope R_scope.

(** state_dict() holds the persistent buffers (not the flag [built], nor constructor arguments) *)
Definition state_dict {A} (st : fit A) : list (string * tensor A) := bufs st.
(** loading copies values into buffers, rounding them to the dtype of the buffer: [rnd] *)
Definition cast {A} (rnd : A -> A) (sd : list (string * tensor A)) : list (string * tensor A) := map (fun nv => (fst nv, tmap rnd (snd nv))) sd.

(** ** FixedWhiten (whitening.py 143-162): two persistent buffers, psd (float64) and fduration (float32, one element) *)
Definition fd_buf (m : fwhiten) : tensor ext := mk [1%nat] (fun _ => Fin (fw_fd m)).
Definition fw_state (m : fwhiten) : list (string * tensor ext) := bufs (fw_psd m) ++ [("fduration"%string, fd_buf m)].
Definition fin (e : ext) : R := match e with Fin r => r | Inf => 0 end.
(** load_state_dict(sd, strict); fduration is rounded to float32.  (An infinite fduration is not modelled.) *)
Definition cast_fd (f32 : R -> R) (sd : list (string * tensor ext)) : list (string * tensor ext) :=
  map (fun nv => if string_dec (fst nv) "fduration" then (fst nv, tmap (fun e => Fin (f32 (fin e))) (snd nv)) else nv) sd.
Definition fw_load (f32 : R -> R) (m : fwhiten) (strict : bool) (sd : list (string * tensor ext)) : fwhiten * res unit :=
  let '(st, r) := load (mkfit (fw_state m) (built (fw_psd m))) strict (cast_fd f32 sd) in
  let fd := match assoc "fduration" (bufs st) with Some b => fin (elt b [0%nat]) | None => fw_fd m end in
  (mkfw (fw_ch m) (fw_len m) (fw_sr m) (mkfit (removelast (bufs st)) (built st)) fd, r).
(** operations on a FixedWhiten *)
Inductive fw_op :=
  | FFit (fdur : R) (bgs : list (tensor R)) (fl hp lp ov : option R)
  | FLoad (strict : bool) (sd : list (string * tensor ext))
  | FCall (X : tensor R) (crop : bool).
Definition fw_step (fmax : R) (f32 : R -> R) (m : fwhiten) (o : fw_op) : fwhiten * res unit :=
  match o with
  | FFit fdur bgs fl hp lp ov => fw_fit f32 m fdur bgs fl hp lp ov
  | FLoad strict sd => fw_load f32 m strict sd
  | FCall X crop => (m, match fw_forward fmax m X crop with Ok _ => Ok tt | Err e => Err e end)
  end.
Fixpoint fw_run (fmax : R) (f32 : R -> R) (m : fwhiten) (h : list fw_op) : fwhiten :=
  match h with [] => m | o :: h' => fw_run fmax f32 (fst (fw_step fmax f32 m o)) h' end.

(** ** SnrRescaler (snr_rescaler.py 9-41): background is persistent, the masks are not *)
Definition rs_state (m : rescaler) : list (string * tensor R) := bufs (rs_fit m).
Definition rs_load (f32 : R -> R) (m : rescaler) (strict : bool) (sd : list (string * tensor R)) : rescaler * res unit :=
  let '(st, r) := load (rs_fit m) strict (cast f32 sd) in
  (mkresc (rs_sr m) (rs_ch m) (rs_size m) (rs_hp m) (rs_lp m) st, r).
Inductive rs_op :=
  | RFit (bgs : list (tensor R)) (fl ov : option R)
  | RLoad (strict : bool) (sd : list (string * tensor R))
  | RCall (perm : list nat) (X : tensor R) (target : option (tensor R)).
Definition rs_step (f32 : R -> R) (m : rescaler) (o : rs_op) : rescaler * res unit :=
  match o with
  | RFit bgs fl ov => rescaler_fit f32 m bgs fl ov
  | RLoad strict sd => rs_load f32 m strict sd
  | RCall perm X t => (m, match rescaler_forward m perm X t with Ok _ => Ok tt | Err e => Err e end)
  end.
Fixpoint rs_run (f32 : R -> R) (m : rescaler) (h : list rs_op) : rescaler :=
  match h with [] => m | o :: h' => rs_run f32 (fst (rs_step f32 m o)) h' end.

(** ** ChannelWiseScaler (scaler.py 25-35) *)
Inductive sc_op :=
  | SFit (X : tensor R) (std_reg : R)
  | SLoad (strict : bool) (sd : list (string * tensor R))
  | SCall (X : tensor R) (reverse : bool).
Definition sc_step (st : fit R) (o : sc_op) : fit R * res unit :=
  match o with
  | SFit X reg => scaler_fit st X reg
  | SLoad strict sd => load st strict sd
  | SCall X rev => (st, match scaler_forward st X rev with Ok _ => Ok tt | Err e => Err e end)
  end.
Fixpoint sc_run (st : fit R) (h : list sc_op) : fit R :=
  match h with [] => st | o :: h' => sc_run (fst (sc_step st o)) h' end.

(** ** SpectralDensity (transforms/spectral.py 66-86): window and scale are persistent buffers of an ordinary module *)
Definition sd_state (m : sdens) : list (string * tensor R) := [("window"%string, sd_win m); ("scale"%string, mk [] (fun _ => sd_scale m))].
Definition sd_load (m : sdens) (strict : bool) (sd : list (string * tensor R)) : sdens * res unit :=
  let '(st, r) := load (mkfit (sd_state m) true) strict sd in
  (match bufs st with
   | [(_, w); (_, s)] => mksd (sd_n m) (sd_stride m) w (elt s []) (sd_avg m) (sd_fast m)
   | _ => m
   end, r).
