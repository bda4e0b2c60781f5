(** Model of what the state dicts of the remaining torch modules of ml4gw carry: WaveformProjector, WaveformSampler, IIRFilter,
    Heterodyne, Decimator, TophatIntegrator, SpectralDensity (see Ckpt_model) and SplineInterpolate1D.  In all of them
    [state_dict]/[load_state_dict] are torch's own (the buffers that are registered and not None), modelled by [load] of Fit_model;
    buffers of one class have one dtype (the modules were not cast), so that copying into a buffer does not round. *)
From Coq Require Import String.
From Coquelicot Require Import Complex.
From Verif Require Import Base Tensor Rutil Slicing_model Norm_model Dft Spectral_model Gw_model Linsolve Spline_model Trans_model Iir_model Wsamp_model Fit_model Ckpt_model.
Local Open Scope R_scope.

(** the value of buffer n after a load *)
Definition buf {A} (st : fit A) (n : string) (d : tensor A) : tensor A := match assoc n (bufs st) with Some v => v | None => d end.

(** ** WaveformProjector (waveforms.py 62-68): sample_rate is a plain attribute, tensors and vertices are buffers *)
Definition proj_state (m : projector) : list (string * tensor R) := [("tensors"%string, pj_D m); ("vertices"%string, pj_V m)].
Definition proj_load (m : projector) (strict : bool) (sd : list (string * tensor R)) : projector * res unit :=
  let '(st, r) := load (mkfit (proj_state m) true) strict sd in
  (mkproj (pj_sr m) (buf st "tensors" (pj_D m)) (buf st "vertices" (pj_V m)), r).
(** ** WaveformSampler (waveforms.py 14-43): no buffers, no parameters and no submodules (polarizations is a plain dict, parameters a
    plain attribute) *)
Definition ws_state {A} (m : wsampler A) : list (string * tensor A) := [].
Definition ws_load {A} (m : wsampler A) (strict : bool) (sd : list (string * tensor A)) : wsampler A * res unit :=
  let '(_, r) := load (mkfit (ws_state m) true) strict sd in (m, r).
(** ** IIRFilter (iirfilter.py 84-85) *)
Definition vec1 (l : list R) : tensor R := mk [List.length l] (fun i => nth (hd 0%nat i) l 0).
Definition unvec (t : tensor R) : list R := map (fun i => elt t [i]) (seq 0 (hd 0%nat (shape t))).
Record iir := mkiir { ii_b : tensor R; ii_a : tensor R }.
Definition iir_call (m : iir) (x : tensor R) : res (tensor R) := iir_forward (unvec (ii_a m)) (unvec (ii_b m)) x.     (* 99 *)
Definition iir_state (m : iir) : list (string * tensor R) := [("b"%string, ii_b m); ("a"%string, ii_a m)].
Definition iir_load (m : iir) (strict : bool) (sd : list (string * tensor R)) : iir * res unit :=
  let '(st, r) := load (mkfit (iir_state m) true) strict sd in (mkiir (buf st "b" (ii_b m)) (buf st "a" (ii_a m)), r).
(** ** Heterodyne (heterodyne.py 76-98): the phase is the buffer; sample_rate, kernel_length, chirp_mass, return_type are plain
    attributes, of which forward reads sample_rate and return_type *)
Definition het_state (m : heterodyne) : list (string * tensor C) := [("heterodyning_phase"%string, ht_phase m)].
Definition het_load (m : heterodyne) (strict : bool) (sd : list (string * tensor C)) : heterodyne * res unit :=
  let '(st, r) := load (mkfit (het_state m) true) strict sd in (mkhet (ht_sr m) (buf st "heterodyning_phase" (ht_phase m)) (ht_kind m), r).
(** ** Decimator (decimator.py 104-116): schedule (one dtype for both modules) and idx (int64) are buffers; sample_rate, split and
    expected_len are plain attributes.  A buffer's element is a float (left) or an integer (right). *)
Definition dec_state (m : decimator) : list (string * tensor (R + Z)) :=
  [("schedule"%string, mk [List.length (dc_sched m); 3]%nat (fun i => match i with
      | [r; c] => inl (let s := nth r (dc_sched m) (mkrow 0 0 0) in match c with 0 => r_start s | 1 => r_end s | _ => r_rate s end%nat)
      | _ => inl 0 end));
   ("idx"%string, mk [List.length (dc_idx m)] (fun i => inr (nth (hd 0%nat i) (dc_idx m) 0%Z)))].
Definition as_r (v : R + Z) : R := match v with inl r => r | inr z => IZR z end.
Definition as_z (v : R + Z) : Z := match v with inl r => rtrunc r | inr z => z end.
Definition dec_load (m : decimator) (strict : bool) (sd : list (string * tensor (R + Z))) : decimator * res unit :=
  let '(st, r) := load (mkfit (dec_state m) true) strict sd in
  let sched := match assoc "schedule" (bufs st) with
    | Some t => map (fun r => mkrow (as_r (elt t [r; 0]%nat)) (as_r (elt t [r; 1]%nat)) (as_r (elt t [r; 2]%nat))) (seq 0 (hd 0%nat (shape t)))
    | None => dc_sched m end in
  let idx := match assoc "idx" (bufs st) with Some t => map (fun k => as_z (elt t [k])) (seq 0 (hd 0%nat (shape t))) | None => dc_idx m end in
  (mkdec (dc_sr m) sched (dc_split m) idx (dc_len m), r).
(** ** TophatIntegrator (integrator.py 31-38): window_size is a plain attribute; forward convolves with the buffer *)
Record toph := mktoph { to_W : nat; to_win : tensor R }.
Definition toph_new (W : nat) : toph := mktoph W (mk [1; 1; W]%nat (fun _ => 1 / INR W)).                             (* 36-38 *)
Definition toph_state (m : toph) : list (string * tensor R) := [("window"%string, to_win m)].
Definition toph_load (m : toph) (strict : bool) (sd : list (string * tensor R)) : toph * res unit :=
  let '(st, r) := load (mkfit (toph_state m) true) strict sd in (mktoph (to_W m) (buf st "window" (to_win m)), r).

(** ** SplineInterpolate1D (spline_interpolation.py 203-319), as the buffers and attributes it holds.  [sb_Bout] is Bx_out, which is a
    registered buffer when x_out was given at construction (234-235) and a plain attribute set by [forward] (312-316) when not. *)
Record sbuf := mksb { sb_k : nat; sb_xin : tensor R; sb_xout : option (tensor R); sb_tx : tensor R; sb_Bx : tensor R; sb_G : tensor R; sb_Bout : option (tensor R) }.
Definition mat (n m : nat) (f : nat -> nat -> R) : tensor R := mk [n; m] (fun i => match i with [a; b] => f a b | _ => 0 end).
(** 203-235 *)
Definition sb_create (x : list R) (k : nat) (s : R) (xout : option (list R)) : res sbuf :=
  if (List.length x <? k + 2)%nat then Err ValueError else
  let n := List.length x in let t := fit_knots x k in
  Ok (mksb k (vec1 x) (option_map vec1 xout) (vec1 t) (mat n n (bmat t k x)) (mat n n (gram n (bmat t k x) s))
        (option_map (fun xs => mat (List.length xs) n (out_matrix t k xs)) xout)).
(** 258-319, [forward] with its validation: reads kx, x_in (its length), x_out (whether it is None), tx, Bx, BxT_Bx and Bx_out *)
Definition sb_forward (m : sbuf) (Z : tensor R) (xout : option (list R)) : res (tensor R) * sbuf :=
  let N := hd 0%nat (shape (sb_xin m)) in
  match xout, sb_xout m with None, None => (Err ValueError, m) | _, _ =>
  if (4 <? ndim Z)%nat then (Err ValueError, m) else
  if (ndim Z =? 0)%nat then (Err IndexError, m) else
  if negb (last (shape Z) 0 =? N)%nat then (Err ValueError, m) else
  let Z := pad_ndim4 Z in
  let m := match xout with
    | Some xs => mksb (sb_k m) (sb_xin m) (sb_xout m) (sb_tx m) (sb_Bx m) (sb_G m) (Some (mat (List.length xs) N (out_matrix (unvec (sb_tx m)) (sb_k m) xs)))
    | None => m end in
  match shape Z, sb_Bout m with
  | [b; c; h; n], Some Bout =>
    let solve := fun z : nat -> R => gsolve n (fun i j => elt (sb_G m) [i; j]) (fun i => Rsum n (fun j => elt (sb_Bx m) [j; i] * z j)) in
    match solve (fun _ => 0), (b * c * h =? 0)%nat with
    | None, false => (Err RuntimeError, m)
    | _, _ =>
      (Ok (mk [b; c; h; hd 0%nat (shape Bout)] (fun i => match i with
          | [p; q; r; o] => Rsum n (fun j => elt Bout [o; j] * coef_or0 (solve (fun j => elt Z [p; q; r; j])) j)
          | _ => 0 end)), m)
    end
  | _, _ => (Err RuntimeError, m)
  end end.
Fixpoint sb_run (m : sbuf) (h : list (tensor R * option (list R))) : sbuf :=
  match h with [] => m | (Z, xo) :: h' => sb_run (snd (sb_forward m Z xo)) h' end.
Definition opt1 {A} (n : string) (v : option A) : list (string * A) := match v with Some v => [(n, v)] | None => [] end.
Definition sb_state (m : sbuf) : list (string * tensor R) :=
  [("x_in"%string, sb_xin m)] ++ opt1 "x_out" (sb_xout m) ++
  [("tx"%string, sb_tx m); ("Bx"%string, sb_Bx m); ("BxT_Bx"%string, sb_G m)] ++
  match sb_xout m with Some _ => opt1 "Bx_out" (sb_Bout m) | None => [] end.
Definition sb_load (m : sbuf) (strict : bool) (sd : list (string * tensor R)) : sbuf * res unit :=
  let '(st, r) := load (mkfit (sb_state m) true) strict sd in
  (mksb (sb_k m) (buf st "x_in" (sb_xin m)) (option_map (buf st "x_out") (sb_xout m)) (buf st "tx" (sb_tx m)) (buf st "Bx" (sb_Bx m)) (buf st "BxT_Bx" (sb_G m))
     (match sb_xout m with Some _ => option_map (buf st "Bx_out") (sb_Bout m) | None => sb_Bout m end), r).
