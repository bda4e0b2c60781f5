(** Model of ml4gw/gw.py, ml4gw/utils/interferometer.py and the constant C of ml4gw/constants.py.
    Real arithmetic; the dtype casts of the code (complex128/float32) are identities here. *)
From Coq Require Export String.
From Verif Require Export Tensor Rutil Dft Norm_model.
Local Open Scope R_scope.

(** constants.py: speed of light, m/s *)
Definition c_light : R := 299792458.

(** x.view(-1, 1) *)
Definition view_col {A} (t : tensor A) : tensor A :=
  mk [numel t; 1%nat] (fun i => elt t (unravel (shape t) (nth 0 i 0%nat))).
(** torch.cat(cols, axis=1) / torch.column_stack of columns of shape (b, 1): RuntimeError unless all have the same b *)
Definition cat_cols {A} (d : tensor A) (cols : list (tensor A)) : res (tensor A) :=
  match cols with
  | [] => Err RuntimeError
  | c :: _ =>
    if forallb (fun c' => if list_eq_dec Nat.eq_dec (shape c') (shape c) then true else false) cols
    then Ok (mk [hd 0%nat (shape c); List.length cols] (fun i => elt (nth (nth 1 i 0%nat) cols d) [nth 0 i 0%nat; 0%nat]))
    else Err RuntimeError
  end.
(** torch.stack(ts, axis=1) for ts of equal shape with at least one axis: RuntimeError if empty or shapes differ *)
Definition stack_at1 {A} (ts : list (tensor A)) : res (tensor A) :=
  match ts with
  | [] => Err RuntimeError
  | t :: _ =>
    if forallb (fun t' => if list_eq_dec Nat.eq_dec (shape t') (shape t) then true else false) ts
    then Ok (mk (hd 0%nat (shape t) :: List.length ts :: tl (shape t))
                (fun i => elt (nth (nth 1 i 0%nat) ts t) (nth 0 i 0%nat :: skipn 2 i)))
    else Err RuntimeError
  end.
(** torch.stack(ts) *)
Definition stack_at0 {A} (ts : list (tensor A)) : res (tensor A) :=
  match ts with
  | [] => Err RuntimeError
  | t :: _ =>
    if forallb (fun t' => if list_eq_dec Nat.eq_dec (shape t') (shape t) then true else false) ts
    then Ok (mk (List.length ts :: shape t) (fun i => elt (nth (hd 0%nat i) ts t) (tl i)))
    else Err RuntimeError
  end.

(** gw.py 29-33, [outer]: einsum("...i,...j->...ij") of two tensors of the same shape (the only use) *)
Definition outer (x y : tensor R) : tensor R :=
  let d := last (shape x) 0%nat in
  mk (shape x ++ [d])
     (fun i => let pre := removelast (removelast i) in
               elt x (pre ++ [last (removelast i) 0%nat]) * elt y (pre ++ [last i 0%nat])).
(** pointwise combination of two tensors of the same shape *)
Definition tzip {A B D} (f : A -> B -> D) (a : tensor A) (b : tensor B) : tensor D :=
  mk (shape a) (fun i => f (elt a i) (elt b i)).
(** gw.py 36-45 *)
Definition plus_t (m n : tensor R) : tensor R := tzip Rminus (outer m m) (outer n n).
Definition cross_t (m n : tensor R) : tensor R := tzip Rplus (outer m n) (outer n m).
Definition breathing_t (m n : tensor R) : tensor R := tzip Rplus (outer m m) (outer n n).
(** gw.py 48-52, [polarization_funcs] *)
Definition polarization_func (mode : string) : option (tensor R -> tensor R -> tensor R) :=
  if string_dec mode "plus" then Some plus_t else
  if string_dec mode "cross" then Some cross_t else
  if string_dec mode "breathing" then Some breathing_t else None.

(** einsum("...jk,ijk->...i", p, D), p of shape (B, P, 3, 3): D must have shape (ni, 3, 3) (broadcasting of size-1 axes
    of D by einsum is not modelled: RuntimeError here) *)
Definition einsum_pol (p D : tensor R) : res (tensor R) :=
  match shape p, shape D with
  | [B; P; a; b], [ni; c; d] =>
    if ((a =? 3) && (b =? 3) && (c =? 3) && (d =? 3))%nat then
    Ok (mk [B; P; ni] (fun i => match i with
        | [b; q; j] => Rsum 3 (fun x => Rsum 3 (fun y => elt p [b; q; x; y] * elt D [j; x; y]))
        | _ => 0 end))
    else Err RuntimeError
  | _, _ => Err RuntimeError
  end.

(** gw.py 94-117, the polarization frame (m, n) computed in [compute_antenna_responses] *)
Definition polarization_frame (theta psi phi : tensor R) : res (tensor R * tensor R) :=
  let theta := view_col theta in let psi := view_col psi in let phi := view_col phi in      (* 96-98 *)
  let sin_theta := tmap sin theta in let cos_theta := tmap cos theta in                      (* 102-104 *)
  let sin_psi := tmap sin psi in let cos_psi := tmap cos psi in
  let sin_phi := tmap sin phi in let cos_phi := tmap cos phi in
  let* u1 := bzip Rmult cos_phi cos_theta in
  let* u2 := bzip Rmult cos_theta sin_phi in
  let* u := cat_cols theta [u1; u2; tmap Ropp sin_theta] in                                  (* 109-111 *)
  let* v := cat_cols theta [tmap Ropp sin_phi; cos_phi; tmap (fun _ => 0) phi] in            (* 112 *)
  let* us := bzip Rmult (tmap Ropp u) sin_psi in                                             (* 116 *)
  let* vc := bzip Rmult v cos_psi in
  let* m := bzip Rminus us vc in
  let* uc := bzip Rmult (tmap Ropp u) cos_psi in                                             (* 117 *)
  let* vs := bzip Rmult v sin_psi in
  let* n := bzip Rplus uc vs in
  Ok (m, n).
(** gw.py 55-139, [compute_antenna_responses] *)
Definition compute_antenna_responses (theta psi phi D : tensor R) (modes : list string) : res (tensor R) :=
  let* (m, n) := polarization_frame theta psi phi in
  let* pols := sequence (map (fun mode => match polarization_func mode with                  (* 121-129 *)
                 | Some f => Ok (f m n) | None => Err ValueError end) modes) in
  let* pol := stack_at1 pols in                                                              (* 132 *)
  einsum_pol pol D.                                                                          (* 139 *)

(** torch.trunc to an integer *)
Definition rtrunc (x : R) : Z := if Rle_dec 0 x then Int_part x else (- Int_part (- x))%Z.

(** torch.gather(x, 2, idx) on 3D tensors: RuntimeError unless idx is 3D, no larger than x outside axis 2, and (for a
    non-empty idx) its entries are in [0, x.size(2)) *)
Definition gather2 {A} (x : tensor A) (idx : tensor Z) : res (tensor A) :=
  match shape x, shape idx with
  | [B; ni; T], [b; i; t] =>
    if ((b <=? B) && (i <=? ni))%nat
       && forallb (fun j => ((0 <=? elt idx j) && (elt idx j <? Z.of_nat T))%Z) (all_idx (shape idx))
    then Ok (mk [b; i; t] (fun j => match j with [p; q; _] => elt x [p; q; Z.to_nat (elt idx j)] | _ => elt x j end))
    else Err RuntimeError
  | _, _ => Err RuntimeError
  end.

(** sum over the last axis *)
Definition sum_last (t : tensor R) : tensor R :=
  mk (removelast (shape t)) (fun i => Rsum (last (shape t) 0%nat) (fun j => elt t (i ++ [j]))).

(** gw.py 142-172, [shift_responses]; theta and phi 1D *)
Definition shift_responses (responses : tensor R) (theta phi vertices : tensor R) (sample_rate : R) : res (tensor R) :=
  let* o1 := bzip (fun a b => sin a * cos b) theta phi in
  let* o2 := bzip (fun a b => sin a * sin b) theta phi in
  let* omega := cat_cols theta [view_col o1; view_col o2; view_col (tmap cos theta)] in     (* 149-155 *)
  let omega := mk [hd 0%nat (shape omega); 1%nat; 3%nat]
                  (fun i => elt omega [nth 0 i 0%nat; nth 2 i 0%nat]) in
  let* dt := bzip Rmult omega vertices in
  let dt := tmap Ropp (sum_last dt) in                                                       (* 162 *)
  let dt := tmap (fun x => rtrunc (x * (sample_rate / c_light))) dt in                       (* 163-164 *)
  let n := last (shape responses) 0%nat in                                                   (* 168 *)
  let dt := mk (shape dt ++ [1%nat]) (fun i => elt dt (removelast i)) in
  let ar := mk [n] (fun i => Z.of_nat (hd 0%nat i)) in
  let* idx := bzip (fun t d => ((t - d) mod Z.of_nat n)%Z) ar dt in                          (* 169-170 *)
  gather2 responses idx.                                                                     (* 172 *)

(** einsum("...pi,...pt->...it"): batch axes broadcast, p must agree *)
Definition einsum_wave (a p : tensor R) : res (tensor R) :=
  match shape a, shape p with
  | [Ba; P; ni], [Bp; P'; T] =>
    if (P =? P')%nat then
      let* B := bdim Ba Bp in
      Ok (mk [B; ni; T] (fun i => match i with
          | [b; j; t] => Rsum P (fun q => elt a [if (Ba =? 1)%nat then 0%nat else b; q; j]
                                          * elt p [if (Bp =? 1)%nat then 0%nat else b; q; t])
          | _ => 0 end))
    else Err RuntimeError
  | _, _ => Err RuntimeError
  end.

(** gw.py 175-242, [compute_observed_strain]; the keyword polarizations are an ordered list of (name, timeseries) *)
Definition compute_observed_strain (dec psi phi D V : tensor R) (sample_rate : R) (pols : list (string * tensor R))
  : res (tensor R) :=
  let theta := tmap (fun d => PI / 2 - d) dec in                                             (* 228 *)
  let* ar := compute_antenna_responses theta psi phi D (map fst pols) in                     (* 229-231 *)
  let* p := stack_at1 (map snd pols) in                                                      (* 233 *)
  let* waveforms := einsum_wave ar p in                                                      (* 236-238 *)
  shift_responses waveforms theta phi V sample_rate.                                         (* 240-242 *)

(** utils/interferometer.py 25-65: (x_arm, y_arm, vertex) of a detector; decimal literals as exact rationals *)
Definition vec3 (a b c : R) : tensor R := mk [3%nat] (fun i => match i with [0%nat] => a | [1%nat] => b | _ => c end).
Definition interferometer_geometry (name : string) : res (tensor R * tensor R * tensor R) :=
  if string_dec name "H1" then
    Ok (vec3 (-22389266154/10^11) (79983062746/10^11) (55690487831/10^11),
        vec3 (-91397818574/10^11) (2609403989/10^11) (-40492342125/10^11),
        vec3 (-216141492636/10^5) (-383469517889/10^5) (460035022664/10^5))
  else if string_dec name "L1" then
    Ok (vec3 (-95457412153/10^11) (-14158077340/10^11) (-26218911324/10^11),
        vec3 (29774156894/10^11) (-48791033647/10^11) (-82054461286/10^11),
        vec3 (-742760447238/10^7) (-549628371971/10^5) (322425701744/10^5))
  else if string_dec name "V1" then
    Ok (vec3 (-70045821479/10^11) (20848948619/10^11) (68256166277/10^11),
        vec3 (-5379255368/10^11) (-96908180549/10^11) (24080451708/10^11),
        vec3 (454637409900/10^5) (842989697626/10^6) (437857696241/10^5))
  else if string_dec name "K1" then
    Ok (vec3 (-3759040/10^7) (-8361583/10^7) (3994189/10^7),
        vec3 (7164378/10^7) (1114076/10^8) (6975620/10^7),
        vec3 (-3777336024/10^3) (3484898411/10^3) (3765313697/10^3))
  else Err ValueError.

(** gw.py 245-269, [get_ifo_geometry] *)
Definition get_ifo_geometry (ifos : list string) : res (tensor R * tensor R) :=
  let* gs := sequence (map interferometer_geometry ifos) in
  let* tensors := stack_at0 (map (fun g => let '(x, y, _) := g in tmap (fun e => e / 2) (plus_t x y)) gs) in
  let* vertices := stack_at0 (map (fun g => let '(_, _, v) := g in v) gs) in
  Ok (tensors, vertices).

(** ** SNR *)
(** highpass / lowpass argument: a float, or a pre-computed 1D mask *)
Inductive cutoff := NoCut | Freq (f : R) | Mask (m : tensor R).

(** torch.nn.functional.interpolate(psd, size, mode="linear") (align_corners=False) along the last axis: output j reads
    the input at position max((j+1/2) n/size - 1/2, 0), linearly between the two neighbouring bins *)
Definition interp_pos (n size j : nat) : R := Rmax ((INR j + / 2) * (INR n / INR size) - / 2) 0.
Definition interp_lin (n size : nat) (f : nat -> R) (j : nat) : R :=
  let p := interp_pos n size j in
  let i0 := Nat.min (Z.to_nat (Int_part p)) (n - 1) in
  let i1 := Nat.min (i0 + 1) (n - 1) in
  let l := p - INR i0 in
  (1 - l) * f i0 + l * f i1.
Definition interpolate_last (size : nat) (t : tensor R) : res (tensor R) :=
  if negb (ndim t =? 3)%nat then Err NotImplementedError else
  if ((size =? 0) || (last (shape t) 0 =? 0))%nat then Err RuntimeError else
  Ok (mk (removelast (shape t) ++ [size])
         (fun i => interp_lin (last (shape t) 0%nat) size (fun k => elt t (removelast i ++ [k])) (last i 0%nat))).

(** gw.py 346-347: while psd.ndim < 3: psd = psd[None] *)
Definition pad_ndim3 {A} (t : tensor A) : tensor A :=
  match ndim t with
  | 0%nat => unsqueeze0 (unsqueeze0 (unsqueeze0 t))
  | 1%nat => unsqueeze0 (unsqueeze0 t)
  | 2%nat => unsqueeze0 t
  | _ => t
  end.

(** |rfft(x)| along the last axis (N samples -> N/2+1 bins); RuntimeError for an empty axis *)
Definition rfft_abs (x : tensor R) : res (tensor R) :=
  let n := last (shape x) 0%nat in
  if ((n =? 0) || (ndim x =? 0))%nat then Err RuntimeError else
  Ok (mk (removelast (shape x) ++ [rbins n])
         (fun i => Cmod (rfft n (fun t => elt x (removelast i ++ [t])) (last i 0%nat)))).

(** gw.py 360-381: one of the two masking blocks; [keep] is [freqs >= f] resp. [freqs < f] *)
Definition apply_cut (keep : R -> R -> bool) (n : nat) (sample_rate : R) (c : cutoff) (integrand : tensor R) : res (tensor R) :=
  match c with
  | NoCut => Ok integrand
  | Freq f => bzip_inplace Rmult integrand
                (mk [rbins n] (fun i => if keep (rfftfreq n sample_rate (hd 0%nat i)) f then 1 else 0))
  | Mask m =>
    if negb (hd 0 (shape m) =? last (shape integrand) 0)%nat then Err ValueError
    else bzip_inplace Rmult integrand m
  end.
Definition ge_b (a b : R) : bool := if Rle_dec b a then true else false.
Definition lt_b (a b : R) : bool := if Rlt_dec a b then true else false.

(** gw.py 272-400, [compute_ifo_snr] *)
Definition compute_ifo_snr (responses psd : tensor R) (sample_rate : R) (highpass lowpass : cutoff) : res (tensor R) :=
  let n := last (shape responses) 0%nat in
  let* fft := rfft_abs responses in                                                          (* 341 *)
  let fft := tmap (fun v => v / sample_rate) fft in                                          (* 342 *)
  let psd := pad_ndim3 psd in                                                                (* 346-347 *)
  let* psd := if (last (shape psd) 0 =? last (shape fft) 0)%nat then Ok psd
              else interpolate_last (last (shape fft) 0%nat) psd in                          (* 348-351 *)
  let* integrand := bzip (fun a s => a / sqrt s) fft psd in                                  (* 355 *)
  let integrand := tmap (fun v => v ^ 2) integrand in                                        (* 356 *)
  let* integrand := apply_cut ge_b n sample_rate highpass integrand in                       (* 360-370 *)
  let* integrand := apply_cut lt_b n sample_rate lowpass integrand in                        (* 371-381 *)
  let df := sample_rate / INR n in                                                           (* 395 *)
  let integrated := tmap (fun v => v * df) (sum_last integrand) in                           (* 396 *)
  Ok (tmap (fun v => sqrt (4 * v)) integrated).                                              (* 399-400 *)

(** gw.py 403-459, [compute_network_snr] *)
Definition compute_network_snr (responses psd : tensor R) (sample_rate : R) (highpass lowpass : cutoff) : res (tensor R) :=
  let* snrs := compute_ifo_snr responses psd sample_rate highpass lowpass in
  Ok (tmap sqrt (sum_last (tmap (fun v => v ^ 2) snrs))).

(** gw.py 462-512, [reweight_snrs]; a float target is a 0-d tensor *)
Definition reweight_snrs (responses target psd : tensor R) (sample_rate : R) (highpass lowpass : cutoff) : res (tensor R) :=
  let* snrs := compute_network_snr responses psd sample_rate highpass lowpass in
  let* weights := bzip Rdiv target snrs in
  let weights := mk (shape weights ++ [1; 1]%nat) (fun i => elt weights (removelast (removelast i))) in
  bzip Rmult responses weights.
