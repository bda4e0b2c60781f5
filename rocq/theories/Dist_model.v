(** Model of ml4gw/distributions.py over the reals.  torch.rand draws are arbitrary reals u in [0, 1). *)
From Verif Require Import Base Rutil.
Local Open Scope R_scope.

(** extended results of logarithms: a finite number, -inf, or NaN (log of a negative number, or inf - inf) *)
Inductive xr := Fin (r : R) | MInf | NaN.
Definition xlog (x : R) : xr := if Rlt_dec 0 x then Fin (ln x) else if Req_EM_T x 0 then MInf else NaN.
Definition xexp (x : xr) : R := match x with Fin r => exp r | _ => 0 end.

(** ** Cosine, distributions.py 31-51 *)
Definition cos_norm (low high : R) : R := 1 / (sin high - sin low).
Definition cos_rsample (low high u : R) : R := asin (u / cos_norm low high + sin low).
Definition inside (low high v : R) : R := if Rle_dec low v then if Rle_dec v high then 1 else 0 else 0.
Definition cos_log_prob (low high v : R) : xr := xlog (cos v * inside low high v).

(** ** Sine, distributions.py 54-81: Cosine shifted by pi/2 (AffineTransform(pi/2, 1), whose log-Jacobian is log 1 = 0) *)
Definition sin_rsample (low high u : R) : R := PI / 2 + 1 * cos_rsample (low - PI / 2) (high - PI / 2) u.
Definition sin_log_prob (low high v : R) : xr := cos_log_prob (low - PI / 2) (high - PI / 2) ((v - PI / 2) / 1).

(** ** torch.distributions.Uniform: rsample and log_prob (half-open support [low, high)) *)
Definition uni_rsample (low high u : R) : R := low + u * (high - low).
Definition uni_density (low high v : R) : R :=
  (if Rle_dec low v then if Rlt_dec v high then 1 else 0 else 0) / (high - low).

(** ** LogUniform, distributions.py 84-99: Exp of Uniform(log low, log high) *)
Definition logu_rsample (low high u : R) : R := exp (uni_rsample (ln low) (ln high) u).
(** density exp(log_prob): base density at log y, divided by the Jacobian exp(x) = y *)
Definition logu_density (low high y : R) : R := uni_density (ln low) (ln high) (ln y) / y.

(** ** PowerLaw, distributions.py 118-161 *)
(** x ** y for x >= 0: 0 ** y = 0 for y > 0 (for y < 0 torch gives inf; not used with x = 0) *)
Definition tpow (x y : R) : R := if Req_EM_T x 0 then (if Rlt_dec 0 y then 0 else 1) else Rpower x y.
(** constructor: the only check is index == 0 *)
Definition pl_rsample (minimum maximum index u : R) : res R :=
  if Req_EM_T index 0 then Err ValueError
  else if Req_EM_T index (-1) then Ok (exp (uni_rsample (ln minimum) (ln maximum) u))
  else let a := index + 1 in
       let base := uni_rsample (tpow minimum a / a) (tpow maximum a / a) u in
       Ok (tpow (0 + a * base) (1 / a)).
(** density exp(log_prob(y)) of the transformed distribution: base density divided by the Jacobians of
    AffineTransform (|scale|) and PowerTransform (|exponent * y / x|) *)
Definition pl_density (minimum maximum index y : R) : res R :=
  if Req_EM_T index 0 then Err ValueError
  else if Req_EM_T index (-1) then Ok (uni_density (ln minimum) (ln maximum) (ln y) / y)
  else let a := index + 1 in
       let x := tpow y (1 / (1 / a)) in                        (* PowerTransform inverse *)
       let b := (x - 0) / a in                                 (* AffineTransform inverse *)
       Ok (uni_density (tpow minimum a / a) (tpow maximum a / a) b / Rabs a / Rabs (1 / a * y / x)).

(** ** DeltaFunction, distributions.py 164-180 *)
Definition delta_rsample (peak : R) (n : nat) : list R := map (fun one => peak * one) (repeat 1 n).

(** ** UniformComovingVolume, distributions.py 183-357.  A grid of n points is a function on 0..n-1. *)
Inductive dtype := Redshift | ComovingDistance | LuminosityDistance.
Definition C_light : R := 299792458.

(** torch.linspace(0, zmax, n) *)
Definition linspace0 (zmax : R) (n : nat) (i : nat) : R := INR i * (zmax / INR (n - 1)).
(** 255-262, [_hubble_function] *)
Definition hubble (h0 om : R) (z : R) : R := h0 * sqrt (om * (1 + z) ^ 3 + (1 - om)).
(** torch.cumulative_trapezoid(y, x) with a zero prefix; the k-th entry; torch.trapz over n points is entry n-1 *)
Definition cumtrapz (y x : nat -> R) (k : nat) : R := Rsum k (fun i => (x (S i) - x i) * (y i + y (S i)) / 2).
Definition trapz (n : nat) (y x : nat -> R) : R := cumtrapz y x (n - 1).
(** torch.gradient(d, spacing=dz)[0] of n >= 2 points *)
Definition gradient (n : nat) (dz : R) (d : nat -> R) (i : nat) : R :=
  if (i =? 0)%nat then (d 1%nat - d 0%nat) / dz
  else if (i =? n - 1)%nat then (d (n - 1)%nat - d (n - 2)%nat) / dz
  else (d (S i) - d (i - 1)%nat) / (2 * dz).
(** torch.bucketize(v, grid, right=True) on a sorted grid: the number of grid points <= v *)
Definition bucketize (n : nat) (x : nat -> R) (v : R) : nat :=
  length (filter (fun i => if Rle_dec (x i) v then true else false) (seq 0 n)).
(** 332-342, [_linear_interp_1d]: the chosen cell and the interpolation *)
Definition interp_idx (n : nat) (x : nat -> R) (v : R) : nat := Nat.min (n - 1) (Nat.max 1 (bucketize n x v)).
Definition interp (n : nat) (x y : nat -> R) (v : R) : R :=
  let i := interp_idx n x v in
  let t := (v - x (i - 1)%nat) / (x i - x (i - 1)%nat) in
  y (i - 1)%nat + t * (y i - y (i - 1)%nat).
(** the same with tabulated logarithms: y0 + t * (y1 - y0), where -inf - (-inf), 0 * inf and -inf + inf are NaN *)
Definition xsub (a b : xr) : option xr :=   (* None: +inf *)
  match a, b with
  | Fin x, Fin y => Some (Fin (x - y)) | Fin _, MInf => None | MInf, Fin _ => Some MInf
  | _, _ => Some NaN end.
Definition xmul (t : R) (d : option xr) : option xr :=
  match d with
  | Some (Fin x) => Some (Fin (t * x))
  | Some MInf => if Rlt_dec 0 t then Some MInf else if Req_EM_T t 0 then Some NaN else None
  | None => if Rlt_dec 0 t then None else if Req_EM_T t 0 then Some NaN else Some MInf
  | Some NaN => Some NaN end.
Definition xadd (a : xr) (b : option xr) : option xr :=
  match a, b with
  | NaN, _ => Some NaN | _, Some NaN => Some NaN
  | Fin x, Some (Fin y) => Some (Fin (x + y)) | Fin _, Some MInf => Some MInf | Fin _, None => None
  | MInf, Some _ => Some MInf | MInf, None => Some NaN end.
Definition xinterp (n : nat) (x : nat -> R) (y : nat -> xr) (v : R) : option xr :=
  let i := interp_idx n x v in
  let t := (v - x (i - 1)%nat) / (x i - x (i - 1)%nat) in
  xadd (y (i - 1)%nat) (xmul t (xsub (y i) (y (i - 1)%nat))).

Section UCV.
  Variables (h0 om zmax : R) (n : nat) (ty : dtype) (rate : R -> R).   (* rate: 1 for the base class, RateEvolution's function otherwise *)
  Definition zg : nat -> R := linspace0 zmax n.
  (** 279-305, [_generate_distance_grids] *)
  Definition dz : R := zg 1 - zg 0.
  Definition comoving (i : nat) : R := cumtrapz (fun k => C_light / hubble h0 om (zg k)) zg i / 1000.
  Definition luminosity (i : nat) : R := comoving i * (1 + zg i).
  Definition dist_grid : nat -> R := match ty with Redshift => zg | ComovingDistance => comoving | LuminosityDistance => luminosity end.
  (** the grid restricted by the mask of lines 246-251 *)
  Record ucv := { u_n : nat; u_z : nat -> R; u_d : nat -> R; u_com : nat -> R; u_min : R; u_max : R }.
  Definition ucv_idx (zlo zhi : R) : list nat :=
    filter (fun i => if Rle_dec zlo (zg i) then if Rle_dec (zg i) zhi then true else false else false) (seq 0 n).
  (** 206-253, [__init__] (valid distance type, one device, grid_size >= 2); torch.gradient needs two points (RuntimeError).
      With fewer than two grid points [self.z_grid[1]] is an IndexError. *)
  Definition ucv_create (minimum maximum : R) : res ucv :=
    if (n <? 2)%nat then Err IndexError else
    let zlo := interp n dist_grid zg minimum in
    let zhi := interp n dist_grid zg maximum in
    if Rlt_dec zmax zhi then Err ValueError else
    let idx := ucv_idx zlo zhi in
    if (length idx <? 2)%nat then Err RuntimeError else
    let sub f k := f (nth k idx 0%nat) in
    Ok {| u_n := length idx; u_z := sub zg; u_d := sub dist_grid; u_com := sub comoving; u_min := minimum; u_max := maximum |}.
  (** 307-314 / 386-393, [_p_of_distance] *)
  Definition u_p (s : ucv) (k : nat) : R :=
    (u_com s k) ^ 2 / hubble h0 om (u_z s k) / gradient (u_n s) dz (u_d s) k * rate (u_z s k).
  (** 316-330, [_generate_probability_grids] *)
  Definition u_pdf (s : ucv) (k : nat) : R := u_p s k / trapz (u_n s) (u_p s) (u_d s).
  Definition u_cdf (s : ucv) (k : nat) : R := cumtrapz (u_pdf s) (u_d s) k.
  (** 344-347, [rsample] *)
  Definition u_rsample (s : ucv) (u : R) : R := interp (u_n s) (u_cdf s) (u_d s) u.
  (** 349-357, [log_prob] *)
  Definition u_log_prob (s : ucv) (v : R) : option xr :=
    if Rle_dec (u_min s) v then if Rle_dec v (u_max s) then xinterp (u_n s) (u_d s) (fun k => xlog (u_pdf s k)) v else Some MInf else Some MInf.
End UCV.
