(** Model of ml4gw/transforms/spline_interpolation.py (real arithmetic: the .float() casts are identities). *)
From Verif Require Import Base Tensor Rutil Slicing_model Norm_model Gw_model Linsolve.
Local Open Scope R_scope.

(** ** knots and basis functions (9-159) *)
Definition at_ (l : list R) (i : nat) : R := nth i l 0.
(** 21-43, [generate_fitpack_knots], for at least k + 2 points and k >= 1 (k = 0 yields the NaN means of empty windows and is
    excluded by the theorems) *)
Definition fit_knots (x : list R) (k : nat) : list R :=
  let n := List.length x in
  repeat (at_ x 0) (k + 1)                                                                    (* 35 *)
  ++ map (fun j => Rsum k (fun i => at_ x (1 + j + i)) / INR k) (seq 0 (n - k - 1))           (* 38-41 *)
  ++ repeat (at_ x (n - 1)) (k + 1).                                                          (* 36 *)
(** a quotient passed through nan_to_num(nan=0, posinf=0, neginf=0): 0 for a zero denominator *)
Definition qdiv (a b : R) : R := if Req_EM_T b 0 then 0 else a / b.
(** 45-84, [compute_L_R]: the coefficients of basis functions j and j + 1 of degree d - 1 *)
Definition coefL (t : nat -> R) (d j : nat) (x : R) : R := qdiv (x - t j) (t (j + d)%nat - t j).
Definition coefR (t : nat -> R) (d j : nat) (x : R) : R := qdiv (t (j + d + 1)%nat - x) (t (j + d + 1)%nat - t (j + 1)%nat).
(** 86-123, [zeroth_order]; [len] = number of knots = m + k + 1, so t[-2] is knot m + k - 1 *)
Definition zeroth (t : nat -> R) (m k : nat) (x : R) (j : nat) : R :=
  let b := if Rle_dec (t j) x then if Rlt_dec x (t (j + 1)%nat) then 1 else 0 else 0 in       (* 117-120 *)
  let b := if (j =? 0)%nat then if Rlt_dec x (t 1%nat) then 1 else b else b in                (* 121 *)
  if (j =? m - 1)%nat then if Rle_dec (t (m + k - 1)%nat) x then 1 else b else b.             (* 122 *)
(** 125-159, [bspline_basis_natural]: basis function j < m of degree d at x *)
Fixpoint basis (t : nat -> R) (m k : nat) (x : R) (d j : nat) : R :=
  match d with
  | O => zeroth t m k x j
  | S d' => coefL t d j x * basis t m k x d' j
            + coefR t d j x * (if (j + 1 <? m)%nat then basis t m k x d' (j + 1) else 0)      (* 151-157 *)
  end.
(** the matrix of basis functions at the points xs: row i, column j (m = number of knots - k - 1) *)
Definition bmat (t : list R) (k : nat) (xs : list R) (i j : nat) : R :=
  basis (at_ t) (List.length t - k - 1) k (at_ xs i) k j.
(** 14-19: B^T B + s I *)
Definition gram (n : nat) (B : nat -> nat -> R) (s : R) (i j : nat) : R :=
  Rsum n (fun l => B l i * B l j) + (if (i =? j)%nat then s else 0).
(** torch.clamp(x, lo, hi) = min(max(x, lo), hi) *)
Definition clamp (lo hi x : R) : R := Rmin (Rmax x lo) hi.
Definition out_matrix (t : list R) (k : nat) (xs : list R) : nat -> nat -> R :=
  bmat t k (map (clamp (at_ t k) (at_ t (List.length t - k - 1))) xs).                        (* 233-234, 309-316: tx[-k-1] *)

(** ** SplineInterpolate1D (162-319) *)
(** state: [s1_xout] the x_out given at construction, [s1_B] the buffer Bx_out (rows, matrix) *)
Record spline1 := mks1 { s1_x : list R; s1_k : nat; s1_s : R; s1_xout : option (list R); s1_B : option (nat * (nat -> nat -> R)) }.
Definition s1_knots (m : spline1) : list R := fit_knots (s1_x m) (s1_k m).
Definition spline1_create (x : list R) (k : nat) (s : R) (xout : option (list R)) : res spline1 :=
  if (List.length x <? k + 2)%nat then Err ValueError else                                    (* 213-216 *)
  Ok (mks1 x k s xout (option_map (fun xs => (List.length xs, out_matrix (fit_knots x k) k xs)) xout)).  (* 218-235 *)
(** Z padded with leading unit axes to 4 dimensions *)
Definition pad_ndim4 (Z : tensor R) : tensor R :=
  match ndim Z with 4%nat => Z | 3%nat => unsqueeze0 Z | 2%nat => unsqueeze0 (unsqueeze0 Z) | _ => unsqueeze0 (unsqueeze0 (unsqueeze0 Z)) end.
(** 258-280, [_validate_inputs] *)
Definition validate1 (m : spline1) (Z : tensor R) (xout : option (list R)) : res (tensor R) :=
  match xout, s1_xout m with None, None => Err ValueError | _, _ =>
  if (4 <? ndim Z)%nat then Err ValueError else
  if (ndim Z =? 0)%nat then Err IndexError else
  if (last (shape Z) 0 =? List.length (s1_x m))%nat then Ok (pad_ndim4 Z) else Err ValueError end.
(** 237-243, [spline_fit_natural]: a singular matrix is a RuntimeError (LinAlgError), unless there is nothing to solve *)
Definition fit1 (x : list R) (k : nat) (s : R) (z : nat -> R) : option (nat -> R) :=
  let n := List.length x in let B := bmat (fit_knots x k) k x in
  gsolve n (gram n B s) (fun i => Rsum n (fun j => B j i * z j)).
(** the coefficients, or 0 where the solver failed (only used when it did not) *)
Definition coef_or0 (c : option (nat -> R)) : nat -> R := match c with Some c => c | None => fun _ => 0 end.
Definition spline1_forward (m : spline1) (Z : tensor R) (xout : option (list R)) : res (tensor R) * spline1 :=
  match validate1 m Z xout with
  | Err e => (Err e, m)
  | Ok Z =>
    let m := match xout with                                                                   (* 308-316 *)
             | Some xs => mks1 (s1_x m) (s1_k m) (s1_s m) (s1_xout m) (Some (List.length xs, out_matrix (s1_knots m) (s1_k m) xs))
             | None => m end in
    match shape Z, s1_B m with
    | [b; c; h; n], Some (rows, Bout) =>
      match fit1 (s1_x m) (s1_k m) (s1_s m) (fun _ => 0), (b * c * h =? 0)%nat with
      | None, false => (Err RuntimeError, m)                                                   (* 242 *)
      | _, _ =>
        (Ok (mk [b; c; h; rows] (fun i => match i with
            | [p; q; r; o] => Rsum n (fun j => Bout o j * coef_or0 (fit1 (s1_x m) (s1_k m) (s1_s m) (fun j => elt Z [p; q; r; j])) j)
            | _ => 0 end)), m)                                                                 (* 245-256, 317-319 *)
      end
    | _, _ => (Err RuntimeError, m)  (* unreachable *)
    end
  end.

(** ** SplineInterpolate2D (322-531) *)
Record spline2 := mks2 { s2_x : list R; s2_y : list R; s2_kx : nat; s2_ky : nat; s2_sx : R; s2_sy : R;
                         s2_xout : option (list R); s2_yout : option (list R);
                         s2_Bx : option (nat * (nat -> nat -> R)); s2_By : option (nat * (nat -> nat -> R)) }.
Definition spline2_create (x y : list R) (kx ky : nat) (sx sy : R) (xout yout : option (list R)) : res spline2 :=
  if (List.length x <? kx + 2)%nat then Err ValueError else                                    (* 383-386 *)
  if (List.length y <? ky + 2)%nat then Err ValueError else                                    (* 387-390 *)
  Ok (mks2 x y kx ky sx sy xout yout
        (option_map (fun xs => (List.length xs, out_matrix (fit_knots x kx) kx xs)) xout)
        (option_map (fun ys => (List.length ys, out_matrix (fit_knots y ky) ky ys)) yout)).    (* 392-424 *)
(** 448-479 *)
Definition validate2 (m : spline2) (Z : tensor R) (xout yout : option (list R)) : res (tensor R) :=
  match xout, s2_xout m with None, None => Err ValueError | _, _ =>
  match yout, s2_yout m with None, None => Err ValueError | _, _ =>
  if (4 <? ndim Z)%nat then Err ValueError else
  if (ndim Z <? 2)%nat then Err ValueError else
  if ((last (removelast (shape Z)) 0 =? List.length (s2_y m)) && (last (shape Z) 0 =? List.length (s2_x m)))%nat
  then Ok (pad_ndim4 Z) else Err ValueError end end.
(** 426-433, [bivariate_spline_fit_natural]: E = solve(ByT By, ByT Z Bx), C = solve(BxT Bx, E^T)^T *)
Definition fit2 (m : spline2) (z : nat -> nat -> R) : nat -> nat -> R :=
  let nx := List.length (s2_x m) in let ny := List.length (s2_y m) in
  let Bx := bmat (fit_knots (s2_x m) (s2_kx m)) (s2_kx m) (s2_x m) in
  let By := bmat (fit_knots (s2_y m) (s2_ky m)) (s2_ky m) (s2_y m) in
  let rhs := fun j l => Rsum ny (fun i => Rsum nx (fun k => By i j * z i k * Bx k l)) in
  let E := fun j l => coef_or0 (gsolve ny (gram ny By (s2_sy m)) (fun i => rhs i l)) j in
  fun j l => coef_or0 (gsolve nx (gram nx Bx (s2_sx m)) (fun i => E j i)) l.
Definition solvable (x : list R) (k : nat) (s : R) : bool :=
  match fit1 x k s (fun _ => 0) with Some _ => true | None => false end.
Definition spline2_forward (m : spline2) (Z : tensor R) (xout yout : option (list R)) : res (tensor R) * spline2 :=
  match validate2 m Z xout yout with
  | Err e => (Err e, m)
  | Ok Z =>
    let Bx := match xout with Some xs => Some (List.length xs, out_matrix (fit_knots (s2_x m) (s2_kx m)) (s2_kx m) xs) | None => s2_Bx m end in (* 512-519 *)
    let By := match yout with Some ys => Some (List.length ys, out_matrix (fit_knots (s2_y m) (s2_ky m)) (s2_ky m) ys) | None => s2_By m end in (* 520-527 *)
    let m := mks2 (s2_x m) (s2_y m) (s2_kx m) (s2_ky m) (s2_sx m) (s2_sy m) (s2_xout m) (s2_yout m) Bx By in
    match shape Z, Bx, By with
    | [b; c; ny; nx], Some (cols, Bx), Some (rows, By) =>
      if (b * c =? 0)%nat || (solvable (s2_y m) (s2_ky m) (s2_sy m) && solvable (s2_x m) (s2_kx m) (s2_sx m)) then
        (Ok (mk [b; c; rows; cols] (fun i => match i with
            | [p; q; r; o] => let C := fit2 m (fun i k => elt Z [p; q; i; k]) in
                              Rsum ny (fun k => Rsum nx (fun l => By r k * C k l * Bx o l))
            | _ => 0 end)), m)                                                                 (* 435-446, 529-531 *)
      else (Err RuntimeError, m)
    | _, _, _ => (Err RuntimeError, m)  (* unreachable *)
    end
  end.
