(** Model of ml4gw/utils/slicing.py. *)
From Verif Require Import Base Tensor.
Local Open Scope Z_scope.

(** x.shape[-1]: IndexError for a 0-dimensional tensor *)
Definition last_dim {A} (x : tensor A) : res Z :=
  match shape x with [] => Err IndexError | s => Ok (Z.of_nat (last s 0%nat)) end.
(** len(x) = x.shape[0]: TypeError for a 0-dimensional tensor *)
Definition py_len {A} (x : tensor A) : res nat :=
  match shape x with [] => Err TypeError | d :: _ => Ok d end.

(** slicing.py 72-78: list(x.shape[:-1]) and x[None, None, None, :] / x[None, :, None, :] /
    x[:, :, None, :]; other ranks are left alone (no else branch). *)
Definition to4d {A} (x : tensor A) : tensor A :=
  match shape x with
  | [t] => mk [1; 1; 1; t]%nat (fun i => elt x (skipn 3 i))
  | [c; t] => mk [1; c; 1; t]%nat (fun i => match i with [_; k; _; l] => elt x [k; l] | _ => elt x i end)
  | [b; c; t] => mk [b; c; 1; t]%nat (fun i => match i with [n; k; _; l] => elt x [n; k; l] | _ => elt x i end)
  | _ => x
  end.

(** slicing.py 18-87, [unfold_windows].  [zero] is the element torch.zeros fills with.
    The second component is the remainder tensor, returned only if not drop_last. *)
Definition unfold_windows {A} (zero : A) (x : tensor A) (window_size stride : Z) (drop_last : bool)
  : res (tensor A * option (tensor A)) :=
  let* T := last_dim x in
  if stride =? 0 then Err ZeroDivisionError else
  let num_windows := (T - window_size) / stride + 1 in                       (* 57 *)
  let remainder := T - window_size - (num_windows - 1) * stride in           (* 58 *)
  let* (x, rem) :=
    if remainder =? 0 then                                                   (* 59-64 *)
      Ok (x, mk (removelast (shape x) ++ [0%nat]) (fun _ => zero))
    else                                                                     (* 65-70 *)
      split2_last (T - remainder) remainder x in
  let batch := map Z.of_nat (removelast (shape x)) in                        (* 72 *)
  let* u := unfold_1k num_windows stride (to4d x) in                         (* 73-80 *)
  let* r := reshape (batch ++ [num_windows; -1]) u in                        (* 81-82 *)
  let* r := transpose 1 (-2) r in                                            (* 83 *)
  let* r := transpose 0 1 r in
  Ok (r, if drop_last then None else Some (unsqueeze0 rem)).                 (* 85-87 *)

(** slicing.py 90-231, [slice_kernels].  Moving idx to x's device is not modelled. *)
Definition slice_kernels {A} (x : tensor A) (idx : tensor Z) (kernel_size : Z) : res (tensor A) :=
  let k := Z.to_nat kernel_size in
  let* kernels := arange kernel_size in                                      (* 133 *)
  match shape x, shape idx with
  | [t], [b] =>                                                              (* 139-151 *)
      let* kernels := reshape_to [k; 1%nat] kernels in
      let kernels := repeat_t [1%nat; b] kernels in
      let* kernels := bzip Z.add kernels idx in
      let* kernels := transpose 0 1 kernels in
      take x kernels
  | [t], _ => Err ValueError                                                 (* 140-143 *)
  | [c; t], [b] =>                                                           (* 152-173 *)
      let* kernels := reshape_to [1%nat; 1%nat; k] kernels in
      let kernels := repeat_t [c; b; 1%nat] kernels in
      let* ix := reshape [1; -1; 1] idx in
      let* kernels := bzip_inplace Z.add kernels ix in
      let* kernels := reshape [Z.of_nat c; -1] kernels in
      let* y := take_along_last x kernels in
      let* y := reshape_to [c; b; k] y in
      transpose 0 1 y
  | [c; t], [b; c'] =>                                                       (* 174-200 *)
      if negb (c =? c')%nat then Err ValueError else
      let* kernels := reshape_to [1%nat; 1%nat; k] kernels in
      let kernels := repeat_t [b; c; 1%nat] kernels in
      let ix := mk [b; c'; 1%nat] (fun i => elt idx (firstn 2 i)) in
      let* kernels := bzip_inplace Z.add kernels ix in
      let* kernels := transpose 0 1 kernels in
      let* kernels := reshape [Z.of_nat c; -1] kernels in
      let* y := take_along_last x kernels in
      let* y := reshape_to [c; b; k] y in
      transpose 0 1 y
  | [c; t], _ => Err ValueError                                              (* 201-204 *)
  | [n; c; t], [b] =>                                                        (* 205-223 *)
      if negb (b =? n)%nat then Err ValueError else
      let* kernels := reshape [1; -1] kernels in
      let kernels := repeat_t [b; 1%nat] kernels in
      let* ix := reshape [-1; 1] idx in
      let* kernels := bzip_inplace Z.add kernels ix in
      let* kernels := reshape [-1; 1; kernel_size] kernels in
      let kernels := repeat_t [1%nat; c; 1%nat] kernels in
      take_along_last x kernels
  | [n; c; t], _ => Err ValueError                                           (* 224-227 *)
  | _, _ => Err ValueError                                                   (* 228-231 *)
  end.

(** slicing.py 234-370, [sample_kernels], always with the drawn indices (return_idx = True;
    return_idx = False returns the first component).  [rng] is the entropy of the one call to
    torch.randint, see Tensor.randint.  [N = None] is Python's None.
    A negative N makes torch.randint raise RuntimeError. *)
Definition sample_bounds (T kernel_size : Z) (max_center_offset : option Z) : res (Z * Z) :=
  let center := T / 2 in                                                     (* 321 *)
  let* (min_val, max_val) :=
    match max_center_offset with
    | None => Ok (0, T - kernel_size)                                        (* 323-325 *)
    | Some off =>
      if 0 <=? off then Ok (center - off - kernel_size, center)              (* 326-332 *)
      else                                                                   (* 333-347 *)
        let min_val := center - off - kernel_size in
        let max_val := center + off in
        if max_val <=? min_val then Err ValueError else Ok (min_val, max_val)
    end in
  if min_val <? 0 then Err ValueError else Ok (min_val, max_val).            (* 349-355 *)

Definition randint_z (lo hi : Z) (size : list Z) (rng : list nat -> Z) : res (tensor Z) :=
  if existsb (fun d => d <? 0) size then Err RuntimeError
  else randint lo hi (map Z.to_nat size) rng.

Definition sample_kernels {A} (X : tensor A) (kernel_size : Z) (N : option Z)
    (max_center_offset : option Z) (coincident : bool) (rng : list nat -> Z)
  : res (tensor A * tensor Z) :=
  let* T := last_dim X in
  let* len := py_len X in
  if T <? kernel_size then Err ValueError                                    (* 296-300 *)
  else if (3 <? ndim X)%nat then Err ValueError                              (* 301-304 *)
  else if (ndim X <? 3)%nat && match N with None => true | _ => false end
  then Err ValueError                                                        (* 305-308 *)
  else if (ndim X =? 3)%nat && match N with None => false | Some n => negb (n =? Z.of_nat len) end
  then Err ValueError                                                        (* 309-313 *)
  else if (ndim X =? 1)%nat then                                             (* 315-319 *)
    match N with
    | None => Err ValueError (* unreachable: rejected at 305 *)
    | Some n =>
      let* idx := randint_z 0 (Z.of_nat len - kernel_size) [n] rng in
      let* y := slice_kernels X idx kernel_size in
      Ok (y, idx)
    end
  else
    let* (min_val, max_val) := sample_bounds T kernel_size max_center_offset in
    let size :=
      if (ndim X =? 3)%nat || coincident                                     (* 357-361: N or len(X) *)
      then [match N with Some n => if n =? 0 then Z.of_nat len else n | None => Z.of_nat len end]
      else [match N with Some n => n | None => 0 (* unreachable *) end; Z.of_nat len] in  (* 362-365 *)
    let* idx := randint_z min_val max_val size rng in                        (* 367 *)
    let* y := slice_kernels X idx kernel_size in                             (* 368-370 *)
    Ok (y, idx).
