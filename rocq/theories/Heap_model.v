(** Storage model: which tensors share memory, and which calls write into memory they were handed.
    A heap is a growing collection of buffers; a tensor object is a reference: a buffer, a shape and an index map
    (a slice, a split piece, x[None] and a transposition are references to the same buffer with another map).
    Modelled here, on top of the value models of the same functions:
      ml4gw/augmentations.py 26-31, 49-54      (in-place writes into the caller's tensor)
      ml4gw/utils/slicing.py 18-87, 90-231     (unfold_windows, slice_kernels)
      ml4gw/nn/streaming/snapshotter.py 87-119 (forward)
      ml4gw/nn/streaming/online_average.py 76-123 (forward)
    Simplified: a buffer is a function of index lists (its layout in memory is not modelled); temporaries that no caller can
    reach are not allocated; buffers are never freed. *)
From Verif Require Import Base Tensor Slicing_model Rutil Streaming_model Norm_model.
Local Open Scope nat_scope.

Record heap := Heap { h_next : nat; h_cell : nat -> list nat -> R }.
Record ref := Ref { r_addr : nat; r_shape : list nat; r_map : list nat -> list nat }.

(** what a tensor object contains at a given time *)
Definition rd (h : heap) (r : ref) : tensor R := mk (r_shape r) (fun i => h_cell h (r_addr r) (r_map r i)).
(** an operation that returns a new tensor (torch.cat, take, unfold, sum, zeros, ...) *)
Definition new (h : heap) (t : tensor R) : heap * ref :=
  (Heap (S (h_next h)) (fun a j => if a =? h_next h then elt t j else h_cell h a j), Ref (h_next h) (shape t) (fun i => i)).
(** a view of r: shape s, entry i of the view being entry [f i] of r *)
Definition view (r : ref) (s : list nat) (f : list nat -> list nat) : ref := Ref (r_addr r) s (fun i => r_map r (f i)).
(** x[...] = y: write every entry of the tensor *)
Definition store (h : heap) (r : ref) (y : tensor R) : heap :=
  Heap (h_next h) (fun a j => if a =? r_addr r then
    match find (fun i => if list_eq_dec Nat.eq_dec (r_map r i) j then true else false) (all_idx (r_shape r)) with
    | Some i => elt y i | None => h_cell h a j end else h_cell h a j).

(** augmentations.py 26-31: [X[mask] *= -1; return X] *)
Definition invert_h (prob : R) (rand : list nat -> R) (x : ref) (h : heap) : res (heap * ref) :=
  let* y := invert prob rand (rd h x) in Ok (store h x y, x).
(** augmentations.py 49-54: [X[mask] = X[mask].flip(-1); return X] *)
Definition reverse_h (prob : R) (rand : list nat -> R) (x : ref) (h : heap) : res (heap * ref) :=
  let* y := reverse prob rand (rd h x) in Ok (store h x y, x).

(** x[None] *)
Definition unsqueeze0_h (r : ref) : ref := view r (1 :: r_shape r) (fun i => tl i).
(** x[..., a:b] *)
Definition slice_last_h (a b : option Z) (r : ref) : ref :=
  let n := Z.of_nat (last (r_shape r) 0) in
  let lo := slice_lo n a in let hi := slice_hi n b in
  view r (removelast (r_shape r) ++ [Z.to_nat (hi - lo)]) (fun i => removelast i ++ [last i 0 + Z.to_nat lo]).
(** torch.split(x, [a, b], dim=-1) *)
Definition split2_last_h (a b : Z) (r : ref) : res (ref * ref) :=
  match r_shape r with
  | [] => Err RuntimeError
  | _ =>
    if ((a <? 0) || (b <? 0) || negb (a + b =? Z.of_nat (last (r_shape r) 0%nat)))%Z then Err RuntimeError
    else Ok (view r (removelast (r_shape r) ++ [Z.to_nat a]) (fun i => i),
             view r (removelast (r_shape r) ++ [Z.to_nat b]) (fun i => removelast i ++ [last i 0 + Z.to_nat a]))
  end.
(** torch.split(x, sizes, dim=1) on a 3D tensor *)
Fixpoint split1_from_h (off : nat) (sizes : list nat) (r : ref) : list ref :=
  match sizes with
  | [] => []
  | n :: rest =>
    (match r_shape r with
     | [b; _; t] => view r [b; n; t] (fun i => match i with [k; c; j] => [k; off + c; j] | _ => i end)
     | _ => r
     end) :: split1_from_h (off + n) rest r
  end.
Definition split1_h (sizes : list nat) (r : ref) : res (list ref) :=
  match r_shape r with
  | [_; c; _] => if list_sum sizes =? c then Ok (split1_from_h 0 sizes r) else Err RuntimeError
  | _ => Err RuntimeError
  end.

(** slicing.py 18-87: the windows are a copy (im2col), the tail is the second piece of torch.split (a view of x), or a new
    empty tensor if nothing remains *)
Definition unfold_windows_h (x : ref) (window_size stride : Z) (drop_last : bool) (h : heap) : res (heap * ref * option ref) :=
  let* (w, rem) := unfold_windows 0%R (rd h x) window_size stride drop_last in
  let (h1, wr) := new h w in
  match rem with
  | None => Ok (h1, wr, None)
  | Some t =>
    let T := Z.of_nat (last (r_shape x) 0) in
    let num_windows := ((T - window_size) / stride + 1)%Z in                                       (* 57 *)
    let remainder := (T - window_size - (num_windows - 1) * stride)%Z in                           (* 58 *)
    if (remainder =? 0)%Z then let (h2, tr) := new h1 t in Ok (h2, wr, Some tr)                     (* 59-64 *)
    else let* (_, tr) := split2_last_h (T - remainder) remainder x in Ok (h1, wr, Some (unsqueeze0_h tr))   (* 65-70, 86 *)
  end.
(** slicing.py 90-231: torch.take / take_along_dim / x[...] with index tensors copy *)
Definition slice_kernels_h (x : ref) (idx : tensor Z) (kernel_size : Z) (h : heap) : res (heap * ref) :=
  let* y := slice_kernels (rd h x) idx kernel_size in Ok (new h y).

(** snapshotter.py 87-119 *)
Definition snap_h (s : snap) (update : ref) (state : option ref) (h : heap) : res (heap * list ref * ref) :=
  let '(h, state) := match state with Some r => (h, r) | None => new h (snap_init 0%R s) end in    (* 92-93 *)
  let* cat := cat_last2 (rd h state) (rd h update) in                                             (* 96, a copy *)
  let '(h, snapshot) := new h cat in
  let* (h, snapshots) :=
    if 1 <? sn_batch s then                                                                       (* 98-101 *)
      let* (h, w, _) := unfold_windows_h snapshot (Z.of_nat (sn_size s)) (Z.of_nat (sn_stride s)) true h in Ok (h, w)
    else Ok (h, unsqueeze0_h snapshot) in                                                         (* 102-103, a view *)
  let* outs :=
    match sn_cps s with                                                                           (* 105-115 *)
    | Some sizes =>
      match nth_error (r_shape snapshots) 1 with
      | None => Err IndexError
      | Some c => if negb (c =? sn_channels s) then Err ValueError else split1_h sizes snapshots   (* views *)
      end
    | None => Ok [snapshots]
    end in
  Ok (h, outs, slice_last_h (Some (- Z.of_nat (sn_state s))%Z) None snapshot).                     (* 118-119, a view *)

(** online_average.py 88-110: the sum from which output and state are split *)
Definition oa_sum (m : oavg) (update state : tensor R) : res (tensor R) :=
  let start := (- Z.of_nat (oa_n m) * Z.of_nat (oa_u m))%Z in                                      (* 88 *)
  let '(start, end_) := match oa_off m with
                        | Some o => ((start + - Z.of_nat o)%Z, Some (- Z.of_nat o)%Z)              (* 89-93 *)
                        | None => (start, None)
                        end in
  if negb (length (shape update) =? 3) then Err IndexError else
  let x := slice_last (Some start) end_ update in
  let x := mk (shape x) (fun i => elt x i / INR (oa_n m))%R in                                     (* 94: out of place *)
  let state := pad_right (oa_b m * oa_u m) state in                                               (* 98: a copy *)
  let* (windowed, _) := unfold_windows 0%R state (Z.of_nat (last (shape x) 0)) (Z.of_nat (oa_u m)) true in   (* 102: a copy *)
  let* windowed := bzip_inplace Rdiv windowed (oa_weights m) in                                   (* 103: into the copy *)
  let* windowed := bzip_inplace Rplus windowed x in                                               (* 104: into the copy *)
  let* padded := scatter3 (oa_blank m) (oa_idx m) windowed in                                     (* 109: out of place *)
  Ok (sum0 padded).                                                                               (* 110: a new tensor *)
(** online_average.py 76-123 *)
Definition oa_h (m : oavg) (update : ref) (state : option ref) (h : heap) : res (heap * list ref * ref) :=
  let '(h, state) := match state with Some r => (h, r) | None => new h (oa_init m) end in          (* 84-85 *)
  let* total := oa_sum m (rd h update) (rd h state) in                                            (* 88-110 *)
  let '(h, total) := new h total in
  if oa_n m =? 1 then                                                                             (* 112-115: a new state *)
    let '(h, z) := new h (oa_init m) in Ok (h, [total], z)
  else                                                                                            (* 116-122: two views of the sum *)
    let* (out, st) := split2_last_h (Z.of_nat (oa_b m) * Z.of_nat (oa_u m)) (Z.of_nat (oa_n m - 1) * Z.of_nat (oa_u m)) total in
    Ok (h, [out], st).
