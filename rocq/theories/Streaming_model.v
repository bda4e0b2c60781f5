(** Model of ml4gw/nn/streaming/{snapshotter,online_average}.py. *)
From Verif Require Import Base Tensor Slicing_model Rutil.
Local Open Scope nat_scope.

(** torch.cat([a, b], axis=-1) of 2D tensors *)
Definition cat_last2 {A} (a b : tensor A) : res (tensor A) :=
  match shape a, shape b with
  | [c; n], [c'; m] =>
    if c =? c' then Ok (mk [c; n + m] (fun i => match i with
                           | [k; t] => if t <? n then elt a [k; t] else elt b [k; t - n]
                           | _ => elt a i end))
    else Err RuntimeError
  | _, _ => Err RuntimeError
  end.
(** x[:, a:b] on a 2D tensor / x[:, :, a:b] on a 3D tensor (Python slice of the last axis) *)
Definition slice_last {A} (a b : option Z) (x : tensor A) : tensor A :=
  let n := Z.of_nat (last (shape x) 0) in
  let lo := slice_lo n a in let hi := slice_hi n b in
  mk (removelast (shape x) ++ [Z.to_nat (hi - lo)])
     (fun i => elt x (removelast i ++ [last i 0 + Z.to_nat lo])).
(** torch.split(x, sizes, dim=1) on a 3D tensor (sizes summing to x.size(1), otherwise RuntimeError) *)
Fixpoint split1_from {A} (off : nat) (sizes : list nat) (x : tensor A) : list (tensor A) :=
  match sizes with
  | [] => []
  | n :: rest =>
    (match shape x with
     | [b; _; t] => mk [b; n; t] (fun i => match i with [k; c; j] => elt x [k; off + c; j] | _ => elt x i end)
     | _ => x
     end) :: split1_from (off + n) rest x
  end.
Definition split1 {A} (sizes : list nat) (x : tensor A) : res (list (tensor A)) :=
  match shape x with
  | [_; c; _] => if list_sum sizes =? c then Ok (split1_from 0 sizes x) else Err RuntimeError
  | _ => Err RuntimeError
  end.

(** ** Snapshotter (non-negative integer arguments) *)
Record snap := { sn_channels : nat; sn_size : nat; sn_stride : nat; sn_state : nat; sn_batch : nat; sn_cps : option (list nat) }.

(** snapshotter.py 55-82, [__init__] *)
Definition snap_create (num_channels snapshot_size stride_size batch_size : nat) (cps : option (list nat)) : res snap :=
  if snapshot_size <=? stride_size then Err ValueError else
  if match cps with Some l => negb (list_sum l =? num_channels) | None => false end then Err ValueError else
  Ok {| sn_channels := num_channels; sn_size := snapshot_size; sn_stride := stride_size;
        sn_state := snapshot_size - stride_size; sn_batch := batch_size; sn_cps := cps |}.

(** snapshotter.py 84-85 *)
Definition snap_init {A} (zero : A) (s : snap) : tensor A := mk [sn_channels s; sn_state s] (fun _ => zero).

(** snapshotter.py 87-119, [forward].  Result: the tuple of snapshot tensors and the new state. *)
Definition snap_forward {A} (zero : A) (s : snap) (update : tensor A) (state : option (tensor A))
  : res (list (tensor A) * tensor A) :=
  let state := match state with Some t => t | None => snap_init zero s end in
  let* snapshot := cat_last2 state update in                                                      (* 96 *)
  let* snapshots :=
    if 1 <? sn_batch s then                                                                       (* 98-103 *)
      let* (y, _) := unfold_windows zero snapshot (Z.of_nat (sn_size s)) (Z.of_nat (sn_stride s)) true in Ok y
    else Ok (unsqueeze0 snapshot) in
  let* outs :=
    match sn_cps s with                                                                           (* 105-115 *)
    | Some sizes =>
      match nth_error (shape snapshots) 1 with
      | None => Err IndexError
      | Some c => if negb (c =? sn_channels s) then Err ValueError else split1 sizes snapshots
      end
    | None => Ok [snapshots]
    end in
  Ok (outs, slice_last (Some (- Z.of_nat (sn_state s))%Z) None snapshot).                          (* 118-119 *)

(** feeding a history of updates, the state of each call going to the next *)
Fixpoint snap_run {A} (zero : A) (s : snap) (us : list (tensor A)) (state : option (tensor A))
  : res (list (list (tensor A)) * option (tensor A)) :=
  match us with
  | [] => Ok ([], state)
  | u :: us' =>
    let* (o, st) := snap_forward zero s u state in
    let* (os, st') := snap_run zero s us' (Some st) in
    Ok (o :: os, st')
  end.

(** ** OnlineAverager (non-negative integer arguments) *)
(** torch.scatter(base, -1, idx, src) on 3D tensors; no repeated targets are used in this code, the
    first match is taken. *)
Definition scatter3 (base : tensor R) (idx : tensor Z) (src : tensor R) : res (tensor R) :=
  match shape base, shape idx, shape src with
  | [b; c; t], [b1; c1; n], [b2; c2; n2] =>
    if negb ((b1 <=? b) && (c1 <=? c) && (b1 <=? b2) && (c1 <=? c2) && (n <=? n2))%bool then Err RuntimeError else
    if negb (forallb (fun i => (0 <=? elt idx i)%Z && (elt idx i <? Z.of_nat t)%Z)%bool (all_idx [b1; c1; n])) then Err RuntimeError else
    Ok (mk [b; c; t] (fun i => match i with
          | [k; l; p] =>
            if ((k <? b1) && (l <? c1))%bool then
              match find (fun j => (elt idx [k; l; j] =? Z.of_nat p)%Z) (seq 0 n) with
              | Some j => elt src [k; l; j] | None => elt base i end
            else elt base i
          | _ => elt base i end))
  | _, _, _ => Err RuntimeError
  end.
(** x.sum(axis=0) of a 3D tensor *)
Definition sum0 (x : tensor R) : tensor R :=
  match shape x with
  | [b; c; t] => mk [c; t] (fun i => Rsum b (fun k => elt x (k :: i)))
  | _ => x
  end.

Record oavg := { oa_u : nat; oa_n : nat; oa_b : nat; oa_c : nat; oa_off : option nat;
                 oa_blank : tensor R; oa_idx : tensor Z; oa_weights : tensor R }.

Definition oa_state_size (u n : nat) : nat := (n - 1) * u.

(** online_average.py 33-69, [__init__].  num_updates = 0 (a negative state size) is not modelled. *)
Definition oa_create (u b n c : nat) (off : option nat) : res oavg :=
  let blank := mk [b; c; b * u + oa_state_size u n] (fun _ => 0%R) in                              (* 51-54 *)
  if b =? 0 then Err RuntimeError else                                                            (* torch.stack([]) *)
  let idx := mk [b; c; n * u] (fun i => match i with [k; _; j] => Z.of_nat (j + k * u) | _ => 0%Z end) in   (* 59-62 *)
  let* w := scatter3 blank idx (mk [b; c; n * u] (fun _ => 1%R)) in                                (* 66 *)
  let* (w, _) := unfold_windows 0%R (sum0 w) (Z.of_nat (n * u)) (Z.of_nat u) true in               (* 67-68 *)
  Ok {| oa_u := u; oa_n := n; oa_b := b; oa_c := c; oa_off := off; oa_blank := blank; oa_idx := idx; oa_weights := w |}.

(** online_average.py 71-74 *)
Definition oa_init (m : oavg) : tensor R := mk [oa_c m; oa_state_size (oa_u m) (oa_n m)] (fun _ => 0%R).
(** torch.nn.functional.pad(x, (0, n)) of a 2D tensor *)
Definition pad_right (n : nat) (x : tensor R) : tensor R :=
  match shape x with
  | [c; t] => mk [c; t + n] (fun i => match i with [k; j] => if j <? t then elt x i else 0%R | _ => 0%R end)
  | _ => x
  end.

(** online_average.py 76-123, [forward] *)
Definition oa_forward (m : oavg) (update : tensor R) (state : option (tensor R)) : res (tensor R * tensor R) :=
  let state := match state with Some s => s | None => oa_init m end in
  let start := (- Z.of_nat (oa_n m) * Z.of_nat (oa_u m))%Z in                                      (* 88 *)
  let '(start, end_) := match oa_off m with
                        | Some o => ((start + - Z.of_nat o)%Z, Some (- Z.of_nat o)%Z)              (* 89-93 *)
                        | None => (start, None)
                        end in
  if negb (length (shape update) =? 3) then Err IndexError else
  let x := slice_last (Some start) end_ update in
  let x := mk (shape x) (fun i => elt x i / INR (oa_n m))%R in                                     (* 94 *)
  let state := pad_right (oa_b m * oa_u m) state in                                               (* 98 *)
  let* (windowed, _) := unfold_windows 0%R state (Z.of_nat (last (shape x) 0)) (Z.of_nat (oa_u m)) true in   (* 102 *)
  let* windowed := bzip_inplace Rdiv windowed (oa_weights m) in                                   (* 103 *)
  let* windowed := bzip_inplace Rplus windowed x in                                               (* 104 *)
  let* padded := scatter3 (oa_blank m) (oa_idx m) windowed in                                     (* 109 *)
  let new_state := sum0 padded in                                                                 (* 110 *)
  if oa_n m =? 1 then Ok (new_state, oa_init m)                                                   (* 112-115 *)
  else split2_last (Z.of_nat (oa_b m) * Z.of_nat (oa_u m)) (Z.of_nat (oa_n m - 1) * Z.of_nat (oa_u m)) new_state.  (* 116-122 *)

Fixpoint oa_run (m : oavg) (us : list (tensor R)) (state : option (tensor R)) : res (list (tensor R) * option (tensor R)) :=
  match us with
  | [] => Ok ([], state)
  | u :: us' =>
    let* (o, st) := oa_forward m u state in
    let* (os, st') := oa_run m us' (Some st) in
    Ok (o :: os, st')
  end.
