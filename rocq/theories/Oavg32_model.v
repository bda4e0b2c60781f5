(** OnlineAverager on float32 tensors.  [oa_forward_g] is [oa_forward] of Streaming_model with the arithmetic as parameters
    (Oavg32_props: with exact arithmetic the two are equal); [oa_arith32] says what float32 arithmetic may be.
    Simplifications: no overflow, no NaN. The weights are small integers (at most batch_size) and are taken as exact. *)
From Coq Require Import Reals ZArith Lra List.
From Flocq Require Import Core.
From Verif Require Import Base Tensor Slicing_model Streaming_model Leak32_model.
Local Open Scope nat_scope.
(** x.sum(axis=0) of a 3D tensor; the order of the additions may depend on the position *)
Definition sum0_g (sm : list nat -> nat -> (nat -> R) -> R) (x : tensor R) : tensor R :=
  match shape x with
  | [b; c; t] => mk [c; t] (fun i => sm i b (fun k => elt x (k :: i)))
  | _ => x
  end.
(** online_average.py 76-123.  dn: division by the number of updates (94); dv, pl: the in-place division and addition (103, 104);
    sm: the sum over the batch (110) *)
Definition oa_forward_g (dn : R -> R) (dv pl : R -> R -> R) (sm : list nat -> nat -> (nat -> R) -> R)
    (m : oavg) (update : tensor R) (state : option (tensor R)) : res (tensor R * tensor R) :=
  let state := match state with Some s => s | None => oa_init m end in
  let start := (- Z.of_nat (oa_n m) * Z.of_nat (oa_u m))%Z in                                      (* 88 *)
  let '(start, end_) := match oa_off m with
                        | Some o => ((start + - Z.of_nat o)%Z, Some (- Z.of_nat o)%Z)              (* 89-93 *)
                        | None => (start, None)
                        end in
  if negb (length (shape update) =? 3) then Err IndexError else
  let x := slice_last (Some start) end_ update in
  let x := mk (shape x) (fun i => dn (elt x i)) in                                                 (* 94 *)
  let state := pad_right (oa_b m * oa_u m) state in                                               (* 98 *)
  let* (windowed, _) := unfold_windows 0%R state (Z.of_nat (last (shape x) 0)) (Z.of_nat (oa_u m)) true in   (* 102 *)
  let* windowed := bzip_inplace dv windowed (oa_weights m) in                                     (* 103 *)
  let* windowed := bzip_inplace pl windowed x in                                                  (* 104 *)
  let* padded := scatter3 (oa_blank m) (oa_idx m) windowed in                                     (* 109 *)
  let new_state := sum0_g sm padded in                                                            (* 110 *)
  if oa_n m =? 1 then Ok (new_state, oa_init m)                                                   (* 112-115 *)
  else split2_last (Z.of_nat (oa_b m) * Z.of_nat (oa_u m)) (Z.of_nat (oa_n m - 1) * Z.of_nat (oa_u m)) new_state.  (* 116-122 *)
(** a history of calls; the order of summation may differ from call to call *)
Fixpoint oa_run_g (dn : R -> R) (dv pl : R -> R -> R) (sm : nat -> list nat -> nat -> (nat -> R) -> R) (q : nat)
    (m : oavg) (us : list (tensor R)) (state : option (tensor R)) : res (list (tensor R) * option (tensor R)) :=
  match us with
  | [] => Ok ([], state)
  | u :: us' =>
    let* (o, st) := oa_forward_g dn dv pl (sm q) m u state in
    let* (os, st') := oa_run_g dn dv pl sm (S q) m us' (Some st) in
    Ok (o :: os, st')
  end.
(** float32 arithmetic: correctly rounded division and addition; division by the Python integer n is either a division or (CUDA) a
    multiplication by the rounded reciprocal; the sum over the batch is taken in any order, with any intermediate precision of at least
    float32, and stored as a float32 *)
Definition oa_arith32 (n : nat) (dn : R -> R) (dv pl : R -> R -> R) (sm : nat -> list nat -> nat -> (nat -> R) -> R) : Prop :=
  (forall v, dn v = fl32 (v / INR n) \/ dn v = fl32 (v * fl32 (/ INR n)))%R /\
  (forall a w, dv a w = fl32 (a / w))%R /\ (forall a c, pl a c = fl32 (a + c))%R /\
  (forall q i b f, 0 < b -> exists v, summed f (seq 0 b) v /\ sm q i b f = fl32 v).
