(** Specification vocabulary for the data loaders. *)
From Verif Require Import Base Tensor.

(** [batches] is an epoch over [N] rows in batches of [bs] (the last one possibly short): row
    [r = i*bs+b] is the window of [k] samples that starts, in channel [c] of X (shape [C; T]), at
    [kern r c * stride], and, if a target y (shape [T]) is present, at [kern r 0 * stride] in y. *)
Definition epoch_of {A} (X : tensor A) (y : option (tensor A)) (C k stride bs N : nat)
    (kern : nat -> nat -> nat) (batches : list (tensor A * option (tensor A))) : Prop :=
  forall i, i < length batches ->
  exists Xb yb m,
    nth_error batches i = Some (Xb, yb)
    /\ m = Nat.min bs (N - i * bs)
    /\ shape Xb = [m; C; k]
    /\ (forall b c j, b < m -> c < C -> j < k ->
          get Xb [b; c; j] = get X [c; kern (i * bs + b) c * stride + j])
    /\ match y with
       | None => yb = None
       | Some y => exists yk, yb = Some yk /\ shape yk = [m; k] /\
           forall b j, b < m -> j < k -> get yk [b; j] = get y [kern (i * bs + b) 0 * stride + j]
       end.
