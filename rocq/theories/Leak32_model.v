(** LeakyIntegrator on a float32 tensor, with every operation rounded.  Elsewhere (Trans_model) the same lines are exact.
    Simplifications: no overflow (exponents are unbounded above), no NaN. *)
From Coq Require Import Reals ZArith Lra List Permutation.
From Flocq Require Import Core.
From Verif Require Import Base Tensor Trans_model.
Local Open Scope R_scope.
(** the float32 format, its subnormals included, and rounding to nearest, ties to even *)
Definition F32 (x : R) : Prop := generic_format radix2 (FLT_exp (-149) 24) x.
Definition fl32 (x : R) : R := round radix2 (FLT_exp (-149) 24) ZnearestE x.
(** rounding to float32 or to any wider format: what an accumulator may do after each addition *)
Definition acc_round (r : R -> R) : Prop := exists emin p, (emin <= -149)%Z /\ (24 <= p)%Z /\ r = round radix2 (FLT_exp emin p) ZnearestE.
(** [summed f l v]: v is a value that adding up f over the indices l may give, in some order and with some association, rounding after each
    addition.  torch.cumsum leaves the order to the device: sequential in double precision on the CPU, a parallel scan on a GPU. *)
Inductive summed (f : nat -> R) : list nat -> R -> Prop :=
| sum_leaf j : summed f [j] (f j)
| sum_node l1 l2 l v1 v2 r : acc_round r -> summed f l1 v1 -> summed f l2 v2 -> Permutation (l1 ++ l2) l -> summed f l (r (v1 + v2)).
(** the CPU kernel of torch.cumsum: a running sum in double precision *)
Definition fl64 (x : R) : R := round radix2 (FLT_exp (-1074) 53) ZnearestE x.
Fixpoint run64 (f : nat -> R) (t : nat) : R := match t with O => f O | S t' => fl64 (run64 f t' + f t) end.
(** integrator.py 104-108: the increments, as float32 numbers.  The threshold and the decay are Python floats, converted to the dtype of x *)
Definition delta32 (m : leaky) (v : R) : R :=
  if Rle_dec (fl32 (lk_threshold m)) v then (if lk_count m then 1 else v) else - fl32 (lk_decay m).
(** integrator.py 112-118 on one row of float32 cumulative sums *)
Definition clip32 (m : leaky) (raw : nat -> R) (t : nat) : R :=
  fl32 (raw t - Rmin (cummin (fun j => fl32 (raw j - fl32 (lk_lower m))) t) (fl32 (lk_lower m))).
(** integrator.py 102-118 on a tensor with at least one axis: r is a possible output for the input x *)
Definition leaky32 (m : leaky) (x r : tensor R) : Prop :=
  exists raw : tensor R, shape raw = shape x /\ shape r = shape x /\
    (forall p t, inb (p ++ [t]) (shape x) ->
      exists v, summed (fun j => delta32 m (elt x (p ++ [j]))) (seq 0 (S t)) v /\ elt raw (p ++ [t]) = fl32 v) /\       (* 104-110 *)
    (forall p t, inb (p ++ [t]) (shape x) -> elt r (p ++ [t]) = clip32 m (fun j => elt raw (p ++ [j])) t).              (* 112-118 *)
(** the same on the CPU: the output is determined *)
Definition leaky32_cpu (m : leaky) (x : tensor R) : tensor R :=
  let raw := mk (shape x) (fun i => fl32 (run64 (fun j => delta32 m (elt x (removelast i ++ [j]))) (last i 0%nat))) in   (* 104-110 *)
  mk (shape x) (fun i => clip32 m (fun j => elt raw (removelast i ++ [j])) (last i 0%nat)).                              (* 112-118 *)
