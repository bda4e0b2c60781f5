(** TophatIntegrator on a float32 tensor, with every operation rounded.  Elsewhere (Trans_model) the same lines are exact.
    Simplifications: no overflow, no NaN; the convolution is a direct one (each output is a sum of products, in any order and association).  The FFT and
    Winograd algorithms a GPU library may choose, and TensorFloat-32 inputs, are outside. *)
From Coq Require Import Reals ZArith Lra List Permutation.
From Verif Require Import Base Tensor Autoenc_model Trans_model Leak32_model.
Local Open Scope R_scope.
(** [dotted f l v]: v is a value that adding up the products f over the indices l may give.  A product is rounded or kept exact (a fused multiply-add
    rounds only after the addition); each addition is rounded to float32 or a wider format; any order. *)
Inductive dotted (f : nat -> R) : list nat -> R -> Prop :=
| dot_exact j : dotted f [j] (f j)
| dot_round j r : acc_round r -> dotted f [j] (r (f j))
| dot_node l1 l2 l v1 v2 r : acc_round r -> dotted f l1 v1 -> dotted f l2 v2 -> Permutation (l1 ++ l2) l -> dotted f l (r (v1 + v2)).
(** one order that is possible: products rounded to float32, added from the left in float32 *)
Fixpoint dot_left (f : nat -> R) (t : nat) : R := match t with O => fl32 (f O) | S t' => fl32 (dot_left f t' + fl32 (f t)) end.
(** torch conv1d of a (n, 1, l) signal with a (1, 1, k) kernel, stride 1, no padding; [dot b t k f] is the value computed for output (b, t) *)
Definition conv1d_g (dot : nat -> nat -> nat -> (nat -> R) -> R) (x : tensor R) (kern : nat -> R) (k : nat) : res (tensor R) :=
  match shape x with
  | [n; c; l] => if (l <? k)%nat || (k =? 0)%nat || negb (c =? 1)%nat then Err RuntimeError
                 else Ok (mk [n; 1%nat; (l - k + 1)%nat]
                        (fun i => match i with [b; _; t] => dot b t k (fun j => elt x [b; 0%nat; (t + j)%nat] * kern j) | _ => 0 end))
  | _ => Err RuntimeError
  end.
(** integrator.py 40-48, [forward]; w is the value of each entry of the window buffer *)
Definition tophat_g (dot : nat -> nat -> nat -> (nat -> R) -> R) (w : R) (W : nat) (x : tensor R) : res (tensor R) :=
  match shape x with
  | [] => Err IndexError
  | _ => let s := shape x in
         let L := last s 0%nat in                                               (* 42 *)
         let* x := reshape [-1; 1; Z.of_nat L]%Z x in                           (* 44 *)
         let x := pad_last 0 (W - 1) 0 x in                                     (* 45 *)
         let* x := conv1d_g dot x (fun _ => w) W in                             (* 46 *)
         reshape_to s x                                                         (* 48 *)
  end.
(** integrator.py 36-38: torch.ones(...) / window_size in float32 *)
Definition window32 (W : nat) : R := fl32 (1 / INR W).
(** a float32 convolution: each output is the float32 rounding of a value that adding up the products may give *)
Definition conv32 (dot : nat -> nat -> nat -> (nat -> R) -> R) : Prop :=
  forall b t k f, (0 < k)%nat -> exists v, dotted f (seq 0 k) v /\ dot b t k f = fl32 v.
(** the module in float32, for the summation order dot *)
Definition tophat32 (dot : nat -> nat -> nat -> (nat -> R) -> R) (W : nat) (x : tensor R) : res (tensor R) := tophat_g dot (window32 W) W x.
