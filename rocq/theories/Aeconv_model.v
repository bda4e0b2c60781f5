(** The arithmetic of the layers that ml4gw/nn/autoencoder/convolutional.py 33-66 builds (torch.nn.Conv1d and
    ConvTranspose1d without bias, BatchNorm1d, an element-wise activation), over the reals: the entries [arith] that
    Autoenc_model leaves arbitrary. *)
From Coq Require Import Reals.
From Verif Require Import Base Tensor Rutil Autoenc_model.
Local Open Scope nat_scope.

(** torch.nn.Conv1d(cin, opg * g, k, stride=s, padding=p, groups=g, bias=False), weight of shape (opg * g, cin / g, k)
    (convolutional.py 34-42): output channel co belongs to group co / opg, which reads the channels
    [co / opg * (cin / g), (co / opg + 1) * (cin / g)); the time axis is padded with p zeros on both sides.
    (The remainder by g has no effect on channels below opg * g.) *)
Definition conv_arith (g opg k s p : nat) (W : nat -> nat -> nat -> R) (X : tensor R) (i : list nat) : R :=
  match i with
  | [b; co; t] =>
    let cpg := nth 1 (shape X) 0 / g in
    let n := nth 2 (shape X) 0 in
    Rsum cpg (fun ci => let c := (co / opg) mod g * cpg + ci in
      Rsum k (fun j => let u := t * s + j in
        (W co ci j * (if ((p <=? u) && (u - p <? n))%nat then elt X [b; c; (u - p)%nat] else 0))%R))
  | _ => 0%R
  end.
(** torch.nn.ConvTranspose1d(cin, opg * g, k, stride=s, padding=p, groups=g, bias=False), weight of shape
    (cin, opg, k) (convolutional.py 48-56): input sample u adds W[ci, ., j] times its value to output sample u*s + j - p *)
Definition convt_arith (g opg k s p : nat) (W : nat -> nat -> nat -> R) (X : tensor R) (i : list nat) : R :=
  match i with
  | [b; co; t] =>
    let cpg := nth 1 (shape X) 0 / g in
    let n := nth 2 (shape X) 0 in
    Rsum cpg (fun ci => let c := (co / opg) mod g * cpg + ci in
      Rsum n (fun u => Rsum k (fun j => if u * s + j =? t + p then (W c (co mod opg) j * elt X [b; c; u])%R else 0%R)))
  | _ => 0%R
  end.
(** torch.nn.BatchNorm1d in evaluation mode (convolutional.py 64-65, default [norm]): running mean and variance, weight
    and bias per channel *)
Definition bn_eval (mean var w bias : nat -> R) (eps : R) (X : tensor R) (i : list nat) : R :=
  match i with
  | [b; c; t] => ((elt X [b; c; t] - mean c) / sqrt (var c + eps) * w c + bias c)%R
  | _ => 0%R
  end.
(** torch.nn.BatchNorm1d in training mode: mean and biased variance of the channel over the whole batch.  (Its ValueError
    for a single value per channel and the update of the running statistics are not modelled.) *)
Definition bn_train (w bias : nat -> R) (eps : R) (X : tensor R) (i : list nat) : R :=
  match i with
  | [b; c; t] =>
    let B := nth 0 (shape X) 0 in
    let n := nth 2 (shape X) 0 in
    let mean := (Rsum B (fun b => Rsum n (fun t => elt X [b; c; t])) / INR (B * n))%R in
    let var := (Rsum B (fun b => Rsum n (fun t => (elt X [b; c; t] - mean) * (elt X [b; c; t] - mean))) / INR (B * n))%R in
    ((elt X [b; c; t] - mean) / sqrt (var + eps) * w c + bias c)%R
  | _ => 0%R
  end.
(** an element-wise activation module (convolutional.py 58) *)
Definition pointwise (f : R -> R) (X : tensor R) (i : list nat) : R := f (elt X i).

(** the layers of one block, in evaluation mode *)
Record params := { w_enc : nat -> nat -> nat -> R; w_dec : nat -> nat -> nat -> R; opg_enc : nat; opg_dec : nat;
                   n_enc : (nat -> R) * (nat -> R) * (nat -> R) * (nat -> R); n_dec : (nat -> R) * (nat -> R) * (nat -> R) * (nat -> R) }.
Definition bn_of (q : (nat -> R) * (nat -> R) * (nat -> R) * (nat -> R)) (eps : R) := let '(m, v, w, b) := q in bn_eval m v w b eps.
Definition eval_arith (k s groups : nat) (eps : R) (f : R -> R) (q : params) : arith R :=
  {| a_enc := conv_arith groups (opg_enc q) k s ((k - 1) / 2) (w_enc q);
     a_n1 := bn_of (n_enc q) eps;
     a_act := pointwise f;
     a_dec := convt_arith groups (opg_dec q) k s ((k - 1) / 2) (w_dec q);
     a_n2 := bn_of (n_dec q) eps |}.
(** the same with BatchNorm1d in training mode *)
Definition train_arith (k s groups : nat) (eps : R) (f : R -> R) (q : params) : arith R :=
  let wb (z : (nat -> R) * (nat -> R) * (nat -> R) * (nat -> R)) := let '(_, _, w, b) := z in bn_train w b eps in
  {| a_enc := conv_arith groups (opg_enc q) k s ((k - 1) / 2) (w_enc q);
     a_n1 := wb (n_enc q);
     a_act := pointwise f;
     a_dec := convt_arith groups (opg_dec q) k s ((k - 1) / 2) (w_dec q);
     a_n2 := wb (n_dec q) |}.
