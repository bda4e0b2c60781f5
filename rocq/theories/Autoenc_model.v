(** Model of ml4gw/nn/autoencoder/{utils,skip_connection,base,convolutional}.py. *)
From Verif Require Import Base Tensor Streaming_model.
Local Open Scope nat_scope.

(** ** utils.py *)
(** torch.nn.functional.pad(X, (left, right)), both non-negative: zeros on both sides of the last axis *)
Definition pad_last {A} (zero : A) (left right : nat) (x : tensor A) : tensor A :=
  let n := last (shape x) 0 in
  mk (removelast (shape x) ++ [left + n + right])
     (fun i => let j := last i 0 in
               if (left <=? j) && (j <? left + n) then elt x (removelast i ++ [j - left]) else zero).

(** utils.py 5-15, [match_size].  [X.size(-1)] of a 0-d tensor is an IndexError; [X[:, :, a:b]] needs at least
    three axes (IndexError otherwise) and slices the THIRD axis; on a 3D tensor that is the last one.  Inputs of
    more than three axes are not modelled (the function then slices the wrong axis). *)
Definition match_size {A} (zero : A) (x : tensor A) (target : Z) : res (tensor A) :=
  if ndim x =? 0 then Err IndexError else
  let diff := (target - Z.of_nat (last (shape x) 0%nat))%Z in       (* 6 *)
  let left := (diff / 2)%Z in                                       (* 7 *)
  let right := (diff - left)%Z in                                   (* 8 *)
  if (0 <? diff)%Z then Ok (pad_last zero (Z.to_nat left) (Z.to_nat right) x)     (* 10-11 *)
  else if (diff <? 0)%Z then                                        (* 12-14 *)
    if ndim x <? 3 then Err IndexError else
    let right := if (- right =? 0)%Z then None else Some (- right)%Z in
    Ok (slice_last (Some (- left)%Z) right x)
  else Ok x.

(** ** skip_connection.py *)
(** torch.cat(frags, dim=1) on 3D tensors: all must agree on axes 0 and 2; RuntimeError on an empty list *)
Fixpoint cat1_elt {A} (l : list (tensor A)) (d : list nat -> A) (b c t : nat) : A :=
  match l with
  | [] => d [b; c; t]
  | x :: l' => let n := nth 1 (shape x) 0 in
               if c <? n then elt x [b; c; t] else cat1_elt l' d b (c - n) t
  end.
Definition cat1 {A} (l : list (tensor A)) : res (tensor A) :=
  match l with
  | [] => Err RuntimeError
  | x :: _ =>
    match shape x with
    | [b; _; t] =>
      if forallb (fun y => match shape y with [b'; _; t'] => (b' =? b) && (t' =? t) | _ => false end) l
      then Ok (mk [b; list_sum (map (fun y => nth 1 (shape y) 0) l); t]
                  (fun i => match i with [bi; c; ti] => cat1_elt l (elt x) bi c ti | _ => elt x i end))
      else Err RuntimeError
    | _ => Err RuntimeError
    end
  end.
(** torch.split(X, g, dim=1) on a 3D tensor, g >= 1: chunks of g channels, the last one possibly smaller
    (a tensor without channels gives one empty chunk) *)
Definition chunk1 {A} (off n : nat) (x : tensor A) : tensor A :=
  match shape x with
  | [b; _; t] => mk [b; n; t] (fun i => match i with [k; c; j] => elt x [k; off + c; j] | _ => elt x i end)
  | _ => x
  end.
Definition split_chunks {A} (g : nat) (x : tensor A) : list (tensor A) :=
  let c := nth 1 (shape x) 0 in
  map (fun q => chunk1 (q * g) (Nat.min g (c - q * g)) x) (seq 0 (Nat.max 1 ((c + g - 1) / g))).
(** [i for j in zip(X, state, strict=True) for i in j] *)
Fixpoint interleave {A} (l m : list A) : res (list A) :=
  match l, m with
  | [], [] => Ok []
  | a :: l', b :: m' => let* r := interleave l' m' in Ok (a :: b :: r)
  | _, _ => Err ValueError
  end.

Inductive skipconn := BaseSkip | AddSkip | ConcatSkip (groups : nat).

(** skip_connection.py 11-12, 26-27 *)
Definition get_out_channels (s : skipconn) (c : nat) : nat := match s with ConcatSkip _ => 2 * c | _ => c end.

(** skip_connection.py 8-9, 16-18, 29-45.  [state.size(-1)] of a 0-d tensor: IndexError.  [add] is tensor addition
    of equal shapes (torch broadcasting of size-1 axes is included through [bzip]). *)
Definition skip_forward {A} (zero : A) (add : A -> A -> A) (s : skipconn) (x state : tensor A) : res (tensor A) :=
  if ndim state =? 0 then Err IndexError else
  let* x := match_size zero x (Z.of_nat (last (shape state) 0)) in
  match s with
  | BaseSkip => Ok x
  | AddSkip => bzip add x state
  | ConcatSkip g =>
    if g =? 1 then cat1 [x; state]
    else match nth_error (shape x) 1 with
         | None => Err IndexError
         | Some c =>
           if g =? 0 then Err ZeroDivisionError else
           if negb (c mod g =? 0) then Err ValueError
           else let* frags := interleave (split_chunks g x) (split_chunks g state) in cat1 frags
         end
  end.

(** ** base.py, for blocks that take and return one value (a tensor, or whatever a block returns) *)
Record block (V : Type) := { enc : V -> res V; dec : V -> res V }.
Arguments enc {V} b.
Arguments dec {V} b.

(** base.py 35-51, [encode(X, return_states=True)] before dropping the last state *)
Fixpoint ae_encode_states {V} (bs : list (block V)) (x : V) : res (V * list V) :=
  match bs with
  | [] => Ok (x, [])
  | b :: bs' =>
    let* y := enc b x in
    let* (z, sts) := ae_encode_states bs' y in
    Ok (z, y :: sts)
  end.
(** base.py 35-51 *)
Definition ae_encode {V} (bs : list (block V)) (x : V) : res (V * list V) :=
  let* (z, sts) := ae_encode_states bs x in
  Ok (z, removelast sts).

(** base.py 69-78: the loop over the reversed blocks; [states] is the padded list (None: Python's None), and
    subscripting None raises TypeError, as does calling the None skip connection *)
Fixpoint ae_loop {V} (skip : option (V -> V -> res V)) (states : option (list (option V)))
  (rbs : list (block V)) (i : nat) (x : V) : res V :=
  match rbs with
  | [] => Ok x
  | b :: rest =>
    let* x := dec b x in                                                   (* 70-73 *)
    let* st := match states with                                           (* 75 *)
               | None => Err TypeError
               | Some l => pyindex l (- Z.of_nat i - 1)%Z
               end in
    let* x := match st with                                                (* 76-77 *)
              | None => Ok x
              | Some s => match skip with Some f => f x s | None => Err TypeError end
              end in
    ae_loop skip states rest (S i) x
  end.
(** base.py 53-78, [decode(X, states=states)], [states] a list *)
Definition ae_decode {V} (skip : option (V -> V -> res V)) (bs : list (block V)) (x : V) (states : option (list V)) : res V :=
  match skip, states with
  | Some _, None => Err ValueError
  | _, None => ae_loop skip None (rev bs) 0 x
  | _, Some l =>
    if negb (length l + 1 =? length bs) then Err ValueError
    else ae_loop skip (Some (map Some (rev l) ++ [None])) (rev bs) 0 x
  end.
(** base.py 80-90, [forward(X)] *)
Definition ae_forward {V} (skip : option (V -> V -> res V)) (bs : list (block V)) (x : V) : res V :=
  match skip with
  | Some _ => let* (z, sts) := ae_encode bs x in ae_decode skip bs z (Some sts)
  | None => let* (z, _) := ae_encode bs x in ae_decode skip bs z None
  end.

(** ** convolutional.py: tensors are tracked with their shapes, the arithmetic of the layers is arbitrary *)
(** what flows between blocks: a tensor, or the torch.nn.Module object that results from CALLING an activation
    class on a tensor instead of an instance of it *)
Inductive value (A : Type) := VT (x : tensor A) | VModule.
Arguments VT {A} x.
Arguments VModule {A}.

(** an element-wise or otherwise shape-preserving operation with arbitrary arithmetic *)
Definition same_shape {A} (f : tensor A -> list nat -> A) (x : tensor A) : tensor A := mk (shape x) (f x).

(** torch.nn.Conv1d(cin, cout, k, s, p, groups, bias=False) on a 3D tensor *)
Definition conv1d {A} (cin cout k s p : nat) (f : tensor A -> list nat -> A) (x : tensor A) : res (tensor A) :=
  match shape x with
  | [b; c; l] =>
    if negb (c =? cin) || (l + 2 * p <? k) then Err RuntimeError
    else Ok (mk [b; cout; (l + 2 * p - k) / s + 1] (f x))
  | _ => Err RuntimeError
  end.
(** torch.nn.ConvTranspose1d(cin, cout, k, s, p, groups, bias=False) on a 3D tensor; RuntimeError when the computed
    output length is not positive *)
Definition conv_transpose1d {A} (cin cout k s p : nat) (f : tensor A -> list nat -> A) (x : tensor A) : res (tensor A) :=
  match shape x with
  | [b; c; l] =>
    if negb (c =? cin) || (l =? 0) || ((l - 1) * s + k <=? 2 * p) then Err RuntimeError
    else Ok (mk [b; cout; (l - 1) * s + k - 2 * p] (f x))
  | _ => Err RuntimeError
  end.

(** an [output_activation] / [activation] argument, as called by [self.output_activation(X)] (line 75):
    - [ActFun f]: a module instance or function acting on tensors, shape preserving;
    - [ActClassOk]: a module class whose constructor accepts one positional argument (e.g. torch.nn.ReLU, the default):
      the "call" constructs and returns a module object;
    - [ActClassNoArg]: a module class whose constructor takes no argument (e.g. torch.nn.Tanh): TypeError *)
Inductive act (A : Type) := ActFun (f : tensor A -> list nat -> A) | ActClassOk | ActClassNoArg.
Arguments ActFun {A} f.
Arguments ActClassOk {A}.
Arguments ActClassNoArg {A}.
Definition call_act {A} (a : act A) (x : tensor A) : res (value A) :=
  match a with
  | ActFun f => Ok (VT (same_shape f x))
  | ActClassOk => Ok VModule
  | ActClassNoArg => Err TypeError
  end.

(** convolutional.py 14-75, [ConvBlock]: [activation] is the class passed in (line 58 instantiates it for encode; the
    instance's arithmetic is [fa]), norms are shape preserving ([fn1], [fn2]).  Channel / group divisibility checks of
    torch's constructors are not modelled. *)
Definition conv_block {A} (cin cenc k s groups : nat) (activation : act A) (dch : option nat) (out_act : option (act A))
  (skip : option skipconn) (fe fn1 fa fd fn2 : tensor A -> list nat -> A) : block (value A) :=
  let p := (k - 1) / 2 in                                                       (* 30 *)
  let cout := cenc * groups in                                                  (* 33 *)
  let cdec := match dch with Some d => if d =? 0 then cin else d | None => cin end in   (* 44 *)
  let cdin := match skip with Some sk => get_out_channels sk cout | None => cout end in (* 45-47 *)
  let oact := match out_act with Some a => a | None => activation end in        (* 59-62 *)
  {| enc := fun v => match v with                                               (* 67-70 *)
             | VModule => Err TypeError
             | VT x => let* y := conv1d cin cout k s p fe x in Ok (VT (same_shape fa (same_shape fn1 y)))
             end;
     dec := fun v => match v with                                               (* 72-75 *)
             | VModule => Err TypeError
             | VT x => let* y := conv_transpose1d cdin cdec k s p fd x in call_act oact (same_shape fn2 y)
             end |}.

(** the arithmetic of the layers of one block *)
Record arith (A : Type) := { a_enc : tensor A -> list nat -> A; a_n1 : tensor A -> list nat -> A; a_act : tensor A -> list nat -> A;
                             a_dec : tensor A -> list nat -> A; a_n2 : tensor A -> list nat -> A }.
Arguments a_enc {A} _. Arguments a_n1 {A} _. Arguments a_act {A} _. Arguments a_dec {A} _. Arguments a_n2 {A} _.

(** convolutional.py 92-145, the loop of [ConvolutionalAutoencoder.__init__] from index [i] on *)
Fixpoint cae_blocks {A} (i cin : nat) (chans : list nat) (k s groups : nat) (activation out_act : act A)
  (dch : option nat) (skip : option skipconn) (ar : nat -> arith A) : list (block (value A)) :=
  match chans with
  | [] => []
  | c :: rest =>
    conv_block cin c k s groups activation (if i =? 0 then dch else Some cin) (if i =? 0 then Some out_act else None) skip
      (a_enc (ar i)) (a_n1 (ar i)) (a_act (ar i)) (a_dec (ar i)) (a_n2 (ar i))
    :: cae_blocks (S i) (c * groups) rest k s groups activation out_act dch skip ar
  end.
(** [output_activation or activation] (line 112); module classes and instances are truthy *)
Definition cae_create {A} (cin : nat) (chans : list nat) (k s groups : nat) (activation : act A) (output_activation : option (act A))
  (dch : option nat) (skip : option skipconn) (ar : nat -> arith A) : list (block (value A)) :=
  cae_blocks 0 cin chans k s groups activation (match output_activation with Some a => a | None => activation end) dch skip ar.

(** match_size on what a decoder returned: a module object has no [size] (AttributeError) *)
Definition match_size_v {A} (zero : A) (v : value A) (target : Z) : res (tensor A) :=
  match v with VModule => Err AttributeError | VT x => match_size zero x target end.
Definition skip_v {A} (zero : A) (add : A -> A -> A) (s : skipconn) (v st : value A) : res (value A) :=
  match st with
  | VModule => Err AttributeError
  | VT sx => match v with
             | VModule => if ndim sx =? 0 then Err IndexError else Err AttributeError
             | VT x => let* r := skip_forward zero add s x sx in Ok (VT r)
             end
  end.
(** convolutional.py 153-156, [forward] *)
Definition cae_forward {A} (zero : A) (add : A -> A -> A) (skip : option skipconn) (bs : list (block (value A))) (x : tensor A) : res (tensor A) :=
  if ndim x =? 0 then Err IndexError else
  let size := Z.of_nat (last (shape x) 0) in
  let* v := ae_forward (option_map (skip_v zero add) skip) bs (VT x) in
  match_size_v zero v size.
