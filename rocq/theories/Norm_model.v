(** Model of ml4gw/nn/norm.py and ml4gw/augmentations.py. Real arithmetic; parameters are arbitrary tensors of the
    shape given to them by the constructor. *)
From Verif Require Import Base Tensor Rutil.
Local Open Scope R_scope.

(** t.mean(-1, keepdims=keep) *)
Definition mean_last (keep : bool) (t : tensor R) : tensor R :=
  let n := last (shape t) 0%nat in
  mk (removelast (shape t) ++ if keep then [1%nat] else [])
     (fun i => Rsum n (fun j => elt t ((if keep then removelast i else i) ++ [j])) / INR n).
(** torch.stack([a, b], dim=1) of two tensors of the same shape *)
Definition stack1 {A} (a b : tensor A) : tensor A :=
  mk (match shape a with n :: s => n :: 2%nat :: s | [] => [2%nat] end)
     (fun i => match i with x :: k :: r => elt (if k =? 0 then a else b)%nat (x :: r) | _ => elt a i end).
(** t.expand(-1, ..., -1, n) of a tensor whose last axis has size 1 *)
Definition expand_last {A} (n : nat) (t : tensor A) : tensor A :=
  mk (removelast (shape t) ++ [n]) (fun i => elt t (removelast i ++ [0%nat])).
(** t[:, k] *)
Definition select1 {A} (k : nat) (t : tensor A) : tensor A :=
  mk (match shape t with n :: _ :: s => n :: s | s => s end)
     (fun i => match i with x :: r => elt t (x :: k :: r) | [] => elt t i end).
Definition tmap {A B} (f : A -> B) (t : tensor A) : tensor B := mk (shape t) (fun i => f (elt t i)).

Record gnorm := { gn_channels : nat; gn_groups : nat; gn_cpg : nat; gn_eps : R; gn_weight : tensor R; gn_bias : tensor R }.

(** norm.py 16-34, [GroupNorm1D.__init__], non-negative integers; [None] and 0 groups mean num_channels ([or]).
    ([num_channels = 0] with no groups is a ZeroDivisionError of the modulo.) *)
Definition gnorm_create (num_channels : nat) (num_groups : option nat) (eps : R) : res gnorm :=
  let g := match num_groups with Some (S g) => S g | _ => num_channels end in
  if (g =? 0)%nat then Err ZeroDivisionError else
  if negb (num_channels mod g =? 0)%nat then Err ValueError else
  Ok {| gn_channels := num_channels; gn_groups := g; gn_cpg := (num_channels / g)%nat; gn_eps := eps;
        gn_weight := mk [num_channels; 1%nat] (fun _ => 1); gn_bias := mk [num_channels; 1%nat] (fun _ => 0) |}.

(** norm.py 36-70, [forward] *)
Definition gnorm_forward (m : gnorm) (x : tensor R) : res (tensor R) :=
  if negb (ndim x =? 3)%nat then Err ValueError else
  let keep := (gn_groups m =? gn_channels m)%nat in                                        (* 45 *)
  let mean := mean_last keep x in                                                          (* 48 *)
  let sq_mean := mean_last keep (tmap (fun v => v * v) x) in                               (* 49 *)
  let* (mean, sq_mean) :=
    if negb keep then                                                                      (* 54-62 *)
      let t := stack1 mean sq_mean in
      let* t := reshape [-1; 2; Z.of_nat (gn_groups m); Z.of_nat (gn_cpg m)]%Z t in
      let t := mean_last true t in
      let t := expand_last (gn_cpg m) t in
      let* t := reshape [-1; 2; Z.of_nat (gn_channels m); 1]%Z t in
      Ok (select1 0 t, select1 1 t)
    else Ok (mean, sq_mean) in
  let* var := bzip (fun s u => s - u * u + gn_eps m) sq_mean mean in                       (* 67 *)
  let std := tmap sqrt var in
  let* scale := bzip Rdiv (gn_weight m) std in                                             (* 68 *)
  let* sm := bzip Rmult scale mean in
  let* shift := bzip Rminus (gn_bias m) sm in                                              (* 69 *)
  let* xs := bzip Rmult x scale in
  bzip Rplus shift xs.                                                                     (* 70 *)

(** norm.py 83-88, [GroupNorm1DGetter.__call__] (eps is the default 1e-5 there; any value here) *)
Definition gnorm_getter (groups : option nat) (num_channels : nat) (eps : R) : res gnorm :=
  gnorm_create num_channels (match groups with None => None | Some g => Some (Nat.min num_channels g) end) eps.

(** norm.py 102-107, [GroupNorm2DGetter.__call__]: what torch.nn.GroupNorm(num_groups, num_channels) does with its
    arguments (ValueError if num_channels is not divisible by num_groups; ZeroDivisionError for 0 groups) *)
Definition gnorm2d_getter (groups : option nat) (num_channels : nat) : res (nat * nat) :=
  let g := match groups with None => num_channels | Some g => Nat.min num_channels g end in
  if (g =? 0)%nat then Err ZeroDivisionError else
  if negb (num_channels mod g =? 0)%nat then Err ValueError else Ok (g, num_channels).

(** ** augmentations.py *)
(** boolean mask over the leading axes: the selected leading indices in row-major order *)
Definition mask_idx (mask : list nat -> bool) (s : list nat) : list (list nat) := filter mask (all_idx (removelast s)).
(** X[mask]: a (count, time) tensor of the selected series *)
Definition mask_get {A} (mask : list nat -> bool) (x : tensor A) : tensor A :=
  mk [length (mask_idx mask (shape x)); last (shape x) 0%nat]
     (fun i => match i with [k; t] => elt x (nth k (mask_idx mask (shape x)) [] ++ [t]) | _ => elt x i end).
Fixpoint pos_of (i : list nat) (l : list (list nat)) : nat :=
  match l with [] => 0 | a :: l' => if list_eq_dec Nat.eq_dec a i then 0 else S (pos_of i l') end.
(** X[mask] = v *)
Definition mask_set {A} (mask : list nat -> bool) (v x : tensor A) : tensor A :=
  mk (shape x) (fun i => if mask (removelast i) then elt v [pos_of (removelast i) (mask_idx mask (shape x)); last i 0%nat] else elt x i).
(** t.flip(-1) *)
Definition flip_last {A} (t : tensor A) : tensor A :=
  mk (shape t) (fun i => elt t (removelast i ++ [(last (shape t) 0 - 1 - last i 0)%nat])).
(** torch.rand(size) < prob, [rand] an arbitrary function (values in [0, 1)) *)
Definition rand_mask (prob : R) (rand : list nat -> R) (i : list nat) : bool := if Rlt_dec (rand i) prob then true else false.

(** augmentations.py 26-31, [SignalInverter.forward]; the returned tensor is the caller's, mutated in place.
    For a 0-d input [X.shape[:-1]] is () too: there is one draw, and [X[mask]] is the scalar itself (one entry) or nothing. *)
Definition invert (prob : R) (rand : list nat -> R) (x : tensor R) : res (tensor R) :=
  match shape x with
  | [] => Ok (if rand_mask prob rand [] then tmap (fun v => v * -1) x else x)
  | _ => let mask := rand_mask prob rand in
         Ok (mask_set mask (tmap (fun v => v * -1) (mask_get mask x)) x)
  end.
(** augmentations.py 49-54, [SignalReverser.forward] *)
Definition reverse (prob : R) (rand : list nat -> R) (x : tensor R) : res (tensor R) :=
  match shape x with
  | [] => Ok x                                     (* flipping one entry *)
  | _ => let mask := rand_mask prob rand in
         Ok (mask_set mask (flip_last (mask_get mask x)) x)
  end.
