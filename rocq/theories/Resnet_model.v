(** Model of ml4gw/nn/resnet/resnet_1d.py and resnet_2d.py (the same code over one or two spatial axes: a tensor has
    shape batch :: channels :: spatial sizes; cited lines are those of resnet_1d.py).  The number of spatial sizes is 1 for
    ResNet1D and 2 for ResNet2D: inputs of another rank (torch would read them as unbatched) are not modelled.
    The arithmetic of every convolution, normalisation and of the head is an arbitrary function of its input ([W path],
    [Nf path]: weights by position in the network); their shapes, ReLU and the residual additions are modelled.
    [nl] says whether norm_layer(channels) can be built; its forward keeps the shape. *)
From Coq Require Import Reals Lra.
From Verif Require Import Base Tensor Rutil.
Local Open Scope nat_scope.

Definition arith := tensor R -> list nat -> R.
(** nn.Conv1d / nn.Conv2d *)
Record conv := mkconv { c_in : nat; c_out : nat; c_k : nat; c_s : nat; c_p : nat; c_d : nat; c_g : nat; c_f : arith }.
(** their constructors: ValueError unless groups is positive and divides both channel counts *)
Definition nn_conv (cin cout k s p d g : nat) (f : arith) : res conv :=
  if g =? 0 then Err ValueError else if negb (cin mod g =? 0) then Err ValueError else if negb (cout mod g =? 0) then Err ValueError
  else Ok (mkconv cin cout k s p d g f).
(** 20-41, [convN] *)
Definition convN (cin cout k s g d : nat) (f : arith) : res conv :=
  if k mod 2 =? 0 then Err ValueError else nn_conv cin cout k s (d * (k / 2)) d g f.
(** 44-48, [conv1] *)
Definition conv1 (cin cout s : nat) (f : arith) : res conv := nn_conv cin cout 1 s 0 1 1 f.
(** one spatial axis of a convolution or pooling: RuntimeError when the dilated kernel exceeds the padded input *)
Definition csize (k s p d n : nat) : res nat :=
  if n + 2 * p <? d * (k - 1) + 1 then Err RuntimeError else Ok ((n + 2 * p - d * (k - 1) - 1) / s + 1).
Definition conv_apply (c : conv) (x : tensor R) : res (tensor R) :=
  match shape x with
  | B :: ch :: sp => if ch =? c_in c then let* sp' := sequence (map (csize (c_k c) (c_s c) (c_p c) (c_d c)) sp) in Ok (mk (B :: c_out c :: sp') (c_f c x)) else Err RuntimeError
  | _ => Err RuntimeError end.
Definition maxpool (k s p : nat) (f : arith) (x : tensor R) : res (tensor R) :=
  match shape x with
  | B :: ch :: sp => let* sp' := sequence (map (csize k s p 1) sp) in Ok (mk (B :: ch :: sp') (f x))
  | _ => Err RuntimeError end.
Definition same_shape (f : arith) (x : tensor R) : tensor R := mk (shape x) (f x).
Definition relu (x : tensor R) : tensor R := mk (shape x) (fun i => Rmax 0 (elt x i)).

(** a residual block: the (convolution, norm) pairs of the main path, and of the downsample path if any *)
Record blk := mkblk { b_main : list (conv * arith); b_down : option (conv * arith) }.
Inductive kind := Basic | Bottle.
Definition expansion (kd : kind) : nat := match kd with Basic => 1 | Bottle => 4 end.      (* 54, 119 *)

Section Net.
Variable W Nf : list nat -> arith.
Variable nl : nat -> res unit.
(** 56-88, [BasicBlock.__init__] *)
Definition basic_block (path : list nat) (inplanes planes k stride : nat) (down : option (conv * arith)) (groups base_width dilation : nat) : res blk :=
  if negb ((groups =? 1) && (base_width =? 64)) then Err ValueError else                    (* 71-74 *)
  if 1 <? dilation then Err NotImplementedError else                                        (* 75-78 *)
  let* c1 := convN inplanes planes k stride 1 1 (W (path ++ [1])) in let* _ := nl planes in
  let* c2 := convN planes planes k 1 1 1 (W (path ++ [2])) in let* _ := nl planes in
  Ok (mkblk [(c1, Nf (path ++ [1])); (c2, Nf (path ++ [2]))] down).
(** 121-157, [Bottleneck.__init__]; planes * base_width is a multiple of 64 for the planes the network uses, so int() is exact *)
Definition bottleneck (path : list nat) (inplanes planes k stride : nat) (down : option (conv * arith)) (groups base_width dilation : nat) : res blk :=
  let width := planes * base_width / 64 * groups in
  let* c1 := convN inplanes width k 1 1 1 (W (path ++ [1])) in let* _ := nl width in
  let* c2 := convN width width k stride groups dilation (W (path ++ [2])) in let* _ := nl width in
  let* c3 := conv1 width (planes * 4) 1 (W (path ++ [3])) in let* _ := nl (planes * 4) in
  Ok (mkblk [(c1, Nf (path ++ [1])); (c2, Nf (path ++ [2])); (c3, Nf (path ++ [3]))] down).
Definition block (kd : kind) := match kd with Basic => basic_block | Bottle => bottleneck end.

(** 90-106 and 159-179, [forward] of both blocks *)
Fixpoint main_path (l : list (conv * arith)) (x : tensor R) : res (tensor R) :=
  match l with
  | [] => Ok x
  | [(c, n)] => let* y := conv_apply c x in Ok (same_shape n y)
  | (c, n) :: l => let* y := conv_apply c x in main_path l (relu (same_shape n y))
  end.
Definition block_forward (b : blk) (x : tensor R) : res (tensor R) :=
  let* out := main_path (b_main b) x in
  let* identity := match b_down b with Some (c, n) => let* y := conv_apply c x in Ok (same_shape n y) | None => Ok x end in
  let* out := bzip_inplace Rplus out identity in
  Ok (relu out).

Inductive stype := SStride | SDilation | SOther.
(** 334-387, [_make_layer] on the state (self.inplanes, self.dilation) *)
Definition make_layer (kd : kind) (path : list nat) (groups base_width : nat) (st : nat * nat) (planes blocks k stride : nat) (ty : stype) : res (list blk * (nat * nat)) :=
  let (inplanes, previous_dilation) := st in
  let* ds := match ty with                                                                  (* 347-351 *)
             | SDilation => Ok (previous_dilation * stride, 1) | SStride => Ok (previous_dilation, stride) | SOther => Err ValueError end in
  let (dilation, stride) := (ds : nat * nat) in
  let out := planes * expansion kd in
  let* down := if negb (stride =? 1) || negb (inplanes =? out) then                          (* 353-357 *)
                 let* c := conv1 inplanes out stride (W (path ++ [0; 0])) in let* _ := nl out in Ok (Some (c, Nf (path ++ [0; 0])))
               else Ok None in
  let* first := block kd (path ++ [0]) inplanes planes k stride down groups base_width previous_dilation in   (* 359-372 *)
  let* rest := sequence (map (fun j => block kd (path ++ [j]) out planes k 1 None groups base_width dilation) (seq 1 (blocks - 1))) in   (* 374-385 *)
  Ok (first :: rest, (out, dilation)).

Record net := mknet { n_stem : conv; n_layers : list (list blk); n_fc : nat; n_classes : nat }.
(** 291-301: the loop over layers[1:] and stride_type, [i] counting from 0 *)
Fixpoint more_layers (kd : kind) (groups base_width k : nat) (i : nat) (st : nat * nat) (l : list (nat * stype)) : res (list (list blk)) :=
  match l with
  | [] => Ok []
  | (nb, ty) :: l =>
    let* r := make_layer kd [S i] groups base_width st (64 * 2 ^ (i + 1)) nb k 2 ty in
    let* rest := more_layers kd groups base_width k (S i) (snd r) l in
    Ok (fst r :: rest)
  end.
(** 232-332, [__init__]; the initial state is inplanes 64, dilation 1 *)
Definition resnet_create (kd : kind) (in_channels : nat) (layers : list nat) (classes k groups base_width : nat) (stride_type : option (list stype)) : res net :=
  let sts := match stride_type with Some s => s | None => repeat SStride (List.length layers - 1) end in
  if negb (Z.of_nat (List.length sts) =? Z.of_nat (List.length layers) - 1)%Z then Err ValueError else   (* 255-263 *)
  let* stem := nn_conv in_channels 64 7 2 3 1 1 (W []) in let* _ := nl 64 in                (* 271-279 *)
  match layers with
  | [] => Err IndexError
  | nb :: rest =>
    let* r := make_layer kd [0] groups base_width (64, 1) 64 nb k 1 SStride in              (* 290 *)
    let* more := more_layers kd groups base_width k 0 (snd r) (combine rest sts) in
    match rest with
    | [] => Err UnboundLocalError                                                           (* 311: block_size is never assigned *)
    | _ => Ok (mknet stem (fst r :: more) (64 * 2 ^ List.length rest * expansion kd) classes)
    end
  end.

Fixpoint layer_forward (l : list blk) (x : tensor R) : res (tensor R) :=
  match l with [] => Ok x | b :: l => let* y := block_forward b x in layer_forward l y end.
Fixpoint layers_forward (l : list (list blk)) (x : tensor R) : res (tensor R) :=
  match l with [] => Ok x | b :: l => let* y := layer_forward b x in layers_forward l y end.
(** the feature map entering the average pool: 391-397 *)
Definition features (n : net) (x : tensor R) : res (tensor R) :=
  let* x := conv_apply (n_stem n) x in
  let x := relu (same_shape (Nf []) x) in
  let* x := maxpool 3 2 1 (W [1]) x in
  layers_forward (n_layers n) x.
(** 399-403: the pooled map is flattened to (batch, channels) and goes through nn.Linear *)
Definition resnet_forward (n : net) (x : tensor R) : res (tensor R) :=
  let* x := features n x in
  match shape x with
  | B :: ch :: _ => if ch =? n_fc n then Ok (mk [B; n_classes n] (W [2] x)) else Err RuntimeError
  | _ => Err RuntimeError end.
End Net.
