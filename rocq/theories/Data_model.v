(** Model of ml4gw/dataloading/{in_memory_dataset,chunked_dataset}.py. *)
From Verif Require Import Base Tensor Slicing_model.
Local Open Scope Z_scope.

(** Python range(n) as a list *)
Definition range (n : Z) : list nat := seq 0 (Z.to_nat n).

(** ** InMemoryDataset *)
Record imd (A : Type) := {
  im_X : tensor A; im_y : option (tensor A); im_kernel : Z; im_batch : Z; im_stride : Z;
  im_bpe : option Z; im_coincident : bool; im_shuffle : bool }.
Arguments im_X {A}. Arguments im_y {A}. Arguments im_kernel {A}. Arguments im_batch {A}.
Arguments im_stride {A}. Arguments im_bpe {A}. Arguments im_coincident {A}. Arguments im_shuffle {A}.

(** in_memory_dataset.py 134-140, [num_kernels] (ZeroDivisionError for stride 0 is excluded by callers) *)
Definition num_kernels {A} (X : tensor A) (kernel stride : Z) : Z :=
  (Z.of_nat (last (shape X) 0%nat) - kernel) / stride + 1.

(** in_memory_dataset.py 77-132, [__init__].  The float32 conversion torch.Tensor(X) is not modelled. *)
Definition imd_create {A} (X : tensor A) (kernel_size : Z) (y : option (tensor A)) (batch_size stride : Z)
    (batches_per_epoch : option Z) (coincident shuffle : bool) : res (imd A) :=
  let* TX := last_dim X in
  let* _ :=
    match y with                                                                  (* 94-103 *)
    | None => Ok tt
    | Some y => let* Ty := last_dim y in
                if negb (Ty =? TX) then Err ValueError
                else if negb coincident then Err ValueError else Ok tt
    end in
  if negb coincident && match batches_per_epoch with None => true | _ => false end
  then Err ValueError else                                                         (* 105-114 *)
  let* _ :=
    match batches_per_epoch with                                                   (* 120-127 *)
    | None => Ok tt
    | Some n => if stride =? 0 then Err ZeroDivisionError
                else if num_kernels X kernel_size stride <? batch_size * n then Err ValueError else Ok tt
    end in
  Ok {| im_X := X; im_y := y; im_kernel := kernel_size; im_batch := batch_size; im_stride := stride;
        im_bpe := batches_per_epoch; im_coincident := coincident; im_shuffle := shuffle |}.

(** in_memory_dataset.py 142-156, [__len__].  len(self.X) is the number of channels. *)
Definition imd_len {A} (d : imd A) : Z :=
  match im_bpe d with
  | Some n => n
  | None =>
    let nk := num_kernels (im_X d) (im_kernel d) (im_stride d) in
    if im_coincident d then (nk - 1) / im_batch d + 1
    else (nk ^ Z.of_nat (hd 0%nat (shape (im_X d))) - 1) / im_batch d + 1
  end.

(** Rounding of a non-negative integer to IEEE binary32 (24-bit significand, ties to even):
    torch.Tensor(tuple_of_ints) stores float32. *)
Definition f32_round (n : Z) : Z :=
  if n <? 2 ^ 24 then n
  else let e := Z.log2 n - 23 in
       let q := n / 2 ^ e in let r := n mod 2 ^ e in let half := 2 ^ (e - 1) in
       if r <? half then q * 2 ^ e
       else if half <? r then (q + 1) * 2 ^ e
       else if Z.even q then q * 2 ^ e else (q + 1) * 2 ^ e.

(** in_memory_dataset.py 158-207, [init_indices].  [rng]: entropy of torch.randint.
    [perm]: the result of torch.randperm(self.num_kernels); theorems quantify over every
    permutation.  itertools.product(range(nk), ...) is all_idx (row-major). *)
Definition init_indices {A} (d : imd A) (rng : list nat -> Z) (perm : list nat) : res (tensor Z) :=
  let nk := num_kernels (im_X d) (im_kernel d) (im_stride d) in
  let n := match im_bpe d with Some b => im_batch d * b | None => nk end in         (* 166-169 *)
  let* C := py_len (im_X d) in
  if negb (im_coincident d) && im_shuffle d then                                   (* 174-185 *)
    randint_z 0 nk [n; Z.of_nat C] rng
  else if negb (im_coincident d) then                                              (* 186-196 *)
    let rows := firstn (Z.to_nat n) (all_idx (repeat (Z.to_nat nk) C)) in
    match rows with
    | [] => Err RuntimeError                                     (* torch.stack of an empty list *)
    | _ => Ok (mk [length rows; C]
                  (fun i => f32_round (Z.of_nat (nth (nth 1 i 0%nat) (nth (nth 0 i 0%nat) rows []) 0%nat))))
    end
  else if im_shuffle d then                                                        (* 197-202 *)
    if nk <? 0 then Err RuntimeError else
    let idx := pyslice None (Some n) perm in
    Ok (mk [length idx] (fun i => Z.of_nat (nth (nth 0 i 0%nat) idx 0%nat)))
  else arange n.                                                                   (* 203-205 *)

(** indices[a:b] along the first axis (a, b non-negative) *)
Definition slice0 {A} (a b : Z) (t : tensor A) : tensor A :=
  match shape t with
  | [] => t
  | d :: s =>
    let lo := Z.min a (Z.of_nat d) in let hi := Z.min b (Z.of_nat d) in
    mk (Z.to_nat (hi - lo) :: s)
       (fun i => match i with x :: i' => elt t ((x + Z.to_nat lo)%nat :: i') | [] => elt t i end)
  end.
Definition tmap {A B} (f : A -> B) (t : tensor A) : tensor B := mk (shape t) (fun i => f (elt t i)).

(** in_memory_dataset.py 209-228, [__iter__]: the whole epoch, as the list of yielded batches *)
Definition imd_batch {A} (d : imd A) (indices : tensor Z) (i : nat) : res (tensor A * option (tensor A)) :=
  let idx := tmap (fun v => v * im_stride d)
                  (slice0 (Z.of_nat i * im_batch d) ((Z.of_nat i + 1) * im_batch d) indices) in
  let* X := slice_kernels (im_X d) idx (im_kernel d) in
  match im_y d with
  | None => Ok (X, None)
  | Some y => let* yk := slice_kernels y idx (im_kernel d) in Ok (X, Some yk)
  end.
Definition imd_epoch {A} (d : imd A) rng perm : res (list (tensor A * option (tensor A))) :=
  let* indices := init_indices d rng perm in
  sequence (map (imd_batch d indices) (range (imd_len d))).

(** ** ChunkedTimeSeriesDataset *)
(** chunked_dataset.py 60-61, [__len__] *)
Definition chunked_len {A} (chunks : list (tensor A)) (batches_per_chunk : Z) : Z :=
  Z.of_nat (length chunks) * batches_per_chunk.

(** chunked_dataset.py 68-90: sample_size and the base index tensor, from the first chunk's shape.
    [C] and [T] are num_channels and chunk_size of the FIRST chunk. *)
Definition chunk_base_idx (bs C k T : nat) : res (tensor Z) :=
  let* ar := arange (Z.of_nat k) in
  let* idx := reshape [1; 1; -1] ar in
  let idx := repeat_t [bs; C; 1%nat] idx in
  let* ch := arange (Z.of_nat C) in
  let* ch := reshape [1; -1; 1] ch in
  let ch := repeat_t [bs; 1%nat; k] ch in
  bzip_inplace Z.add idx (tmap (fun v => v * Z.of_nat T) ch).

(** chunked_dataset.py 103-130: one batch from the current chunk.  [chunk] has the current
    chunk's shape [n; C; T]; [sample_size] and [idx] still come from the first chunk.
    r1, r2: entropies of the two torch.randint calls.  chunk[chunk_idx] on the flattened chunk
    is torch.take (negative indices wrap, IndexError out of range). *)
Definition chunk_batch {A} (bs k : nat) (sample_size : list nat) (idx : tensor Z) (chunk : tensor A)
    (n C T : nat) (r1 r2 : list nat -> Z) : res (tensor A) :=
  let* chunk_idx := randint 0 (Z.of_nat n) sample_size r1 in
  let chunk_idx := tmap (fun v => v * (Z.of_nat C * Z.of_nat T)) chunk_idx in
  let* chunk_idx := reshape [Z.of_nat bs; -1; 1] chunk_idx in
  let* chunk_idx := bzip Z.add chunk_idx idx in
  let* time_idx := randint 0 (Z.of_nat T - Z.of_nat k) sample_size r2 in
  let* time_idx := reshape [Z.of_nat bs; -1; 1] time_idx in
  let* chunk_idx := bzip_inplace Z.add chunk_idx time_idx in
  take chunk chunk_idx.

(** chunked_dataset.py 63-136, [__iter__]: all batches.  Entropy: rng call chunk batch.
    An empty iterator makes next(it) raise StopIteration inside a generator: RuntimeError. *)
Definition chunk_loop {A} (bs k bpc : nat) (sample_size : list nat) (idx : tensor Z)
    (rng : nat -> nat -> nat -> list nat -> Z) (m : nat) (chunk : tensor A) : res (list (tensor A)) :=
  match shape chunk with
  | [n; C; T] =>
    if (T <? k)%nat then Err ValueError                                            (* 95-99 *)
    else sequence (map (fun b => chunk_batch bs k sample_size idx chunk n C T (rng 0%nat m b) (rng 1%nat m b))
                       (seq 0 bpc))
  | _ => Err ValueError                                                            (* unpacking error *)
  end.

Definition chunked_iter {A} (chunks : list (tensor A)) (k bs bpc : nat) (coincident : bool)
    (rng : nat -> nat -> nat -> list nat -> Z) : res (list (tensor A)) :=
  match chunks with
  | [] => Err RuntimeError
  | first :: _ =>
    match shape first with
    | [_; C; T] =>
      let sample_size := if coincident then [bs] else [bs; C] in                   (* 72-75 *)
      let* idx := chunk_base_idx bs C k T in                                       (* 80-90 *)
      let* l := sequence (map (fun mc => chunk_loop bs k bpc sample_size idx rng (fst mc) (snd mc))
                              (combine (seq 0 (length chunks)) chunks)) in
      Ok (concat l)
    | _ => Err ValueError
    end
  end.
