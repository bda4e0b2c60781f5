(** Model of ml4gw/dataloading/hdf5_dataset.py. *)
From Verif Require Import Base.
Local Open Scope Z_scope.

(** The argument [coincident: bool | str]. *)
Inductive comode := CoTrue | CoFiles | CoFalse.
Inductive coarg := ABool (b : bool) | AStrFiles | AOther.

(** File names are numbers (compared as np.unique compares strings: a total order).
    [fs f c] is the content of dataset channels[c] of file f. *)
Record h5ds := { h_fnames : list nat; h_C : nat; h_k : nat; h_bs : nat; h_bpe : Z; h_co : comode; h_nf : Z;
                 h_sizes : list (nat * nat) }.

(** dict assignment self.sizes[fname] = size (insertion order kept, later value wins) *)
Fixpoint dict_set (f s : nat) (d : list (nat * nat)) : list (nat * nat) :=
  match d with
  | [] => [(f, s)]
  | (g, t) :: d' => if (g =? f)%nat then (g, s) :: d' else (g, t) :: dict_set f s d'
  end.
Fixpoint dict_get (f : nat) (d : list (nat * nat)) : option nat :=
  match d with [] => None | (g, t) :: d' => if (g =? f)%nat then Some t else dict_get f d' end.

(** hdf5_dataset.py 59-109, [__init__].  Missing files or datasets (OSError, KeyError) and the
    contiguous-storage warning are not modelled.  probs is determined by sizes and not stored. *)
Definition h5_create {A} (fs : nat -> nat -> list A) (fnames : list nat) (C k bs : nat) (bpe : Z) (co : coarg)
    (nf : option Z) : res h5ds :=
  let* mode := match co with
               | ABool true => Ok CoTrue | ABool false => Ok CoFalse | AStrFiles => Ok CoFiles
               | AOther => Err ValueError
               end in                                                                       (* 69-73 *)
  let nf := match nf with None => Z.of_nat (length fnames) | Some n => n end in              (* 82-84 *)
  if Z.of_nat (length fnames) <? nf then Err ValueError else                                 (* 85-89 *)
  if (C =? 0)%nat && negb (length fnames =? 0)%nat then Err IndexError else                  (* channels[0] *)
  let sizes := fold_left (fun d f => dict_set f (length (fs f 0%nat)) d) fnames [] in        (* 91-106 *)
  let total := list_sum (map snd sizes) in
  if (total =? 0)%nat && negb (length sizes =? 0)%nat then Err ZeroDivisionError else        (* 108-109 *)
  Ok {| h_fnames := fnames; h_C := C; h_k := k; h_bs := bs; h_bpe := bpe; h_co := mode; h_nf := nf; h_sizes := sizes |}.

(** hdf5_dataset.py 111-112 *)
Definition h5_len (d : h5ds) : Z := h_bpe d.

(** hdf5_dataset.py 114-133, [sample_fnames], size given as its number of entries [n].
    numpy.random.choice checks: len(a)=len(p) (violated by duplicated names: probs has one entry per
    distinct name), at least nf non-zero probabilities, non-empty population for the second draw.
    [sel]: the indices drawn without replacement; [draw p]: the entropy of the p-th draw with replacement. *)
Definition sample_fnames (d : h5ds) (sel : list nat) (draw : nat -> nat) (n : nat) : res (list nat) :=
  if negb (length (h_sizes d) =? length (h_fnames d))%nat then Err ValueError else
  if (length (h_fnames d) =? 0)%nat then Err ValueError else
  if Z.of_nat (length (filter (fun e => negb (snd e =? 0)%nat) (h_sizes d))) <? h_nf d then Err ValueError else
  if h_nf d <=? 0 then Err ValueError else
  let chosen := map (fun i => nth i (h_fnames d) 0%nat) sel in
  Ok (map (fun p => nth (draw p mod length chosen)%nat chosen 0%nat) (seq 0 n)).

(** numpy.unique: sorted distinct values, inverse positions, counts *)
Fixpoint uinsert (x : nat) (l : list nat) : list nat :=
  match l with
  | [] => [x]
  | y :: l' => if (x =? y)%nat then l else if (x <? y)%nat then x :: l else y :: uinsert x l'
  end.
Definition np_unique (l : list nat) : list nat := fold_right uinsert [] l.
Fixpoint index_of (x : nat) (l : list nat) : nat :=
  match l with [] => 0%nat | y :: l' => if (x =? y)%nat then 0%nat else S (index_of x l') end.

(** np.where(inv == i)[0] *)
Definition np_where_eq (i : nat) (inv : list nat) : list nat :=
  filter (fun p => (nth p inv 0%nat =? i)%nat) (seq 0 (length inv)).
(** np.repeat(l, n), np.concatenate([l] * n) *)
Definition np_repeat {A} (n : nat) (l : list A) : list A := flat_map (fun a => repeat a n) l.
Definition np_tile {A} (n : nat) (l : list A) : list A := concat (repeat l n).
(** np.random.randint(high, size=n): ValueError when high <= 0 (and something is drawn) *)
Definition np_randint (high : Z) (n : nat) (ent : nat -> Z) : res (list Z) :=
  if (high <=? 0) && negb (n =? 0)%nat then Err ValueError
  else Ok (map (fun j => ent j mod high) (seq 0 n)).
(** zip(a, b, c, strict=True) *)
Definition zip3 (a b : list nat) (c : list Z) : res (list (nat * nat * Z)) :=
  if ((length a =? length b) && (length b =? length c))%nat%bool then Ok (combine (combine a b) c) else Err ValueError.

(** hdf5_dataset.py 158-184: the cells (b, c) to be filled from one file and the starts drawn for them *)
Definition file_cells (d : h5ds) (inv : list nat) (i fname : nat) (ent : nat -> Z) : res (list (nat * nat * Z)) :=
  match dict_get fname (h_sizes d) with
  | None => Err KeyError
  | Some size =>
    let max_idx := Z.of_nat size - Z.of_nat (h_k d) in
    let indices := np_where_eq i inv in
    let count := length indices in
    let '(batch_indices, channel_indices) :=
      match h_co d with
      | CoFalse => (map (fun p => p / h_C d)%nat indices, map (fun p => p mod h_C d)%nat indices)
      | _ => (np_repeat (h_C d) indices, np_tile count (seq 0 (h_C d)))
      end in
    let* idx :=
      match h_co d with
      | CoTrue => let* idx := np_randint max_idx count ent in Ok (np_repeat (h_C d) idx)
      | _ => np_randint max_idx (length batch_indices) ent
      end in
    zip3 batch_indices channel_indices idx
  end.

(** The batch under construction: x b c is the row x[b, c] *)
Definition upd {V} (x : nat -> nat -> V) (b c : nat) (v : V) : nat -> nat -> V :=
  fun b' c' => if ((b' =? b) && (c' =? c))%nat%bool then v else x b' c'.

(** x[b, c] = f[channels[c]][i : i+k] (line 192): numpy broadcasts a length-1 right-hand side and
    raises ValueError for any other length than k. *)
Definition write_cell {A} (fs : nat -> nat -> list A) (k fname : nat) (w : nat * nat * Z) (x : nat -> nat -> list A)
  : res (nat -> nat -> list A) :=
  let '(b, c, i) := w in
  let row := pyslice (Some i) (Some (i + Z.of_nat k)) (fs fname c) in
  if (length row =? k)%nat then Ok (upd x b c row)
  else match row with [v] => Ok (upd x b c (repeat v k)) | _ => Err ValueError end.

Fixpoint write_cells {A} (fs : nat -> nat -> list A) (k fname : nat) (ws : list (nat * nat * Z)) x :=
  match ws with
  | [] => Ok x
  | w :: ws' => let* x := write_cell fs k fname w x in write_cells fs k fname ws' x
  end.

(** hdf5_dataset.py 155-192: the loop over the unique file names *)
Fixpoint file_loop {A} (fs : nat -> nat -> list A) (d : h5ds) (inv : list nat) (ent : nat -> nat -> Z)
    (i : nat) (ufnames : list nat) (x : nat -> nat -> list A) : res (nat -> nat -> list A) :=
  match ufnames with
  | [] => Ok x
  | f :: rest =>
    let* ws := file_cells d inv i f (ent i) in
    let* x := write_cells fs (h_k d) f ws x in
    file_loop fs d inv ent (S i) rest x
  end.

(** hdf5_dataset.py 135-193, [sample_batch].  The result is x as a function of (b, c), each row of
    h_k samples.  [zero]: the value of np.zeros.  The final float32 conversion is not modelled. *)
Definition sample_batch {A} (zero : A) (fs : nat -> nat -> list A) (d : h5ds) (sel : list nat) (draw : nat -> nat)
    (ent : nat -> nat -> Z) : res (nat -> nat -> list A) :=
  let n := match h_co d with CoFalse => (h_bs d * h_C d)%nat | _ => h_bs d end in            (* 145-148 *)
  let* fnames := sample_fnames d sel draw n in
  let u := np_unique fnames in
  let inv := map (fun f => index_of f u) fnames in                                           (* 149-154 *)
  file_loop fs d inv ent 0 u (fun _ _ => repeat zero (h_k d)).

(** hdf5_dataset.py 195-207, [__iter__]: the number of batches a worker yields.
    [None]: no worker process.  [Some (id, num_workers)]. *)
Definition h5_num_batches (d : h5ds) (worker : option (Z * Z)) : Z :=
  match worker with
  | None => h_bpe d
  | Some (id, nw) => let q := h_bpe d / nw in let r := h_bpe d mod nw in if id <? r then q + 1 else q
  end.
Definition h5_iter {A} (zero : A) (fs : nat -> nat -> list A) (d : h5ds) worker (sel : nat -> list nat)
    (draw : nat -> nat -> nat) (ent : nat -> nat -> nat -> Z) : res (list (nat -> nat -> list A)) :=
  sequence (map (fun m => sample_batch zero fs d (sel m) (draw m) (ent m)) (seq 0 (Z.to_nat (h5_num_batches d worker)))).
