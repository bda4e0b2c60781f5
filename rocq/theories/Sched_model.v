(** The datasets as Python generators: what happens when several iterators over one dataset are advanced in any order
    (ml4gw/dataloading/in_memory_dataset.py 209-228, chunked_dataset.py 63-136). *)
From Verif Require Import Base Tensor Slicing_model Data_model.

(** what a call of next(it) does: yields a batch, raises StopIteration, or raises an exception *)
Inductive event (B : Type) := Yield (b : B) | Stop | Raise (e : exn).
Arguments Yield {B}. Arguments Stop {B}. Arguments Raise {B}.

(** ** InMemoryDataset *)
Section Imd.
Context {A : Type}.
Variable d : imd A.
(** the suspended generator: not started, about to compute batch i with the indices drawn at the start, finished *)
Inductive igen := IFresh | IRun (indices : tensor Z) (i : nat) | IDone.
(** 216-228, from one yield to the next *)
Definition imd_resume (indices : tensor Z) (i : nat) : event (tensor A * option (tensor A)) * igen :=
  if (i <? List.length (range (imd_len d)))%nat then
    match imd_batch d indices i with Ok b => (Yield b, IRun indices (S i)) | Err e => (Raise e, IDone) end
  else (Stop, IDone).
(** next(it); [ent]: the entropy this call draws from the generator of random numbers (used by the first call only, 215) *)
Definition imd_next (ent : (list nat -> Z) * list nat) (g : igen) : event (tensor A * option (tensor A)) * igen :=
  match g with
  | IFresh => match init_indices d (fst ent) (snd ent) with Ok idx => imd_resume idx 0 | Err e => (Raise e, IDone) end
  | IRun idx i => imd_resume idx i
  | IDone => (Stop, IDone)
  end.
End Imd.

(** ** ChunkedTimeSeriesDataset *)
Section Chunked.
Context {A : Type}.
Variables (k bs bpc : nat) (coincident : bool).
(** not started; b batches of the chunk cur yielded, sample_size and idx fixed by the first chunk; finished *)
Inductive cgen := CFresh | CRun (sample_size : list nat) (idx : tensor Z) (cur : tensor A) (b : nat) | CDone.
(** 108-130, one batch of the current chunk *)
Definition chunk_resume (ent : (list nat -> Z) * (list nat -> Z)) (ss : list nat) (idx : tensor Z) (cur : tensor A) (b : nat) : event (tensor A) * cgen :=
  match shape cur with
  | [n; C; T] => match chunk_batch bs k ss idx cur n C T (fst ent) (snd ent) with
                 | Ok t => (Yield t, CRun ss idx cur (S b)) | Err e => (Raise e, CDone) end
  | _ => (Raise ValueError, CDone)
  end.
(** 132-136 and 92-107: fetch the next chunk from the source (the result contains what is left of it) *)
Fixpoint chunk_fetch (ent : (list nat -> Z) * (list nat -> Z)) (ss : list nat) (idx : tensor Z) (src : list (tensor A)) : event (tensor A) * cgen * list (tensor A) :=
  match src with
  | [] => (Stop, CDone, [])
  | ch :: src' =>
    match shape ch with
    | [n; C; T] => if (T <? k)%nat then (Raise ValueError, CDone, src')
                   else if (bpc =? 0)%nat then chunk_fetch ent ss idx src' else (chunk_resume ent ss idx ch 0, src')
    | _ => (Raise ValueError, CDone, src')
    end
  end.
(** next(it) with [src] what is left of the iterator over chunk_it *)
Definition chunked_next (ent : (list nat -> Z) * (list nat -> Z)) (src : list (tensor A)) (g : cgen) : event (tensor A) * cgen * list (tensor A) :=
  match g with
  | CFresh =>                                                                                (* 64-90 *)
    match src with
    | [] => (Raise RuntimeError, CDone, [])                                                  (* StopIteration inside a generator *)
    | ch :: src' =>
      match shape ch with
      | [_; C; T] => match chunk_base_idx bs C k T with
                     | Ok idx => chunk_fetch ent (if coincident then [bs] else [bs; C]) idx src
                     | Err e => (Raise e, CDone, src') end
      | _ => (Raise ValueError, CDone, src')
      end
    end
  | CRun ss idx cur b => if (b <? bpc)%nat then (chunk_resume ent ss idx cur b, src) else chunk_fetch ent ss idx src
  | CDone => (Stop, CDone, src)
  end.
End Chunked.
Arguments cgen : clear implicits.

(** ** several iterators at once *)
(** A schedule lists which iterator is advanced; iterators are numbered and all start fresh. [ent j n] is the entropy drawn by the
    n-th call of next on iterator j. *)
Definition upd {S} (w : nat -> S) (j : nat) (s : S) : nat -> S := fun i => if (i =? j)%nat then s else w i.
Fixpoint imd_run {A} (d : imd A) (ent : nat -> nat -> (list nat -> Z) * list nat) (sched : list nat) (w : nat -> nat * igen)
    : list (nat * event (tensor A * option (tensor A))) :=
  match sched with
  | [] => []
  | j :: s => let (ev, g) := imd_next d (ent j (fst (w j))) (snd (w j)) in (j, ev) :: imd_run d ent s (upd w j (S (fst (w j)), g))
  end.
(** chunk_it can be iterated again (a list, a DataLoader): iter(chunk_it) gives every iterator its own cursor *)
Fixpoint chunked_run {A} (k bs bpc : nat) (co : bool) (ent : nat -> nat -> (list nat -> Z) * (list nat -> Z)) (sched : list nat)
    (w : nat -> nat * cgen A * list (tensor A)) : list (nat * event (tensor A)) :=
  match sched with
  | [] => []
  | j :: s => let '(n, g, src) := w j in
              let '(ev, g', src') := chunked_next k bs bpc co (ent j n) src g in
              (j, ev) :: chunked_run k bs bpc co ent s (upd w j (S n, g', src'))
  end.
(** chunk_it is itself an iterator (a generator, a zip, ...): iter(chunk_it) is chunk_it, so all iterators share one cursor.
    Also returned: what is left of the source at the end. *)
Fixpoint oneshot_run {A} (k bs bpc : nat) (co : bool) (ent : nat -> nat -> (list nat -> Z) * (list nat -> Z)) (sched : list nat)
    (src : list (tensor A)) (w : nat -> nat * cgen A) : list (nat * event (tensor A)) * list (tensor A) :=
  match sched with
  | [] => ([], src)
  | j :: s => let '(n, g) := w j in
              let '(ev, g', src') := chunked_next k bs bpc co (ent j n) src g in
              let (l, rest) := oneshot_run k bs bpc co ent s src' (upd w j (S n, g')) in ((j, ev) :: l, rest)
  end.
