(** The law of torch's random draws, as finite distributions, and the law of what sample_kernels, the augmentations,
    InMemoryDataset and SnrRescaler return.  The functions themselves are the models of utils/slicing.py,
    augmentations.py, dataloading/in_memory_dataset.py run on random entropy. *)
From Coq Require Import Reals List ZArith Permutation.
Import ListNotations.
From Verif Require Import Base Tensor Slicing_model Data_model Norm_model Prob.
Local Open Scope R_scope.
(** one machine word, all of 0..M-1 equally likely (torch: M = 2^32, or 2^64 for ranges of at least 2^32) *)
Definition word_law (M : nat) : dist Z := map (fun w => (/ INR M, Z.of_nat w)) (seq 0 M).
(** torch.rand: k / N with all k < N equally likely (float32: N = 2^24) *)
Definition rand_law (N : nat) : dist R := map (fun k => (/ INR N, INR k / INR N)) (seq 0 N).
(** independent draws of [d], one for each of the listed cells *)
Fixpoint field_law {A} (d : dist A) (a0 : A) (cells : list (list nat)) : dist (list nat -> A) :=
  match cells with
  | [] => ret (fun _ => a0)
  | i :: l => dbind d (fun a => dbind (field_law d a0 l) (fun f => ret (fun j => if list_eq_dec Nat.eq_dec j i then a else f j)))
  end.
(** torch.randperm(n): successive draws, each uniform among the values that are left *)
Fixpoint shuffle_law (k : nat) (left : list nat) : dist (list nat) :=
  match k with
  | O => ret []
  | S k' => dbind (categorical (fun _ => 1) left) (fun i => dbind (shuffle_law k' (remove Nat.eq_dec i left)) (fun l => ret (i :: l)))
  end.
Definition perm_law (n : nat) : dist (list nat) := shuffle_law n (seq 0 n).

(** slicing.py 234-370: the result of sample_kernels, its one call to torch.randint reading one word for each cell of [size] *)
Definition sample_law {A} (M : nat) (size : list nat) (X : tensor A) (k : Z) (N off : option Z) (co : bool) : dist (res (tensor A * tensor Z)) :=
  dbind (field_law (word_law M) 0%Z (all_idx size)) (fun rng => ret (sample_kernels X k N off co rng)).
(** augmentations.py 26-31 and 49-54: one torch.rand value for each series *)
Definition invert_law (N : nat) (prob : R) (x : tensor R) : dist (res (tensor R)) :=
  dbind (field_law (rand_law N) 0 (all_idx (removelast (shape x)))) (fun rand => ret (invert prob rand x)).
Definition reverse_law (N : nat) (prob : R) (x : tensor R) : dist (res (tensor R)) :=
  dbind (field_law (rand_law N) 0 (all_idx (removelast (shape x)))) (fun rand => ret (reverse prob rand x)).
(** in_memory_dataset.py 158-207: the indices of an epoch when shuffling, [rows] and [nk] the numbers of rows and of kernels *)
Definition epoch_indices_law {A} (M nk : nat) (size : list nat) (d : imd A) : dist (res (tensor Z)) :=
  dbind (field_law (word_law M) 0%Z (all_idx size)) (fun rng => dbind (perm_law nk) (fun perm => ret (init_indices d rng perm))).
(** chunked_dataset.py 103-130: one batch of ChunkedTimeSeriesDataset from a chunk; the two calls to torch.randint read independent words *)
Definition chunk_law {A} (M : nat) (size : list nat) (chunk : tensor A) (k bs : nat) (co : bool) : dist (res (list (tensor A))) :=
  dbind (field_law (word_law M) 0%Z (all_idx size)) (fun r1 => dbind (field_law (word_law M) 0%Z (all_idx size)) (fun r2 =>
    ret (chunked_iter [chunk] k bs 1 co (fun call _ _ => match call with O => r1 | _ => r2 end)))).
