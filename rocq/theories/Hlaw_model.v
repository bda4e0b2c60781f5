(** The law of the random draws of Hdf5TimeSeriesDataset (ml4gw/dataloading/hdf5_dataset.py), as finite distributions over real weights.
    Files are numbered 0..n-1 in the order of [fnames] (distinct names) and given by the lengths of their first dataset. *)
From Coq Require Import Reals List.
Import ListNotations.
From Verif Require Import Base Prob.
Local Open Scope R_scope.
Definition fsize (sizes : list nat) (i : nat) : nat := nth i sizes 0%nat.
(** 108-109: probs[i] = size_i / total *)
Definition fprob (sizes : list nat) (i : nat) : R := INR (fsize sizes i) / lsum (fun i => INR (fsize sizes i)) (seq 0 (length sizes)).
(** numpy.random.choice(idx, p, size=k, replace=False): k successive draws, each proportional to p among what is left.
    (hdf5_dataset.py 118-123. numpy draws k values at once, keeps the first occurrences in order and redraws the missing ones with the found ones removed: the same law.) *)
Fixpoint draw_norep (p : nat -> R) (k : nat) (idx : list nat) : dist (list nat) :=
  match k with
  | O => ret []
  | S k' => dbind (categorical p idx) (fun i => dbind (draw_norep p k' (remove Nat.eq_dec i idx)) (fun l => ret (i :: l)))
  end.
(** 114-133, [sample_fnames]: the subset of files of a batch; given it, every entry is drawn independently with the renormalised probabilities *)
Definition subset_law (sizes : list nat) (nf : nat) : dist (list nat) := draw_norep (fprob sizes) nf (seq 0 (length sizes)).
Definition file_given (sizes : list nat) (sel : list nat) : dist nat := categorical (fprob sizes) sel.
(** 157-181: the start is np.random.randint(size - kernel_size) *)
Definition window_given (sizes : list nat) (k : nat) (sel : list nat) : dist (nat * nat) :=
  dbind (file_given sizes sel) (fun i => dbind (uniform_nat (fsize sizes i - k)) (fun s => ret (i, s))).
(** the file and the start of one cell of a batch *)
Definition window_law (sizes : list nat) (k nf : nat) : dist (nat * nat) := dbind (subset_law sizes nf) (window_given sizes k).
(** the files of two cells of a batch that are drawn separately *)
Definition file_pair_law (sizes : list nat) (nf : nat) : dist (nat * nat) :=
  dbind (subset_law sizes nf) (fun sel => dbind (file_given sizes sel) (fun i => dbind (file_given sizes sel) (fun j => ret (i, j)))).
