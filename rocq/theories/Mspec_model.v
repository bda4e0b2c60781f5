(** Model of ml4gw/transforms/spectrogram.py (MultiResolutionSpectrogram).
    torchaudio's Spectrogram is a parameter: [spec_of] maps one keyword dictionary to a spectrogram transform or an error. *)
From Coq Require Import String.
From Verif Require Import Base Tensor Rutil Slicing_model Norm_model Gw_model Qt_model.
Local Open Scope R_scope.

(** a spectrogram transform: acts on the last axis; [sp_nf] frequency bins, [sp_nt len] time bins for an input of len
    samples, [sp_row len x f t] the value of bin (f, t) for the row x *)
Record spectro := mksp { sp_nf : nat; sp_nt : nat -> nat; sp_row : nat -> (nat -> R) -> nat -> nat -> R }.
Definition run_spec (t : spectro) (X : tensor R) : tensor R :=
  let n := last (shape X) 0%nat in let pre := removelast (shape X) in
  mk (pre ++ [sp_nf t; sp_nt t n])
     (fun i => sp_row t n (fun s => elt X (firstn (List.length pre) i ++ [s])) (nth (List.length pre) i 0%nat) (nth (S (List.length pre)) i 0%nat)).

(** ** keyword handling *)
(** list(set(l)) for two distinct non-negative (hash = value) ints a < b inserted in this order in CPython's 8-slot table
    (Objects/setobject.c, set_add_entry: slot h & 7, then, as 8 slots leave no room for the 9 linear probes,
    perturb >>= 5, i = (i * 5 + 1 + perturb) & 7 until a free slot): iteration is by increasing slot *)
Fixpoint probe (fuel : nat) (taken perturb i : Z) : Z :=
  match fuel with
  | O => i
  | S k => if (i =? taken)%Z then let p := (perturb / 32)%Z in probe k taken p ((i * 5 + 1 + p) mod 8)%Z else i
  end.
Definition slot2 (a b : Z) : Z := probe 64 (a mod 8)%Z b (b mod 8)%Z.
Definition set_pair (a b : Z) : Z * Z := if (slot2 a b <? a mod 8)%Z then (b, a) else (a, b).
(** sorted, distinct lengths (107-108): the set's elements; only for exactly two of them does the order matter *)
Definition lengths {V} (kwargs : list (string * list V)) : list Z :=
  zunique (map (fun kv => Z.of_nat (List.length (snd kv))) kwargs).
Definition repeat_list {V} (n : nat) (v : list V) : list V := concat (repeat v n).
(** zip( *kwargs.values(), strict=True ) of lists, re-keyed: 129-132; ValueError for unequal lengths *)
Definition zip_cols {V} (kwargs : list (string * list V)) : res (list (list (string * V))) :=
  match kwargs with
  | [] => Ok []
  | (_, v0) :: _ =>
    if forallb (fun kv => List.length (snd kv) =? List.length v0)%nat kwargs
    then Ok (map (fun j => flat_map (fun kv => match nth_error (snd kv) j with Some x => [(fst kv, x)] | None => [] end) kwargs) (seq 0 (List.length v0)))
    else Err ValueError
  end.
(** 106-132, [_check_and_format_kwargs] (the warning is not modelled); lengths[-1] of an empty list is an IndexError *)
Definition format_kwargs {V} (kwargs : list (string * list V)) : res (list (list (string * V))) :=
  match lengths kwargs with
  | [] => Err IndexError
  | [_] => zip_cols kwargs
  | [a; b] =>
    let '(x, y) := set_pair a b in
    if (x =? 1)%Z then                                                                        (* 119-123 *)
      zip_cols (map (fun kv => (fst kv, repeat_list (Z.to_nat (y / Z.of_nat (List.length (snd kv)))) (snd kv))) kwargs)  (* 125-127 *)
    else Err ValueError
  | _ => Err ValueError
  end.
(** 52-60: "normalized" must be all true, and is added as [True] if absent *)
Definition add_normalized {V} (truthy : V -> bool) (vtrue : V) (kwargs : list (string * list V)) : res (list (string * list V)) :=
  match List.find (fun kv => if string_dec (fst kv) "normalized" then true else false) kwargs with
  | Some (_, v) => if forallb truthy v then Ok kwargs else Err ValueError
  | None => Ok (kwargs ++ [("normalized"%string, [vtrue])])
  end.

(** ** construction (45-104) *)
Record mrs := mkmrs { mr_size : R; mr_specs : list spectro; mr_shapes : list (nat * nat); mr_nf : nat; mr_nt : nat }.
Definition nmax (l : list nat) : nat := fold_right Nat.max 0%nat l.
Definition mrs_create {V} (truthy : V -> bool) (vtrue : V) (spec_of : list (string * V) -> res spectro)
    (kernel_length sample_rate : R) (kwargs : list (string * list V)) : res mrs :=
  let* kwargs := add_normalized truthy vtrue kwargs in
  let* ks := format_kwargs kwargs in
  let* ts := sequence (map spec_of ks) in                                                     (* 63-65 *)
  let n := Z.to_nat (rtrunc (kernel_length * sample_rate)) in                                 (* 67; a negative size is a RuntimeError *)
  if (rtrunc (kernel_length * sample_rate) <? 0)%Z then Err RuntimeError else
  let shapes := map (fun t => (sp_nf t, sp_nt t n)) ts in                                     (* 68-70 *)
  match shapes with
  | [] => Err ValueError                                                                      (* max([]), 72 *)
  | _ => Ok (mkmrs (kernel_length * sample_rate) ts shapes (nmax (map fst shapes)) (nmax (map snd shapes)))  (* 72-73 *)
  end.
(** 88-101: int(i * n / N) with the tensor division; exact (the floor of the quotient) as long as i * n is below 2^24,
    which is assumed here *)
Definition remap (n N i : nat) : nat := (i * n / N)%nat.

(** ** forward (134-174) *)
(** F.pad(x, (0, r, 0, b)): zeros to the right and below *)
Definition pad_br (r b : nat) (x : tensor R) : tensor R :=
  let nd := List.length (shape x) in
  let H := nth (nd - 2) (shape x) 0%nat in let W := nth (nd - 1) (shape x) 0%nat in
  mk (firstn (nd - 2) (shape x) ++ [(H + b)%nat; (W + r)%nat])
     (fun i => if ((nth (nd - 2) i 0 <? H) && (nth (nd - 1) i 0 <? W))%nat then elt x i else 0).
(** padded[..., freq_idxs, time_idxs] of a stack (K, pre, F, T) with index arrays of shape (F, T, K) *)
Definition gather_fk (m : mrs) (x : tensor R) : tensor R :=
  let K := List.length (mr_shapes m) in let nd := List.length (shape x) in
  mk (firstn (nd - 2) (shape x) ++ [mr_nf m; mr_nt m; K])
     (fun i => let pre := firstn (nd - 2) i in
               let f := nth (nd - 2) i 0%nat in let t := nth (nd - 1) i 0%nat in let k := nth nd i 0%nat in
               elt x (pre ++ [remap (fst (nth k (mr_shapes m) (0, 0)%nat)) (mr_nf m) f; remap (snd (nth k (mr_shapes m) (0, 0)%nat)) (mr_nt m) t])).
(** torch.diagonal(x, dim1=0, dim2=-1) of a (K, pre, K) tensor *)
Definition diag_0_last (x : tensor R) : tensor R := mk (tl (shape x)) (fun i => elt x (last i 0%nat :: i)).
Definition mrs_forward (m : mrs) (X : tensor R) : res (tensor R) :=
  if (ndim X =? 0)%nat then Err IndexError else
  if Req_EM_T (INR (last (shape X) 0%nat)) (mr_size m) then
    let specs := map (fun t => run_spec t X) (mr_specs m) in                                  (* 157 *)
    let padded := map (fun p => pad_br (mr_nt m - snd (fst p)) (mr_nf m - fst (fst p)) (snd p)) (combine (mr_shapes m) specs) in (* 75-84, 159-168 *)
    let* st := stack_at0 padded in                                                            (* 170 *)
    max_last (diag_0_last (gather_fk m st))                                                   (* 171-174 *)
  else Err ValueError.                                                                        (* 150-155 *)
