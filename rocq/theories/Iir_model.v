(** Model of ml4gw/transforms/iirfilter.py 87-99: the forward pass, given the coefficients b (numerator) and a (denominator).
    The design of the coefficients (scipy.signal.iirfilter, 73-85) is not modelled: a and b are arbitrary. Real arithmetic. *)
From Verif Require Import Base Tensor Rutil.
Local Open Scope R_scope.

(** torchaudio.functional.lfilter: direct form with zero initial state. [lf_hist n] lists the first n outputs, latest first. *)
Fixpoint lf_hist (a b : list R) (x : nat -> R) (n : nat) : list R :=
  match n with
  | O => []
  | S m =>
    let h := lf_hist a b x m in
    let ff := Rsum (List.length b) (fun j => if (j <=? m)%nat then nth j b 0 * x (m - j)%nat else 0) in
    let fb := Rsum (List.length a - 1) (fun j => nth (j + 1) a 0 * nth j h 0) in
    (ff - fb) / nth 0 a 0 :: h
  end.
Definition lfilter (a b : list R) (x : nat -> R) (t : nat) : R := nth 0 (lf_hist a b x (S t)) 0.
(** torchaudio.functional.filtfilt(x, a, b, clamp=False) on a series of n samples: filter, flip, filter, flip *)
Definition flip (n : nat) (x : nat -> R) (t : nat) : R := x (n - 1 - t)%nat.
Definition filtfilt (a b : list R) (n : nat) (x : nat -> R) (t : nat) : R := flip n (lfilter a b (flip n (lfilter a b x))) t.
(** 88-99: every series along the last axis; lfilter raises ValueError when a and b have different sizes *)
Definition iir_forward (a b : list R) (x : tensor R) : res (tensor R) :=
  if (List.length a =? List.length b)%nat then
    Ok (mk (shape x) (fun i => filtfilt a b (last (shape x) 0%nat) (fun t => elt x (removelast i ++ [t])) (last i 0%nat)))
  else Err ValueError.
