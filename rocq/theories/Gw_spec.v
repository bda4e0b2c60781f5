(** What gravitational-wave detector responses are, independently of gw.py. *)
From Coq Require Import String.
From Verif Require Import Rutil.
Local Open Scope R_scope.

(** vectors and tensors of 3-space, indexed by 0, 1, 2 *)
Definition v3 (a b c : R) (i : nat) : R := match i with 0%nat => a | 1%nat => b | _ => c end.
Definition dot3 (a b : nat -> R) : R := a 0%nat * b 0%nat + a 1%nat * b 1%nat + a 2%nat * b 2%nat.
(** unit vector towards a source at polar angle theta, azimuth phi; the two unit vectors orthogonal to it *)
Definition sky_dir (theta phi : R) := v3 (sin theta * cos phi) (sin theta * sin phi) (cos theta).
Definition sky_u (theta phi : R) := v3 (cos theta * cos phi) (cos theta * sin phi) (- sin theta).
Definition sky_v (phi : R) := v3 (- sin phi) (cos phi) 0.
(** the polarisation frame: (u, v) rotated by psi in the transverse plane (and reversed) *)
Definition pol_m (theta psi phi : R) (x : nat) : R := - (sky_u theta phi x * sin psi + sky_v phi x * cos psi).
Definition pol_n (theta psi phi : R) (x : nat) : R := - (sky_u theta phi x * cos psi - sky_v phi x * sin psi).
Definition pol_tensor (mode : string) (m n : nat -> R) (x y : nat) : R :=
  if string_dec mode "plus" then m x * m y - n x * n y else
  if string_dec mode "cross" then m x * n y + n x * m y else m x * m y + n x * n y.
(** antenna response of a detector with response tensor D *)
Definition antenna (mode : string) (theta psi phi : R) (D : nat -> nat -> R) : R :=
  Rsum 3 (fun x => Rsum 3 (fun y => pol_tensor mode (pol_m theta psi phi) (pol_n theta psi phi) x y * D x y)).
Definition known_mode (mode : string) : Prop := mode = "plus"%string \/ mode = "cross"%string \/ mode = "breathing"%string.
