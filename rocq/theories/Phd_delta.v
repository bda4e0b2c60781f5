(** Property C57: the polynomial of the intermediate amplitude meets its five conditions. *)
From Coq Require Import Reals Lra.
From Coquelicot Require Import Coquelicot.
From Verif Require Import Phd_fits.
Local Open Scope R_scope.
Section D.
Variable f1 f2 f3 v1 v2 v3 d1 d2 : R.
Hypothesis H12 : f1 <> f2. Hypothesis H13 : f1 <> f3. Hypothesis H23 : f2 <> f3.
Definition quartic (f : R -> R -> R -> R -> R -> R -> R -> R -> R) : R := f f1 f2 f3 v1 v2 v3 d1 d2.
Definition poly (x : R) : R := quartic delta_0 + x * quartic delta_1 + x ^ 2 * (quartic delta_2 + x * quartic delta_3 + x ^ 2 * quartic delta_4).
Definition dpoly (x : R) : R := quartic delta_1 + x * (2 * quartic delta_2 + 3 * x * quartic delta_3 + 4 * x ^ 2 * quartic delta_4).
Lemma poly_derive x : is_derive poly x (dpoly x).
Proof. unfold poly, dpoly. set (q0 := quartic delta_0). set (q1 := quartic delta_1). set (q2 := quartic delta_2). set (q3 := quartic delta_3). set (q4 := quartic delta_4). clearbody q0 q1 q2 q3 q4. auto_derive; [exact I|ring]. Qed.
Lemma dpoly_ex x : ex_derive dpoly x.
Proof. unfold dpoly. set (q1 := quartic delta_1). set (q2 := quartic delta_2). set (q3 := quartic delta_3). set (q4 := quartic delta_4). clearbody q1 q2 q3 q4. auto_derive. exact I. Qed.
Lemma nz : f1 - f2 <> 0 /\ f1 - f3 <> 0 /\ - f2 + f3 <> 0 /\ f3 - f2 <> 0. Proof. repeat split; lra. Qed.
Ltac go := pose proof nz; unfold poly, dpoly, quartic, delta_0, delta_1, delta_2, delta_3, delta_4; cbv zeta; field; tauto.
Theorem delta_at_f1 : poly f1 = v1. Proof. go. Qed.
Theorem delta_at_f2 : poly f2 = v2. Proof. go. Qed.
Theorem delta_at_f3 : poly f3 = v3. Proof. go. Qed.
Theorem delta_slope_f1 : dpoly f1 = d1. Proof. go. Qed.
Theorem delta_slope_f3 : dpoly f3 = d2. Proof. go. Qed.
End D.
