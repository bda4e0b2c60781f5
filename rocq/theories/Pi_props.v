(** C111 (pi): the literal of constants.py against the real number pi, and the parsec. *)
From Coq Require Import Reals Lra Lia ZArith QArith Qreals.
From Verif Require Import Base Conv_model.
Local Open Scope R_scope.
(** Machin-like partial sums with rational arithmetic *)
Fixpoint qpow (x : Q) (n : nat) : Q := match n with O => 1 | S n' => (x * qpow x n')%Q end.
Definition qterm (n : nat) : Q := (qpow (-1) n * (2 * qpow (1 # 3) (2 * n + 1) + qpow (1 # 7) (2 * n + 1)) * (1 # Pos.of_nat (2 * n + 1)))%Q.
Fixpoint qsum (n : nat) : Q := match n with O => Qred (qterm 0) | S n' => Qred (qsum n' + qterm n) end.
Lemma Q2R_red q : Q2R (Qred q) = Q2R q. Proof. apply Qeq_eqR, Qred_correct. Qed.
Lemma Q2R_pow x n : Q2R (qpow x n) = Q2R x ^ n.
Proof. induction n as [|n IH]; cbn [qpow pow]; [unfold Q2R; cbn; lra|]. rewrite Q2R_mult, IH. reflexivity. Qed.
Lemma Q2R_inv_pos p : Q2R (1 # p) = / IZR (Z.pos p). Proof. unfold Q2R. cbn [Qnum Qden]. ring. Qed.
Lemma qterm_R n : Q2R (qterm n) = tg_alt PI_2_3_7_tg n.
Proof.
  unfold qterm, tg_alt, PI_2_3_7_tg, Ratan_seq. rewrite !Q2R_mult, Q2R_plus, Q2R_mult, !Q2R_pow, !Q2R_inv_pos.
  assert (E : INR (2 * n + 1) = IZR (Z.pos (Pos.of_nat (2 * n + 1)))). { rewrite INR_IZR_INZ. f_equal. rewrite <- positive_nat_Z. f_equal. symmetry. apply Nat2Pos.id. lia. }
  rewrite <- E. replace (Q2R (-1)) with (-1) by (unfold Q2R; cbn; lra). replace (Q2R 2) with 2 by (unfold Q2R; cbn; lra). unfold Rdiv. ring.
Qed.
Lemma qsum_R n : Q2R (qsum n) = sum_f_R0 (tg_alt PI_2_3_7_tg) n.
Proof. induction n as [|n IH]; cbn [qsum sum_f_R0]; rewrite Q2R_red; [apply qterm_R|]. rewrite Q2R_plus, IH, qterm_R. reflexivity. Qed.
(** the literal PI = 3.141592653589793238462643383279502884 (line 20) *)
Definition PI_literal : R := 3141592653589793238462643383279502884 / 10 ^ 36.
Definition PI_Q : Q := 3141592653589793238462643383279502884 # 10 ^ 36.
Theorem pi_literal : Rabs (PI_literal - PI) <= 1 / 10 ^ 36.
Proof.
  destruct (PI_2_3_7_ineq 20) as [L U]. change (S (2 * 20)) with 41%nat in L. change (2 * 20)%nat with 40%nat in U. rewrite <- qsum_R in L, U.
  assert (LQ : (((PI_Q - (1 # 10 ^ 36)) * (1 # 4)) <= qsum 41)%Q) by (apply Qle_bool_iff; vm_compute; reflexivity).
  assert (UQ : (qsum 40 <= ((PI_Q + (1 # 10 ^ 36)) * (1 # 4)))%Q) by (apply Qle_bool_iff; vm_compute; reflexivity).
  apply Qle_Rle in LQ, UQ. rewrite Q2R_mult, Q2R_minus in LQ. rewrite Q2R_mult, Q2R_plus in UQ.
  assert (D : IZR (Z.pos (10 ^ 36)) = 10 ^ 36) by (rewrite pow_IZR; apply f_equal; vm_compute; reflexivity).
  assert (E1 : Q2R PI_Q = PI_literal) by (unfold PI_Q, PI_literal, Q2R; cbn [Qnum Qden]; rewrite D; unfold Rdiv; reflexivity).
  assert (E2 : Q2R (1 # 10 ^ 36) = 1 / 10 ^ 36) by (unfold Q2R; cbn [Qnum Qden]; rewrite D; unfold Rdiv; reflexivity).
  assert (E3 : Q2R (1 # 4) = / 4) by (unfold Q2R; cbn [Qnum Qden]; lra). rewrite E1, E2, E3 in LQ. rewrite E1, E2, E3 in UQ. set (s1 := Q2R (qsum 41)) in *. set (s2 := Q2R (qsum 40)) in *. set (e := 1 / 10 ^ 36) in *.
  clearbody s1 s2 e. clear E1 E2. apply Rabs_le. lra.
Qed.
(** the parsec is 648000/pi astronomical units of 149597870700 m *)
Theorem parsec_literal : Rabs (m_per_Mpc - 10 ^ 6 * (648000 / PI * 149597870700)) <= 1 / 10 ^ 12.
Proof.
  pose proof pi_literal as P. assert (H : -(1 / 10 ^ 36) <= PI_literal - PI <= 1 / 10 ^ 36) by (apply Rabs_le_inv || (unfold Rabs in P; destruct (Rcase_abs (PI_literal - PI)); lra)).
  assert (PP := PI_RGT_0). set (A := 10 ^ 6 * 648000 * 149597870700). replace (10 ^ 6 * (648000 / PI * 149597870700)) with (A / PI) by (unfold A; field; lra).
  assert (E : m_per_Mpc - A / PI = (m_per_Mpc * PI - A) / PI) by (field; lra). rewrite E. unfold Rdiv. rewrite Rabs_mult, (Rabs_right (/ PI)) by (left; apply Rinv_0_lt_compat, PP).
  assert (B : Rabs (m_per_Mpc * PI - A) <= 3 / 10 ^ 12). { apply Rabs_le. unfold m_per_Mpc, A. unfold PI_literal in H. lra. }
  assert (P3 : 3 < PI) by (unfold PI_literal in H; lra).
  assert (I3 : / PI <= / 3) by (apply Rinv_le_contravar; lra). assert (I0 : 0 < / PI) by (apply Rinv_0_lt_compat, PP). assert (A0 := Rabs_pos (m_per_Mpc * PI - A)).
  set (x := Rabs (m_per_Mpc * PI - A)) in *. apply Rle_trans with (3 / 10 ^ 12 * / 3); [apply Rmult_le_compat; lra|lra].
Qed.
