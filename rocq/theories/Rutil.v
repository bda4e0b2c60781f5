(** Finite sums of reals, and small facts on reals used everywhere. *)
From Coq Require Export Reals Lra Psatz.
From Verif Require Export Base.
Local Open Scope R_scope.

(** [Rsum n f] = f 0 + ... + f (n-1) *)
Fixpoint Rsum (n : nat) (f : nat -> R) : R := match n with O => 0 | S m => Rsum m f + f m end.

Lemma Rsum_ext n f g : (forall i, (i < n)%nat -> f i = g i) -> Rsum n f = Rsum n g.
Proof. induction n; intros H; cbn; [reflexivity|]. rewrite IHn, H by (intros; try apply H; lia). reflexivity. Qed.
Lemma Rsum_plus n f g : Rsum n (fun i => f i + g i) = Rsum n f + Rsum n g.
Proof. induction n; cbn; lra. Qed.
Lemma Rsum_minus n f g : Rsum n (fun i => f i - g i) = Rsum n f - Rsum n g.
Proof. induction n; cbn; lra. Qed.
Lemma Rsum_scal n c f : Rsum n (fun i => c * f i) = c * Rsum n f.
Proof. induction n; cbn; [lra|]. rewrite IHn. lra. Qed.
Lemma Rsum_scal_r n c f : Rsum n (fun i => f i * c) = Rsum n f * c.
Proof. induction n; cbn; [lra|]. rewrite IHn. lra. Qed.
Lemma Rsum_opp n f : Rsum n (fun i => - f i) = - Rsum n f.
Proof. induction n; cbn; lra. Qed.
Lemma Rsum_zero n : Rsum n (fun _ => 0) = 0.
Proof. induction n; cbn; lra. Qed.
Lemma Rsum_0 n f : (forall i, (i < n)%nat -> f i = 0) -> Rsum n f = 0.
Proof. intros H. rewrite (Rsum_ext _ _ (fun _ => 0)) by exact H. apply Rsum_zero. Qed.
Lemma Rsum_const n c : Rsum n (fun _ => c) = INR n * c.
Proof. induction n; [cbn; lra|]. cbn [Rsum]. rewrite IHn, S_INR. lra. Qed.
Lemma Rsum_nonneg n f : (forall i, (i < n)%nat -> 0 <= f i) -> 0 <= Rsum n f.
Proof. induction n; intros H; cbn; [lra|]. assert (0 <= f n) by (apply H; lia). assert (0 <= Rsum n f) by (apply IHn; intros; apply H; lia). lra. Qed.
Lemma Rsum_le n f g : (forall i, (i < n)%nat -> f i <= g i) -> Rsum n f <= Rsum n g.
Proof. induction n; intros H; cbn; [lra|]. assert (f n <= g n) by (apply H; lia). assert (Rsum n f <= Rsum n g) by (apply IHn; intros; apply H; lia). lra. Qed.
Lemma Rsum_app n m f : Rsum (n + m) f = Rsum n f + Rsum m (fun i => f (n + i)%nat).
Proof. induction m; [rewrite Nat.add_0_r; cbn; lra|]. rewrite Nat.add_succ_r. cbn. rewrite IHm. lra. Qed.
Lemma Rsum_S_l n f : Rsum (S n) f = f 0%nat + Rsum n (fun i => f (S i)).
Proof. change (S n) with (1 + n)%nat. rewrite Rsum_app. cbn. lra. Qed.
Lemma Rsum_swap n m (f : nat -> nat -> R) : Rsum n (fun i => Rsum m (fun j => f i j)) = Rsum m (fun j => Rsum n (fun i => f i j)).
Proof.
  induction n; cbn; [symmetry; apply Rsum_zero|]. rewrite IHn. rewrite <- Rsum_plus. reflexivity.
Qed.
Lemma Rsum_single n k f : (k < n)%nat -> (forall i, (i < n)%nat -> i <> k -> f i = 0) -> Rsum n f = f k.
Proof.
  induction n; intros Hk H; [lia|]. cbn. destruct (Nat.eq_dec k n) as [->|].
  - rewrite Rsum_0 by (intros; apply H; lia). lra.
  - rewrite IHn by (try lia; intros; apply H; lia). rewrite (H n) by lia. lra.
Qed.
Lemma Rsum_rev n f : Rsum n (fun i => f (n - 1 - i)%nat) = Rsum n f.
Proof.
  induction n; [reflexivity|]. rewrite Rsum_S_l. cbn [Rsum]. rewrite <- IHn.
  replace (S n - 1 - 0)%nat with n by lia. rewrite Rplus_comm. f_equal. apply Rsum_ext. intros i Hi. f_equal. lia.
Qed.
Lemma Rsum_pos n f : (0 < n)%nat -> (forall i, (i < n)%nat -> 0 < f i) -> 0 < Rsum n f.
Proof.
  destruct n; [lia|]. intros _ H. cbn. assert (0 <= Rsum n f) by (apply Rsum_nonneg; intros i Hi; apply Rlt_le, H; lia).
  assert (0 < f n) by (apply H; lia). lra.
Qed.
Lemma Rsum_nonneg_zero n f : (forall i, (i < n)%nat -> 0 <= f i) -> Rsum n f = 0 -> forall i, (i < n)%nat -> f i = 0.
Proof.
  induction n; intros H E i Hi; [lia|]. cbn in E.
  assert (0 <= f n) by (apply H; lia). assert (0 <= Rsum n f) by (apply Rsum_nonneg; intros; apply H; lia).
  destruct (Nat.eq_dec i n) as [->|]; [lra|]. apply IHn; try lia; [intros; apply H; lia|lra].
Qed.
(** sum over a product of index ranges, row-major *)
Lemma Rsum_mul n m f : Rsum (n * m) f = Rsum n (fun i => Rsum m (fun j => f (i * m + j)%nat)).
Proof. induction n; [reflexivity|]. cbn [Nat.mul Rsum]. rewrite Nat.add_comm, Rsum_app, IHn. reflexivity. Qed.
Lemma Rsum_INR_S n : (0 < INR (S n)).
Proof. apply lt_0_INR. lia. Qed.
Lemma INR_pos n : (0 < n)%nat -> 0 < INR n.
Proof. intros. apply lt_0_INR. lia. Qed.
