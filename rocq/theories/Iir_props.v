(** Property C73: IIRFilter is a linear, self-adjoint, positive (zero-phase) operator on each series. *)
From Verif Require Import Base Tensor Rutil Iir_model.
Local Open Scope R_scope.

Section Filter.
Variables a b : list R.
Lemma lf_hist_nth x n j : (j < n)%nat -> nth j (lf_hist a b x n) 0 = lfilter a b x (n - 1 - j).
Proof.
  revert j. induction n as [|n IH]; intros j Hj; [lia|]. destruct j as [|j].
  - unfold lfilter. replace (S n - 1 - 0)%nat with n by lia. reflexivity.
  - cbn [lf_hist]. cbn [nth]. rewrite IH by lia. f_equal. lia.
Qed.
Lemma lf_hist_length x n : List.length (lf_hist a b x n) = n.
Proof. induction n; cbn [lf_hist List.length]; [reflexivity|rewrite IHn; reflexivity]. Qed.
(** the difference equation, with zero initial state *)
Definition past (k : list R) (x : nat -> R) (t j : nat) : R := if (j <=? t)%nat then nth j k 0 * x (t - j)%nat else 0.
Lemma lfilter_eq x t : lfilter a b x t = (Rsum (List.length b) (past b x t) - Rsum (List.length a - 1) (fun j => past a (lfilter a b x) t (j + 1))) / nth 0 a 0.
Proof.
  unfold lfilter at 1. cbn [lf_hist nth]. f_equal. f_equal. apply Rsum_ext. intros j Hj. unfold past.
  destruct (j + 1 <=? t)%nat eqn:E; [apply Nat.leb_le in E; rewrite lf_hist_nth by lia; do 2 f_equal; lia|].
  apply Nat.leb_gt in E. rewrite (nth_overflow (lf_hist a b x t)) by (rewrite lf_hist_length; lia). ring.
Qed.
Theorem lfilter_difference x t : nth 0 a 0 <> 0 -> Rsum (List.length a) (past a (lfilter a b x) t) = Rsum (List.length b) (past b x t).
Proof.
  intros H. pose proof (lfilter_eq x t) as E. destruct a as [|a0 a']; [exfalso; apply H; reflexivity|]. cbn [List.length] in *. rewrite Rsum_S_l. unfold past at 1. cbn [Nat.leb]. rewrite Nat.sub_0_r. rewrite E. rewrite Nat.sub_succ, Nat.sub_0_r. clear E.
  replace (0 <=? t)%nat with true by reflexivity.
  rewrite (Rsum_ext _ (fun i => past (a0 :: a') (lfilter (a0 :: a') b x) t (S i)) (fun j => past (a0 :: a') (lfilter (a0 :: a') b x) t (j + 1))) by (intros; rewrite Nat.add_1_r; reflexivity). field. exact H.
Qed.
(** it determines the output *)
Theorem lfilter_unique x y : nth 0 a 0 <> 0 -> (forall t, Rsum (List.length a) (past a y t) = Rsum (List.length b) (past b x t)) -> forall t, y t = lfilter a b x t.
Proof.
  intros H E t. induction t as [t IH] using (well_founded_induction lt_wf). specialize (E t). rewrite <- (lfilter_difference x t H) in E. clear - E IH H.
  destruct a as [|a0 a']; [exfalso; apply H; reflexivity|]. cbn [List.length] in E. rewrite !Rsum_S_l in E.
  rewrite (Rsum_ext (List.length a') (fun i => past (a0 :: a') y t (S i)) (fun i => past (a0 :: a') (lfilter (a0 :: a') b x) t (S i))) in E.
  2:{ intros i Hi. unfold past. destruct (S i <=? t)%nat eqn:L; [|reflexivity]. apply Nat.leb_le in L. rewrite IH by lia. reflexivity. }
  unfold past at 1 3 in E. cbn [Nat.leb nth] in E. rewrite Nat.sub_0_r in E. replace (0 <=? t)%nat with true in E by reflexivity. cbn [nth] in H. apply Rmult_eq_reg_l with a0; [lra|exact H].
Qed.
(** causal *)
Theorem lfilter_causal x y t : (forall s, (s <= t)%nat -> x s = y s) -> lfilter a b x t = lfilter a b y t.
Proof.
  revert x y. induction t as [t IH] using (well_founded_induction lt_wf). intros x y H. rewrite !lfilter_eq. f_equal. f_equal.
  - apply Rsum_ext. intros j Hj. unfold past. destruct (j <=? t)%nat; [|reflexivity]. rewrite H by lia. reflexivity.
  - apply Rsum_ext. intros j Hj. unfold past. destruct (j + 1 <=? t)%nat eqn:E; [|reflexivity]. apply Nat.leb_le in E. rewrite (IH (t - (j + 1))%nat ltac:(lia) x y); [reflexivity|]. intros s Hs. apply H. lia.
Qed.
(** linear *)
Theorem lfilter_linear x y c d t : lfilter a b (fun s => c * x s + d * y s) t = c * lfilter a b x t + d * lfilter a b y t.
Proof.
  induction t as [t IH] using (well_founded_induction lt_wf). rewrite !lfilter_eq.
  rewrite (Rsum_ext (List.length b) _ (fun j => c * past b x t j + d * past b y t j)) by (intros; unfold past; destruct (_ <=? t)%nat; ring).
  rewrite (Rsum_ext (List.length a - 1) _ (fun j => c * past a (lfilter a b x) t (j + 1) + d * past a (lfilter a b y) t (j + 1))).
  2:{ intros j Hj. unfold past. destruct (j + 1 <=? t)%nat eqn:E; [|ring]. apply Nat.leb_le in E. rewrite IH by lia. ring. }
  rewrite !Rsum_plus, !Rsum_scal. unfold Rdiv. ring.
Qed.
Lemma lfilter_zero t : lfilter a b (fun _ => 0) t = 0.
Proof. pose proof (lfilter_linear (fun _ => 0) (fun _ => 0) 0 0 t) as H. rewrite (lfilter_causal _ (fun _ => 0)) in H by (intros; ring). rewrite H. ring. Qed.
Lemma lfilter_sum n (x : nat -> nat -> R) t : lfilter a b (fun s => Rsum n (fun k => x k s)) t = Rsum n (fun k => lfilter a b (x k) t).
Proof.
  induction n as [|n IH]; cbn [Rsum]; [apply lfilter_zero|]. rewrite <- IH. rewrite <- (Rmult_1_l (lfilter a b (fun s => Rsum n _) t)), <- (Rmult_1_l (lfilter a b (x n) t)), <- lfilter_linear. apply lfilter_causal. intros; ring.
Qed.
(** time invariant *)
Definition delay (d : nat) (x : nat -> R) (t : nat) : R := if (d <=? t)%nat then x (t - d)%nat else 0.
Theorem lfilter_delay d x t : lfilter a b (delay d x) t = delay d (lfilter a b x) t.
Proof.
  induction t as [t IH] using (well_founded_induction lt_wf). unfold delay at 2. destruct (d <=? t)%nat eqn:D.
  - apply Nat.leb_le in D. rewrite !lfilter_eq. f_equal. f_equal.
    + apply Rsum_ext. intros j Hj. unfold past, delay. destruct (j <=? t)%nat eqn:J1, (j <=? t - d)%nat eqn:J2, (d <=? t - j)%nat eqn:J3; try reflexivity; try ring;
      rewrite ?Nat.leb_le, ?Nat.leb_gt in J1, J2, J3; try lia. do 2 f_equal. lia.
    + apply Rsum_ext. intros j Hj. unfold past. destruct (j + 1 <=? t)%nat eqn:J1.
      * apply Nat.leb_le in J1. rewrite IH by lia. unfold delay. destruct (d <=? t - (j + 1))%nat eqn:J3, (j + 1 <=? t - d)%nat eqn:J2; rewrite ?Nat.leb_le, ?Nat.leb_gt in J2, J3; try lia; [do 2 f_equal; lia|ring].
      * apply Nat.leb_gt in J1. destruct (j + 1 <=? t - d)%nat eqn:J2; [apply Nat.leb_le in J2; lia|reflexivity].
  - apply Nat.leb_gt in D. rewrite (lfilter_causal _ (fun _ => 0)); [apply lfilter_zero|]. intros s Hs. unfold delay. destruct (d <=? s)%nat eqn:E; [apply Nat.leb_le in E; lia|reflexivity].
Qed.
(** so it is the convolution with its impulse response *)
Definition unit_pulse (t : nat) : R := if (t =? 0)%nat then 1 else 0.
Definition response (t : nat) : R := lfilter a b unit_pulse t.
Theorem lfilter_convolution x t : lfilter a b x t = Rsum (S t) (fun s => response (t - s) * x s).
Proof.
  rewrite (lfilter_causal x (fun u => Rsum (S t) (fun s => x s * delay s unit_pulse u))).
  - rewrite lfilter_sum. apply Rsum_ext. intros s Hs. rewrite (lfilter_causal (fun u => x s * delay s unit_pulse u) (fun u => x s * delay s unit_pulse u + 0 * 0)) by (intros; ring).
    rewrite (lfilter_linear (delay s unit_pulse) (fun _ => 0) (x s) 0), lfilter_delay. unfold delay, response. destruct (s <=? t)%nat eqn:E; [ring|]. apply Nat.leb_gt in E. lia.
  - intros u Hu. rewrite (Rsum_single _ u); [unfold delay, unit_pulse; rewrite Nat.leb_refl, Nat.sub_diag; cbn; ring|lia|]. intros s Hs Hn. unfold delay, unit_pulse. destruct (s <=? u)%nat eqn:E; [|ring]. apply Nat.leb_le in E. destruct (u - s =? 0)%nat eqn:Z; [apply Nat.eqb_eq in Z; lia|ring].
Qed.

(** ** forward and backward *)
Section N.
Variable n : nat.
Lemma backward y t : (t < n)%nat -> flip n (lfilter a b (flip n y)) t = Rsum n (fun v => (if (t <=? v)%nat then response (v - t) else 0) * y v).
Proof.
  intros Ht. unfold flip at 1. rewrite lfilter_convolution. replace (S (n - 1 - t)) with (n - t)%nat by lia.
  transitivity (Rsum (t + (n - t)) (fun v : nat => (if (t <=? v)%nat then response (v - t) else 0) * y v)); [|f_equal; lia].
  rewrite Rsum_app. rewrite (Rsum_0 t).
  2:{ intros v Hv. destruct (t <=? v)%nat eqn:E; [apply Nat.leb_le in E; lia|ring]. }
  rewrite Rplus_0_l, <- Rsum_rev. apply Rsum_ext. intros u Hu. unfold flip. destruct (t <=? t + u)%nat eqn:E; [|apply Nat.leb_gt in E; lia].
  f_equal; f_equal; lia.
Qed.
Lemma forward_sum x v : (v < n)%nat -> lfilter a b x v = Rsum n (fun t => (if (t <=? v)%nat then response (v - t) else 0) * x t).
Proof.
  intros Hv. rewrite lfilter_convolution. 
  transitivity (Rsum (S v + (n - S v)) (fun t : nat => (if (t <=? v)%nat then response (v - t) else 0) * x t)); [|f_equal; lia].
  rewrite Rsum_app. rewrite (Rsum_0 (n - S v)).
  2:{ intros t Ht. destruct (S v + t <=? v)%nat eqn:E; [apply Nat.leb_le in E; lia|ring]. }
  rewrite Rplus_0_r. apply Rsum_ext. intros t Ht. destruct (t <=? v)%nat eqn:E; [reflexivity|apply Nat.leb_gt in E; lia].
Qed.
(** the matrix of the forward-backward filter is (transpose of F) F: pairing x with the output for y is pairing the two once-filtered series *)
Theorem filtfilt_form x y : Rsum n (fun t => x t * filtfilt a b n y t) = Rsum n (fun v => lfilter a b x v * lfilter a b y v).
Proof.
  rewrite (Rsum_ext n (fun v => lfilter a b x v * lfilter a b y v) (fun v => Rsum n (fun t => (if (t <=? v)%nat then response (v - t) else 0) * x t * lfilter a b y v))).
  2:{ intros v Hv. rewrite (forward_sum x v Hv), <- Rsum_scal_r. reflexivity. }
  rewrite Rsum_swap. apply Rsum_ext. intros t Ht. unfold filtfilt. rewrite backward by exact Ht. rewrite <- Rsum_scal. apply Rsum_ext. intros v Hv. ring.
Qed.
(** zero phase: the operator is symmetric, and never negative *)
Corollary filtfilt_symmetric x y : Rsum n (fun t => x t * filtfilt a b n y t) = Rsum n (fun t => filtfilt a b n x t * y t).
Proof.
  rewrite filtfilt_form. rewrite (Rsum_ext n (fun t => filtfilt a b n x t * y t) (fun t => y t * filtfilt a b n x t)) by (intros; ring). rewrite filtfilt_form. apply Rsum_ext. intros; ring.
Qed.
Corollary filtfilt_nonneg x : 0 <= Rsum n (fun t => x t * filtfilt a b n x t).
Proof. rewrite filtfilt_form. apply Rsum_nonneg. intros. apply Rle_0_sqr. Qed.
Lemma response_0 : response 0 = nth 0 b 0 / nth 0 a 0.
Proof.
  unfold response. rewrite lfilter_eq. rewrite (Rsum_0 (List.length a - 1)); [|intros j Hj; unfold past; destruct (j + 1 <=? 0)%nat eqn:E; [apply Nat.leb_le in E; lia|reflexivity]].
  rewrite Rminus_0_r. f_equal. destruct b as [|b0 b']; [reflexivity|]. cbn [List.length]. rewrite Rsum_S_l. rewrite (Rsum_0 (List.length b')) by (intros i Hi; unfold past; reflexivity). unfold past, unit_pulse. rewrite Nat.leb_refl. cbn. ring.
Qed.
(** and positive definite when the leading coefficients are not zero, so no non-zero series is annihilated *)
Theorem filtfilt_definite x : nth 0 a 0 <> 0 -> nth 0 b 0 <> 0 -> Rsum n (fun t => x t * filtfilt a b n x t) = 0 -> forall t, (t < n)%nat -> x t = 0.
Proof.
  intros Ha Hb E. rewrite filtfilt_form in E. assert (Z : forall v, (v < n)%nat -> lfilter a b x v = 0).
  { intros v Hv. pose proof (Rsum_nonneg_zero n (fun v => lfilter a b x v * lfilter a b x v) ltac:(intros; apply Rle_0_sqr) E v Hv) as K. cbv beta in K. nra. }
  intros t. induction t as [t IH] using (well_founded_induction lt_wf). intros Ht. specialize (Z t Ht). rewrite lfilter_convolution in Z. cbn [Rsum] in Z. rewrite Rsum_0 in Z by (intros s Hs; rewrite IH by lia; ring).
  rewrite Nat.sub_diag, response_0, Rplus_0_l in Z. assert (nth 0 b 0 / nth 0 a 0 <> 0) by (unfold Rdiv; apply Rmult_integral_contrapositive_currified; [exact Hb|apply Rinv_neq_0_compat, Ha]).
  apply Rmult_eq_reg_l with (nth 0 b 0 / nth 0 a 0); [lra|assumption].
Qed.
Theorem filtfilt_linear x y c d t : filtfilt a b n (fun s => c * x s + d * y s) t = c * filtfilt a b n x t + d * filtfilt a b n y t.
Proof.
  unfold filtfilt, flip. rewrite <- lfilter_linear. apply lfilter_causal. intros s Hs. apply lfilter_linear.
Qed.
End N.
End Filter.

(** ** the module *)
Theorem iir_forward_spec a b x : (List.length a = List.length b -> exists y, iir_forward a b x = Ok y /\ shape y = shape x /\
    forall i t, inb (i ++ [t]) (shape x) -> elt y (i ++ [t]) = filtfilt a b (last (shape x) 0%nat) (fun s => elt x (i ++ [s])) t) /\
  (List.length a <> List.length b -> iir_forward a b x = Err ValueError).
Proof.
  unfold iir_forward. split; intros H.
  - rewrite (proj2 (Nat.eqb_eq _ _) H). eexists. split; [reflexivity|]. split; [reflexivity|]. intros i t Hi. cbn [elt]. rewrite removelast_last, last_last. reflexivity.
  - destruct (Nat.eqb_spec (List.length a) (List.length b)); [contradiction|reflexivity].
Qed.
(** a one-pole filter y[t] = x[t] + y[t-1]/2 : impulse response 1, 1/2, 1/4; forward and backward on three samples *)
Example one_pole : map (response [1; - (1 / 2)] [1; 0]) [0; 1; 2]%nat = [1; 1 / 2; 1 / 4] /\ map (filtfilt [1; - (1 / 2)] [1; 0] 3 unit_pulse) [0; 1; 2]%nat = [21 / 16; 5 / 8; 1 / 4].
Proof. unfold response, filtfilt, flip, lfilter. cbn -[Rdiv Rmult Rplus Rminus Ropp IZR Nat.leb]. change (0 <=? 0)%nat with true. change (0 <=? 1)%nat with true. change (0 <=? 2)%nat with true. change (1 <=? 0)%nat with false. change (1 <=? 1)%nat with true. change (1 <=? 2)%nat with true.
  assert (L : forall p q r p' q' r' : R, p = p' -> q = q' -> r = r' -> [p; q; r] = [p'; q'; r']) by congruence.
  split; apply L; lra. Qed.
