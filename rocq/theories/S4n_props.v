(** C69: the gate and the normalisation inside the S4 model, characterised without their definitions. *)
From Coq Require Import Reals Lra Lia.
From Coquelicot Require Import Coquelicot.
From Verif Require Import Base Tensor Rutil Dft S4_model.
Local Open Scope R_scope.

(** the gate of nn.GLU is the logistic function: the solution of s' = s (1 - s), s(0) = 1/2; it takes values in (0, 1) and is odd about 1/2 *)
Theorem sigmoid_logistic : sigmoid 0 = 1 / 2 /\ forall x, 0 < sigmoid x < 1 /\ sigmoid (- x) = 1 - sigmoid x /\
  is_derive sigmoid x (sigmoid x * (1 - sigmoid x)).
Proof.
  split; [unfold sigmoid; rewrite Ropp_0, exp_0; field|]. intros x. pose proof (exp_pos (- x)) as P. unfold sigmoid.
  split; [split; [apply Rinv_0_lt_compat; lra|rewrite <- Rinv_1 at 2; apply Rinv_lt_contravar; lra]|]. split.
  - rewrite Ropp_involutive. rewrite exp_Ropp in *. pose proof (exp_pos x). field. lra.
  - auto_derive; [lra|]. field. lra.
Qed.

(** the normalisation of n numbers: exactly shift invariant; with unit weights and zero biases the outputs have mean 0 and mean square V/(V + 1e-5), V being the mean square deviation; weights and biases act entrywise afterwards *)
Theorem lnorm_spec n (wt bs f : nat -> R) : (0 < n)%nat ->
  let mean := fun g => Rsum n g / INR n in
  let V := mean (fun i => f i * f i) - mean f * mean f in
  let one := fun _ : nat => 1 in let zero := fun _ : nat => 0 in
  0 <= V /\
  (forall i, lnorm n wt bs f i = wt i * lnorm n one zero f i + bs i) /\
  (forall i c, lnorm n wt bs (fun j => f j + c) i = lnorm n wt bs f i) /\
  mean (lnorm n one zero f) = 0 /\
  mean (fun i => lnorm n one zero f i * lnorm n one zero f i) = V / (V + / 100000) /\
  (forall i, lnorm n one zero f i * sqrt (V + / 100000) = f i - mean f).
Proof.
  intros Hn mean V one zero.
  assert (N : INR n <> 0) by (apply not_0_INR; lia). assert (NP : 0 < INR n) by (apply lt_0_INR; lia).
  assert (MC : forall c, mean (fun _ => c) = c) by (intros c; unfold mean; rewrite Rsum_const; field; exact N).
  assert (EV : forall g, rvar n g = mean (fun i => g i * g i) - mean g * mean g).
  { intros g. unfold rvar. change (rmean n g) with (mean g). unfold rmean.
    rewrite (Rsum_ext n _ (fun i => g i * g i + (mean g * mean g + (- 2 * mean g) * g i))) by (intros; ring).
    rewrite !Rsum_plus, (Rsum_scal n (- 2 * mean g) g), Rsum_const. unfold mean. field. exact N. }
  assert (VP : forall g, 0 <= rvar n g).
  { intros g. unfold rvar. unfold rmean at 1. apply Rmult_le_pos; [|left; apply Rinv_0_lt_compat; exact NP].
    apply Rsum_nonneg. intros i _. apply pow2_ge_0. }
  assert (V0 : 0 <= V) by (unfold V; rewrite <- EV; apply VP).
  assert (EO : forall i, lnorm n one zero f i = / sqrt (V + / 100000) * (f i - mean f)).
  { intros i. unfold lnorm. rewrite EV. fold V. change (rmean n f) with (mean f). unfold one, zero.
    replace (1 / 100000) with (/ 100000) by field. unfold Rdiv. ring. }
  assert (Q : 0 < V + / 100000) by (apply Rplus_le_lt_0_compat; [exact V0|apply Rinv_0_lt_compat; lra]).
  assert (SQ : 0 < sqrt (V + / 100000)) by (apply sqrt_lt_R0; exact Q).
  split; [exact V0|]. split; [|split; [|split; [|split]]].
  - intros i. unfold lnorm, one, zero. ring.
  - intros i c. assert (M : rmean n (fun j => f j + c) = rmean n f + c) by (unfold rmean; rewrite Rsum_plus, Rsum_const; field; exact N).
    assert (W : rvar n (fun j => f j + c) = rvar n f) by (unfold rvar; rewrite M; unfold rmean at 1 3; f_equal; apply Rsum_ext; intros; ring).
    unfold lnorm. rewrite M, W. f_equal. f_equal. f_equal. ring.
  - unfold mean. rewrite (Rsum_ext n _ (fun i => / sqrt (V + / 100000) * (f i - mean f))) by (intros; apply EO).
    rewrite Rsum_scal, Rsum_minus, Rsum_const. unfold mean. replace (INR n * (Rsum n f / INR n)) with (Rsum n f) by (field; exact N). unfold Rdiv. ring.
  - unfold mean. rewrite (Rsum_ext n _ (fun i => / (V + / 100000) * (f i - mean f) ^ 2)).
    + rewrite Rsum_scal. pose proof (EV f) as E. unfold rvar in E. unfold rmean at 1 in E. change (rmean n f) with (mean f) in E. fold V in E.
      unfold Rdiv in *. rewrite Rmult_assoc, E. ring.
    + intros i _. rewrite EO. rewrite <- (sqrt_sqrt (V + / 100000)) at 3 by lra. field. lra.
  - intros i. rewrite EO. field. lra.
Qed.
Example lnorm_example : lnorm 2 (fun _ => 3) (fun _ => 1) (fun i => INR i) 0 + lnorm 2 (fun _ => 3) (fun _ => 1) (fun i => INR i) 1 = 2.
Proof.
  destruct (lnorm_spec 2 (fun _ => 3) (fun _ => 1) (fun i => INR i) ltac:(lia)) as [_ [E [_ [M _]]]]. rewrite !E. cbn [Rsum INR] in M.
  assert (lnorm 2 (fun _ => 1) (fun _ => 0) (fun i => INR i) 0 + lnorm 2 (fun _ => 1) (fun _ => 0) (fun i => INR i) 1 = 0) by lra. lra.
Qed.
