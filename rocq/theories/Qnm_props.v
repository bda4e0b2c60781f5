(** Property C57: the remnant's quasi-normal mode as a function of its spin. *)
From Coq Require Import Reals Lra ZArith Machin Ratan.
From Coquelicot Require Import Coquelicot.
From Verif Require Import Base Rutil Conv_model Tf2_model Phd_fits Phd_data Phd_model Phd_bounds.
Local Open Scope R_scope.

(** linear interpolation of increasing values is increasing, from node [k0] on *)
Lemma interp1_mono (a y : list R) (k0 : nat) : increasing a -> (2 <= List.length a)%nat ->
  (forall k, (k0 <= k)%nat -> (k + 1 < List.length a)%nat -> nth k y 0 < nth (k + 1) y 0) ->
  forall x x', nth k0 a 0 <= x -> x < x' -> x' <= nth (List.length a - 1) a 0 -> (k0 + 1 < List.length a)%nat -> interp1 a y x < interp1 a y x'.
Proof.
  intros Hs Hl Hy x x' H0 Hx H1 Hk.
  assert (Hn : forall i j, (k0 <= i)%nat -> (i <= j)%nat -> (j < List.length a)%nat -> nth i y 0 <= nth j y 0).
  { intros i j Hi Hij. induction j as [|j IH]; intros Hj; [replace i with 0%nat by lia; lra|].
    destruct (Nat.eq_dec i (S j)) as [->|N]; [lra|]. pose proof (Hy j ltac:(lia) ltac:(lia)) as H. replace (j + 1)%nat with (S j) in H by lia. specialize (IH ltac:(lia) ltac:(lia)). lra. }
  assert (Hm : forall i j, (i <= j < List.length a)%nat -> nth i a 0 <= nth j a 0).
  { intros i j [Hij Hj]. destruct (Nat.eq_dec i j) as [->|N]; [lra|]. apply Rlt_le, Hs. lia. }
  (* position of a point: k with a_k <= z < a_(k+1), or the last node *)
  assert (LOC : forall z, nth k0 a 0 <= z -> z < nth (List.length a - 1) a 0 -> exists k, (k0 <= k)%nat /\ (k + 1 < List.length a)%nat /\ nth k a 0 <= z < nth (k + 1) a 0).
  { intros z Hz Hz'. assert (G : forall n, (k0 + n < List.length a)%nat -> z < nth (k0 + n) a 0 -> exists k, (k0 <= k)%nat /\ (k + 1 < List.length a)%nat /\ nth k a 0 <= z < nth (k + 1) a 0).
    { induction n as [|n IH]; intros Hn' Hzn; [rewrite Nat.add_0_r in Hzn; lra|].
      destruct (Rlt_dec z (nth (k0 + n) a 0)) as [L|L]; [apply IH; [lia|exact L]|]. exists (k0 + n)%nat. replace (k0 + n + 1)%nat with (k0 + S n)%nat by lia. split; [lia|]. split; [lia|]. lra. }
    apply (G (List.length a - 1 - k0)%nat); [lia|]. replace (k0 + (List.length a - 1 - k0))%nat with (List.length a - 1)%nat by lia. exact Hz'. }
  assert (VAL : forall k z, (k0 <= k)%nat -> (k + 1 < List.length a)%nat -> nth k a 0 <= z <= nth (k + 1) a 0 ->
    interp1 a y z = nth k y 0 + (z - nth k a 0) / (nth (k + 1) a 0 - nth k a 0) * (nth (k + 1) y 0 - nth k y 0)).
  { intros k z Hk0 Hk1 Hz. pose proof (Hs k (k + 1)%nat ltac:(lia)) as Hd. set (t := (z - nth k a 0) / (nth (k + 1) a 0 - nth k a 0)).
    assert (Ht : 0 <= t <= 1).
    { unfold t. split; [apply Rmult_le_pos; [lra|apply Rlt_le, Rinv_0_lt_compat; lra]|]. apply Rmult_le_reg_r with (nth (k + 1) a 0 - nth k a 0); [lra|]. unfold Rdiv. rewrite Rmult_assoc, Rinv_l by lra. lra. }
    replace z with (nth k a 0 + t * (nth (k + 1) a 0 - nth k a 0)) at 1 by (unfold t; field; lra). apply interp1_segment; assumption. }
  destruct (LOC x H0 ltac:(lra)) as (k & K0 & K1 & K2 & K3). rewrite (VAL k x K0 K1 ltac:(lra)).
  pose proof (Hs k (k + 1)%nat ltac:(lia)) as Hd. pose proof (Hy k K0 K1) as Hyk.
  assert (ID : 0 < / (nth (k + 1) a 0 - nth k a 0)) by (apply Rinv_0_lt_compat; lra).
  destruct (Rle_dec x' (nth (k + 1) a 0)) as [L|L].
  - rewrite (VAL k x' K0 K1 ltac:(lra)). unfold Rdiv. apply Rplus_lt_compat_l. apply Rmult_lt_compat_r; [lra|]. apply Rmult_lt_compat_r; lra.
  - apply Rlt_le_trans with (nth (k + 1) y 0).
    + assert (T : (x - nth k a 0) / (nth (k + 1) a 0 - nth k a 0) < 1). { apply Rmult_lt_reg_r with (nth (k + 1) a 0 - nth k a 0); [lra|]. unfold Rdiv. rewrite Rmult_assoc, Rinv_l by lra. lra. }
      nra.
    + destruct (Rlt_dec x' (nth (List.length a - 1) a 0)) as [L'|L'].
      * destruct (LOC x' ltac:(lra) L') as (k' & K0' & K1' & K2' & K3'). rewrite (VAL k' x' K0' K1' ltac:(lra)).
        assert (KK : (k + 1 <= k')%nat). { destruct (le_lt_dec (k + 1) k') as [?|G]; [assumption|]. pose proof (Hm (k' + 1)%nat (k + 1)%nat ltac:(lia)). lra. }
        pose proof (Hn (k + 1)%nat k' ltac:(lia) KK ltac:(lia)) as G1. pose proof (Hy k' K0' K1') as G2. pose proof (Hs k' (k' + 1)%nat ltac:(lia)) as G3.
        assert (T : 0 <= (x' - nth k' a 0) / (nth (k' + 1) a 0 - nth k' a 0)) by (apply Rmult_le_pos; [lra|apply Rlt_le, Rinv_0_lt_compat; lra]).
        nra.
      * assert (E : x' = nth (List.length a - 1) a 0) by lra. rewrite E, interp1_node by (try assumption; lia). apply Hn; lia.
Qed.
Lemma interp1_opp (a y : list R) x : interp1 a (map Ropp y) x = - interp1 a y x.
Proof.
  unfold interp1. assert (E : forall i, nth i (map Ropp y) 0 = - nth i y 0) by (intros i; rewrite <- Ropp_0 at 1; apply (map_nth Ropp)). rewrite !E. unfold Rdiv. ring.
Qed.
Lemma nth_skipn_z n i (l : list Z) : nth i (skipn n l) 0%Z = nth (n + i) l 0%Z.
Proof. revert l. induction n as [|n IH]; intros [|x l]; try reflexivity; [destruct i; reflexivity|]. exact (IH l). Qed.
Lemma PI_bounds : 314155 / 100000 < PI < 31416 / 10000.
Proof.
  pose proof (PI_2_3_7_ineq 2) as [A _]. pose proof (PI_2_3_7_ineq 3) as [_ B].
  cbn [sum_f_R0 Nat.mul Nat.add] in A, B. unfold tg_alt, PI_2_3_7_tg, Ratan_seq in A, B.
  cbn [INR Nat.mul Nat.add pow] in A, B. lra.
Qed.
(** decreasing after node k0 *)
Lemma zdec_step l : zinc (map Z.opp l) = true -> forall i, (i + 1 < List.length l)%nat -> (nth (i + 1) l 0 < nth i l 0)%Z.
Proof.
  intros H i Hi. pose proof (zinc_step (map Z.opp l) i H ltac:(rewrite map_length; exact Hi)) as K.
  change 0%Z with (Z.opp 0%Z) in K. rewrite !(map_nth Z.opp) in K. lia.
Qed.

(** the oscillation frequency rises with the remnant's spin over the whole range; the damping rate falls from spin 0 on;
    at spin 0 they are the Schwarzschild values M omega = 0.37367 - 0.08896 i (l = m = 2), divided by 2 pi *)
Theorem qnm_frequency_increases x x' : - 1 <= x -> x < x' -> x' <= 1 -> interp1 qnm_a qnm_fring x < interp1 qnm_a qnm_fring x'.
Proof.
  intros H0 H1 H2. destruct qnm_lengths as (L1 & L2 & L3). apply (interp1_mono qnm_a qnm_fring 0).
  - apply qnm_a_increasing.
  - lia.
  - intros k _ Hk. rewrite L1 in Hk. assert (I : increasing qnm_fring) by (apply tab_increasing; vm_compute; reflexivity). apply I. lia.
  - rewrite qnm_a_first. exact H0.
  - exact H1.
  - rewrite L1. change (1003 - 1)%nat with 1002%nat. rewrite qnm_a_last. exact H2.
  - lia.
Qed.
Lemma qnm_zero : nth 501 qnm_a 0 = 0.
Proof. unfold qnm_a. rewrite nth_tab by (vm_compute; lia). assert (E : nth 501 QNMData_a_z 0%Z = 0%Z) by (vm_compute; reflexivity). rewrite E. lra. Qed.
Theorem qnm_damping_decreases x x' : 0 <= x -> x < x' -> x' <= 1 -> interp1 qnm_a qnm_fdamp x' < interp1 qnm_a qnm_fdamp x.
Proof.
  intros H0 H1 H2. destruct qnm_lengths as (L1 & L2 & L3).
  assert (M : interp1 qnm_a (map Ropp qnm_fdamp) x < interp1 qnm_a (map Ropp qnm_fdamp) x'); [|rewrite !interp1_opp in M; lra].
  apply (interp1_mono qnm_a (map Ropp qnm_fdamp) 501).
  - apply qnm_a_increasing.
  - lia.
  - intros k K0 Hk. rewrite L1 in Hk. assert (E : forall i, nth i (map Ropp qnm_fdamp) 0 = - nth i qnm_fdamp 0) by (intros i; rewrite <- Ropp_0 at 1; apply (map_nth Ropp)). rewrite !E.
    assert (LL : List.length QNMData_fdamp_z = 1003%nat) by (vm_compute; reflexivity). unfold qnm_fdamp. rewrite !nth_tab by lia.
    assert (D : (nth (k + 1) QNMData_fdamp_z 0 < nth k QNMData_fdamp_z 0)%Z).
    { assert (W := zdec_step (skipn 501 QNMData_fdamp_z) ltac:(vm_compute; reflexivity) (k - 501)%nat). 
      assert (SL : List.length (skipn 501 QNMData_fdamp_z) = 502%nat) by (vm_compute; reflexivity). specialize (W ltac:(lia)).
      rewrite !nth_skipn_z in W. replace (501 + (k - 501 + 1))%nat with (k + 1)%nat in W by lia. replace (501 + (k - 501))%nat with k in W by lia. exact W. }
    apply IZR_lt in D. lra.
  - rewrite qnm_zero. exact H0.
  - exact H1.
  - rewrite L1. change (1003 - 1)%nat with 1002%nat. rewrite qnm_a_last. exact H2.
  - lia.
Qed.
Theorem qnm_schwarzschild :
  Rabs (2 * PI * interp1 qnm_a qnm_fring 0 - 37367 / 100000) < 1 / 100000 /\ Rabs (2 * PI * interp1 qnm_a qnm_fdamp 0 - 8896 / 100000) < 1 / 100000.
Proof.
  destruct qnm_lengths as (L1 & L2 & L3).
  assert (F : forall y, interp1 qnm_a y 0 = nth 501 y 0) by (intros y; rewrite <- qnm_zero at 1; apply interp1_node; [apply qnm_a_increasing|lia|lia]).
  rewrite !F. unfold qnm_fring, qnm_fdamp. rewrite !nth_tab by (vm_compute; lia).
  assert (E1 : nth 501 QNMData_fring_z 0%Z = 594717000%Z) by (vm_compute; reflexivity). assert (E2 : nth 501 QNMData_fdamp_z 0%Z = 141588000%Z) by (vm_compute; reflexivity). rewrite E1, E2.
  pose proof PI_bounds.
  split; apply Rabs_def1; lra.
Qed.
