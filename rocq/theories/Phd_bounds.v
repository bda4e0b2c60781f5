(** The IMRPhenomD ingredients on the physical domain: masses positive, |spins| <= 1. *)
From Coq Require Import Reals Lra ZArith Sorted.
From Coquelicot Require Import Coquelicot.
From Verif Require Import Base Rutil Conv_model Conv_props Wave_props Tf2_model Tf2_props Phd_fits Phd_data Phd_cert Phd_delta Phd_model Phd_props.
Local Open Scope R_scope.

(** * Linear interpolation on an increasing grid *)
Definition increasing (a : list R) : Prop := forall i j, (i < j < List.length a)%nat -> nth i a 0 < nth j a 0.
Lemma increasing_tl x l : increasing (x :: l) -> increasing l.
Proof. intros H i j Hij. apply (H (Datatypes.S i) (Datatypes.S j)). cbn [List.length]. lia. Qed.
Lemma bucketize_spec (a : list R) (x : R) : increasing a ->
  (bucketize a x <= List.length a)%nat /\ (forall i, (i < bucketize a x)%nat -> nth i a 0 < x) /\ (forall i, (bucketize a x <= i < List.length a)%nat -> x <= nth i a 0).
Proof.
  unfold bucketize. induction a as [|y a IH]; intros Hs.
  - cbn. repeat split; intros; lia.
  - pose proof (increasing_tl _ _ Hs) as Hs'. destruct (IH Hs') as (I0 & I1 & I2). cbn [filter].
    assert (G : gt_ x y = if Rlt_dec y x then true else false) by reflexivity. rewrite G. clear G. destruct (Rlt_dec y x) as [Hy|Hy].
    + cbn [List.length]. split; [lia|]. split.
      * intros [|i] Hi; [exact Hy|]. apply I1. lia.
      * intros [|i] Hi; [lia|]. apply I2. lia.
    + assert (Z : forall i, (i < List.length a)%nat -> x < nth i a 0).
      { intros i Hi. pose proof (Hs 0%nat (Datatypes.S i)) as H. cbn [nth List.length] in H. specialize (H ltac:(lia)). lra. }
      assert (E : List.length (filter (fun y0 => gt_ x y0) a) = 0%nat).
      { destruct (List.length (filter (fun y0 => gt_ x y0) a)) as [|k] eqn:Ek; [reflexivity|]. exfalso.
        pose proof (I1 0%nat ltac:(lia)). pose proof (Z 0%nat ltac:(lia)). lra. }
      rewrite E. cbn [List.length]. split; [lia|]. split; [intros; lia|].
      intros [|i] Hi; [cbn [nth]; lra|]. pose proof (Z i ltac:(lia)). cbn [nth]. lra.
Qed.
(** the bracket chosen for a point of the grid's range really brackets it *)
Lemma interp_right_spec (a : list R) (x : R) : increasing a -> (2 <= List.length a)%nat -> off_grid a x = false ->
  let r := interp_right a x in (1 <= r < List.length a)%nat /\ nth (r - 1) a 0 <= x <= nth r a 0.
Proof.
  intros Hs Hl Ho r. destruct (bucketize_spec a x Hs) as (B0 & B1 & B2).
  unfold off_grid, gt_ in Ho. destruct (Rlt_dec x (nth 0 a 0)) as [?|H0]; [discriminate|]. destruct (Rlt_dec (nth (List.length a - 1) a 0) x) as [?|H1]; [discriminate|].
  unfold r, interp_right. split; [lia|].
  destruct (Nat.eq_dec (bucketize a x) 0) as [E|E].
  - rewrite E. replace (Nat.min (Nat.max 0 1) (List.length a - 1)) with 1%nat by lia. cbn [Nat.sub].
    pose proof (B2 0%nat ltac:(lia)). pose proof (B2 1%nat ltac:(lia)). lra.
  - destruct (Nat.eq_dec (bucketize a x) (List.length a)) as [E'|E'].
    + pose proof (B1 (List.length a - 1)%nat ltac:(lia)). exfalso. lra.
    + replace (Nat.min (Nat.max (bucketize a x) 1) (List.length a - 1)) with (bucketize a x) by lia.
      pose proof (B1 (bucketize a x - 1)%nat ltac:(lia)). pose proof (B2 (bucketize a x) ltac:(lia)). lra.
Qed.
Lemma convex_between (a b t lo hi : R) : 0 <= t <= 1 -> lo <= a <= hi -> lo <= b <= hi -> lo <= (b - a) * t + a <= hi.
Proof. intros. split; nra. Qed.
Lemma interp1_bounds (a y : list R) (x lo hi : R) : increasing a -> (2 <= List.length a)%nat -> List.length y = List.length a -> off_grid a x = false ->
  (forall i, (i < List.length y)%nat -> lo <= nth i y 0 <= hi) -> lo <= interp1 a y x <= hi.
Proof.
  intros Hs Hl Hy Ho Hb. destruct (interp_right_spec a x Hs Hl Ho) as (Hr & Hb1 & Hb2). unfold interp1. set (r := interp_right a x) in *.
  pose proof (Hs (r - 1)%nat r ltac:(lia)) as Hd. set (t := (x - nth (r - 1) a 0) / (nth r a 0 - nth (r - 1) a 0)).
  replace ((nth r y 0 - nth (r - 1) y 0) / (nth r a 0 - nth (r - 1) a 0) * (x - nth (r - 1) a 0) + nth (r - 1) y 0) with ((nth r y 0 - nth (r - 1) y 0) * t + nth (r - 1) y 0) by (unfold t; field; lra).
  apply convex_between; [|apply Hb; lia|apply Hb; lia].
  unfold t. split; [apply Rmult_le_pos; [lra|apply Rlt_le, Rinv_0_lt_compat; lra]|].
  apply Rmult_le_reg_r with (nth r a 0 - nth (r - 1) a 0); [lra|]. unfold Rdiv. rewrite Rmult_assoc, Rinv_l, Rmult_1_l by lra. lra.
Qed.
(** the interpolant passes through the table, and is the chord between neighbouring entries *)
Theorem interp1_node (a y : list R) (k : nat) : increasing a -> (2 <= List.length a)%nat -> (k < List.length a)%nat -> interp1 a y (nth k a 0) = nth k y 0.
Proof.
  intros Hs Hl Hk.
  assert (Ho : off_grid a (nth k a 0) = false).
  { unfold off_grid, gt_. destruct (Rlt_dec (nth k a 0) (nth 0 a 0)) as [H|H]; [destruct k as [|k]; [lra|pose proof (Hs 0%nat (Datatypes.S k) ltac:(lia)); lra]|].
    destruct (Rlt_dec (nth (List.length a - 1) a 0) (nth k a 0)) as [H'|H']; [|reflexivity].
    destruct (Nat.eq_dec k (List.length a - 1)) as [E|E]; [rewrite E in H'; lra|]. pose proof (Hs k (List.length a - 1)%nat ltac:(lia)). lra. }
  destruct (interp_right_spec a _ Hs Hl Ho) as (Hr & Hb1 & Hb2). unfold interp1. set (r := interp_right a (nth k a 0)) in *.
  pose proof (Hs (r - 1)%nat r ltac:(lia)) as Hd.
  assert (D : k = (r - 1)%nat \/ k = r).
  { destruct (lt_dec k (r - 1)); [pose proof (Hs k (r - 1)%nat ltac:(lia)); lra|]. destruct (lt_dec r k); [pose proof (Hs r k ltac:(lia)); lra|]. lia. }
  destruct D as [D|D].
  - rewrite <- D. field. rewrite D. lra.
  - rewrite D. field. lra.
Qed.
Theorem interp1_segment (a y : list R) (k : nat) (t : R) : increasing a -> (k + 1 < List.length a)%nat -> 0 <= t <= 1 ->
  interp1 a y (nth k a 0 + t * (nth (k + 1) a 0 - nth k a 0)) = nth k y 0 + t * (nth (k + 1) y 0 - nth k y 0).
Proof.
  intros Hs Hk Ht. set (x := nth k a 0 + t * (nth (k + 1) a 0 - nth k a 0)). pose proof (Hs k (k + 1)%nat ltac:(lia)) as Hd.
  destruct (Req_dec t 0) as [E0|N0].
  { replace x with (nth k a 0) by (unfold x; rewrite E0; ring). rewrite interp1_node by (try lia; assumption). rewrite E0. ring. }
  assert (Hx : nth k a 0 < x <= nth (k + 1) a 0) by (unfold x; split; nra).
  destruct (bucketize_spec a x Hs) as (B0 & B1 & B2).
  assert (E : bucketize a x = (k + 1)%nat).
  { destruct (lt_dec (bucketize a x) (k + 1)); [pose proof (B2 k ltac:(lia)); lra|]. destruct (lt_dec (k + 1) (bucketize a x)) as [H|H]; [|lia]. pose proof (B1 (k + 1)%nat H). lra. }
  unfold interp1, interp_right. rewrite E. replace (Nat.min (Nat.max (k + 1) 1) (List.length a - 1)) with (k + 1)%nat by lia.
  replace (k + 1 - 1)%nat with k by lia. unfold x. field. lra.
Qed.

(** * The quasi-normal-mode tables *)
Lemma nth_tab i l : (i < List.length l)%nat -> nth i (tab l) 0 = IZR (nth i l 0%Z) / 10000000000.
Proof. intros H. unfold tab. rewrite (nth_indep _ 0 (IZR 0 / 10000000000)) by (rewrite map_length; exact H). exact (map_nth (fun z => IZR z / 10000000000) l 0%Z i). Qed.
Fixpoint zinc (l : list Z) : bool := match l with x :: (y :: _) as t => (x <? y)%Z && zinc t | _ => true end.
Lemma zinc_step l i : zinc l = true -> (i + 1 < List.length l)%nat -> (nth i l 0 < nth (i + 1) l 0)%Z.
Proof.
  revert i. induction l as [|x [|y t] IH]; intros i H Hi; [cbn in Hi; lia|cbn in Hi; lia|].
  apply andb_prop in H as [H1 H2]. destruct i as [|i]; [cbn; lia|]. exact (IH i H2 ltac:(cbn [List.length] in *; lia)).
Qed.
Lemma zinc_lt l i j : zinc l = true -> (i < j < List.length l)%nat -> (nth i l 0 < nth j l 0)%Z.
Proof.
  intros H [Hij Hj]. induction j as [|j IH]; [lia|]. pose proof (zinc_step l j H ltac:(lia)) as St. replace (j + 1)%nat with (Datatypes.S j) in St by lia.
  destruct (Nat.eq_dec i j) as [->|E]; [exact St|]. specialize (IH ltac:(lia) ltac:(lia)). lia.
Qed.
Lemma tab_increasing l : zinc l = true -> increasing (tab l).
Proof.
  intros H i j Hij. unfold tab in Hij. rewrite map_length in Hij. rewrite !nth_tab by lia. pose proof (zinc_lt l i j H Hij) as L. apply IZR_lt in L. lra.
Qed.
Lemma tab_range l lo hi : forallb (fun z => (lo <=? z) && (z <=? hi))%Z l = true -> forall i, (i < List.length (tab l))%nat -> IZR lo / 10000000000 <= nth i (tab l) 0 <= IZR hi / 10000000000.
Proof.
  intros H i Hi. unfold tab in Hi. rewrite map_length in Hi. rewrite nth_tab by exact Hi. rewrite forallb_forall in H.
  specialize (H (nth i l 0%Z) (nth_In _ _ Hi)). apply andb_prop in H as [A B]. apply Z.leb_le, IZR_le in A. apply Z.leb_le, IZR_le in B. lra.
Qed.
Theorem qnm_a_increasing : increasing qnm_a.
Proof. apply tab_increasing. vm_compute. reflexivity. Qed.
Lemma qnm_lengths : List.length qnm_a = 1003%nat /\ List.length qnm_fring = 1003%nat /\ List.length qnm_fdamp = 1003%nat.
Proof. unfold qnm_a, qnm_fring, qnm_fdamp, tab. rewrite !map_length. repeat split; vm_compute; reflexivity. Qed.
Lemma qnm_a_first : nth 0 qnm_a 0 = - 1.
Proof. unfold qnm_a. rewrite nth_tab by (vm_compute; lia). assert (E : nth 0 QNMData_a_z 0%Z = (- 10000000000)%Z) by (vm_compute; reflexivity). rewrite E. lra. Qed.
Lemma qnm_a_last : nth 1002 qnm_a 0 = 1.
Proof. unfold qnm_a. rewrite nth_tab by (vm_compute; lia). assert (E : nth 1002 QNMData_a_z 0%Z = 10000000000%Z) by (vm_compute; reflexivity). rewrite E. lra. Qed.
Theorem on_grid_iff x : off_grid qnm_a x = false <-> - 1 <= x <= 1.
Proof.
  unfold off_grid. destruct qnm_lengths as (L & _ & _). rewrite L. change (1003 - 1)%nat with 1002%nat. rewrite qnm_a_first, qnm_a_last. unfold gt_.
  destruct (Rlt_dec x (- 1)); destruct (Rlt_dec 1 x); cbn [orb]; split; intros; try discriminate; try reflexivity; lra.
Qed.
Lemma qnm_fring_range x : - 1 <= x <= 1 -> 46 / 1000 <= interp1 qnm_a qnm_fring x <= 158 / 1000.
Proof.
  intros Hx. destruct qnm_lengths as (L1 & L2 & L3).
  apply interp1_bounds; [apply qnm_a_increasing|lia|lia|apply on_grid_iff; exact Hx|].
  intros i Hi. pose proof (tab_range QNMData_fring_z 464000000 1580000000 ltac:(vm_compute; reflexivity) i Hi) as H. unfold qnm_fring in *. lra.
Qed.
Lemma qnm_fdamp_range x : - 1 <= x <= 1 -> 29 / 100000 <= interp1 qnm_a qnm_fdamp x <= 142 / 10000.
Proof.
  intros Hx. destruct qnm_lengths as (L1 & L2 & L3).
  apply interp1_bounds; [apply qnm_a_increasing|lia|lia|apply on_grid_iff; exact Hx|].
  intros i Hi. pose proof (tab_range QNMData_fdamp_z 2900000 142000000 ltac:(vm_compute; reflexivity) i Hi) as H. unfold qnm_fdamp in *. lra.
Qed.

(** * The fits on the physical domain *)
Section Fits.
Variables eta chi1 chi2 : R.
Hypothesis He : 0 < eta <= 1 / 4.
Hypothesis H1 : - 1 <= chi1 <= 1.
Hypothesis H2 : - 1 <= chi2 <= 1.
Let Sq : R := sqrt (Rmax (1 - 4 * eta) 0).
Lemma Seta_spec : 0 <= Sq /\ Sq * Sq = 1 - 4 * eta /\ Sq <= 1 - 2 * eta.
Proof.
  unfold Sq. rewrite Rmax_left by lra. assert (P : 0 <= sqrt (1 - 4 * eta)) by apply sqrt_pos. assert (Q : sqrt (1 - 4 * eta) * sqrt (1 - 4 * eta) = 1 - 4 * eta) by (apply sqrt_sqrt; lra).
  split; [exact P|]. split; [exact Q|]. apply Rnot_lt_le. intros L. assert (0 < 1 - 2 * eta) by lra. nra.
Qed.
Lemma chiPN_range : - 1 <= chiPN Sq eta chi1 chi2 <= 1.
Proof.
  destruct Seta_spec as (P & _ & Q). unfold chiPN. set (k := 1 - eta * 76 / 113).
  assert (Hk : Sq <= k <= 1) by (unfold k; lra).
  replace (5 / 10 * ((chi1 + chi2) * k + Sq * (chi1 - chi2))) with ((k + Sq) / 2 * chi1 + (k - Sq) / 2 * chi2) by field. clearbody k. clearbody Sq.
  assert (A : - ((k + Sq) / 2) <= (k + Sq) / 2 * chi1 <= (k + Sq) / 2) by (split; nra).
  assert (B : - ((k - Sq) / 2) <= (k - Sq) / 2 * chi2 <= (k - Sq) / 2) by (split; nra). lra.
Qed.
Let s : R := 5 / 10 * (1 + Sq) * (5 / 10 * (1 + Sq)) * chi1 + 5 / 10 * (1 - Sq) * (5 / 10 * (1 - Sq)) * chi2.
Lemma spin_sum_range : - (1 - 2 * eta) <= s <= 1 - 2 * eta.
Proof.
  destruct Seta_spec as (P & Q & _). unfold s.
  set (A := 5 / 10 * (1 + Sq) * (5 / 10 * (1 + Sq))). set (B := 5 / 10 * (1 - Sq) * (5 / 10 * (1 - Sq))).
  assert (PA : 0 <= A) by (unfold A; nra). assert (PB : 0 <= B) by (unfold B; nra). assert (E : A + B = 1 - 2 * eta) by (unfold A, B; nra).
  clearbody A B. split; nra.
Qed.
Theorem pd_final_spin_range : - 1 <= FinalSpin0815 eta (eta * eta) chi1 chi2 <= 1.
Proof.
  pose proof spin_sum_range as R. destruct Seta_spec as (P & Q & _).
  assert (E : FinalSpin0815 eta (eta * eta) chi1 chi2 = fs_poly eta s).
  { unfold FinalSpin0815, fs_poly. cbv zeta. fold Sq. fold s. clearbody s. field. lra. }
  rewrite E. set (u := 4 * eta). set (w := (s / (1 - 2 * eta) + 1) / 2).
  assert (Hu : 0 <= u <= 1) by (unfold u; lra).
  assert (Ew : 2 * w - 1 = s / (1 - 2 * eta)) by (unfold w; field; lra).
  assert (Hw : 0 <= w <= 1).
  { assert (- 1 <= s / (1 - 2 * eta) <= 1); [|unfold w; lra]. split; [apply Rmult_le_reg_r with (1 - 2 * eta)|apply Rmult_le_reg_r with (1 - 2 * eta)]; try lra;
    unfold Rdiv; rewrite Rmult_assoc, Rinv_l, Rmult_1_r by lra; lra. }
  pose proof (fs_hi u w Hu Hw) as A. pose proof (fs_lo u w Hu Hw) as B. rewrite Ew in A, B. replace (u / 4) with eta in A, B by (unfold u; field).
  replace ((1 - 2 * eta) * (s / (1 - 2 * eta))) with s in A, B by (field; lra). lra.
Qed.
Theorem pd_radiated_energy_range : 0 <= PhenomInternal_EradRational0815 eta (eta * eta) chi1 chi2 <= 13 / 100.
Proof.
  pose proof spin_sum_range as R. destruct Seta_spec as (P & Q & _).
  set (t := s / (1 - 2 * eta)).
  assert (E : PhenomInternal_EradRational0815 eta (eta * eta) chi1 chi2 = er_num eta t / er_den eta t).
  { unfold PhenomInternal_EradRational0815, er_num, er_den. cbv zeta. fold Sq. fold s.
    replace (5 / 10 * (1 + Sq) * (5 / 10 * (1 + Sq)) + 5 / 10 * (1 - Sq) * (5 / 10 * (1 - Sq))) with (1 - 2 * eta) by nra. fold t. reflexivity. }
  rewrite E. set (u := 4 * eta). set (w := (t + 1) / 2). assert (Hu : 0 <= u <= 1) by (unfold u; lra).
  assert (Ew : 2 * w - 1 = t) by (unfold w; field).
  assert (Ht : - 1 <= t <= 1).
  { unfold t. split; [apply Rmult_le_reg_r with (1 - 2 * eta)|apply Rmult_le_reg_r with (1 - 2 * eta)]; try lra; unfold Rdiv; rewrite Rmult_assoc, Rinv_l, Rmult_1_r by lra; lra. }
  assert (Hw : 0 <= w <= 1) by (unfold w; lra).
  pose proof (er_num_lo u w Hu Hw) as A. pose proof (er_den_lo u w Hu Hw) as B. pose proof (er_ratio u w Hu Hw) as C0.
  rewrite Ew in A, B, C0. replace (u / 4) with eta in A, B, C0 by (unfold u; field).
  generalize dependent (er_num eta t). generalize dependent (er_den eta t). intros D B N E' A C0.
  split; [apply Rmult_le_pos; [lra|apply Rlt_le, Rinv_0_lt_compat; lra]|]. apply Rmult_le_reg_r with D; [lra|]. unfold Rdiv at 1. rewrite Rmult_assoc, Rinv_l, Rmult_1_r by lra. lra.
Qed.
Let xi : R := - 1 + chiPN Sq eta chi1 chi2.
Theorem gamma_ranges : 1 / 1000 <= gamma1_fun eta (eta * eta) xi /\ 1 / 5 <= gamma2_fun eta (eta * eta) xi /\ 1 <= gamma3_fun eta (eta * eta) xi <= 3 / 2.
Proof.
  pose proof chiPN_range as R. set (u := 4 * eta). set (w := - xi / 2). assert (Hu : 0 <= u <= 1) by (unfold u; lra). assert (Hw : 0 <= w <= 1) by (unfold w, xi; lra).
  pose proof (gamma1_fun_lo u w Hu Hw) as A. pose proof (gamma2_fun_lo u w Hu Hw) as B. pose proof (gamma3_fun_lo u w Hu Hw) as C0. pose proof (gamma3_fun_hi u w Hu Hw) as D.
  replace (u / 4) with eta in A, B, C0, D by (unfold u; field). replace (- (2) * w) with xi in A, B, C0, D by (unfold w; field). lra.
Qed.
End Fits.
