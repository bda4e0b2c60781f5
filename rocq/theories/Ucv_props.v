(** C27: UniformComovingVolume / RateEvolution. *)
From Coquelicot Require Import Coquelicot.
From Verif Require Import Base Rutil Dist_model.
Local Open Scope R_scope.

(** a strictly increasing table *)
Definition strict (n : nat) (x : nat -> R) : Prop := forall i j, (i < j < n)%nat -> x i < x j.

Lemma strict_le n x i j : strict n x -> (i <= j < n)%nat -> x i <= x j.
Proof. intros H Hij. destruct (Nat.eq_dec i j) as [->|]; [lra|]. apply Rlt_le, H. lia. Qed.

(** ** interpolation *)
Lemma bucketize_le n x v : (bucketize n x v <= n)%nat.
Proof.
  unfold bucketize. rewrite <- (seq_length n 0) at 2. generalize (seq 0 n). clear.
  induction l as [|a l IH]; cbn; [lia|]. destruct (Rle_dec (x a) v); cbn; lia.
Qed.
Lemma bucketize_S n x v : bucketize (S n) x v = (bucketize n x v + if Rle_dec (x n) v then 1 else 0)%nat.
Proof.
  unfold bucketize. rewrite seq_S, filter_app, app_length. cbn. destruct (Rle_dec (x n) v); cbn; lia.
Qed.
Lemma bucketize_spec n x v : strict n x ->
  (forall i, (i < bucketize n x v)%nat -> x i <= v) /\ (forall i, (bucketize n x v <= i < n)%nat -> v < x i).
Proof.
  induction n as [|n IH]; intros Hs; [unfold bucketize; cbn; split; intros; lia|].
  assert (Hs' : strict n x) by (intros i j H; apply Hs; lia). destruct (IH Hs') as [A B].
  rewrite bucketize_S. destruct (Rle_dec (x n) v) as [L|L].
  - assert (E : bucketize n x v = n).
    { destruct (Nat.eq_dec (bucketize n x v) n) as [|N]; [assumption|]. pose proof (bucketize_le n x v).
      assert (v < x (n - 1)%nat) by (apply B; lia). assert (x (n - 1)%nat < x n) by (apply Hs; lia). lra. }
    rewrite E in *. split; [|intros; lia]. intros i Hi. destruct (Nat.eq_dec i n) as [->|]; [exact L|apply A; lia].
  - rewrite Nat.add_0_r. split; [exact A|]. intros i Hi. destruct (Nat.eq_dec i n) as [->|]; [lra|]. apply B; lia.
Qed.
Lemma bucketize_unique n x v k : strict n x -> (k <= n)%nat ->
  (forall i, (i < k)%nat -> x i <= v) -> (forall i, (k <= i < n)%nat -> v < x i) -> bucketize n x v = k.
Proof.
  intros Hs Hk A B. destruct (bucketize_spec n x v Hs) as [A' B']. pose proof (bucketize_le n x v).
  destruct (Nat.lt_trichotomy (bucketize n x v) k) as [L|[|L]]; [|assumption|].
  - specialize (A _ L). specialize (B' (bucketize n x v) ltac:(lia)). lra.
  - specialize (A' k L). specialize (B k ltac:(lia)). lra.
Qed.

Lemma idx_spec n x v : (2 <= n)%nat -> strict n x -> let i := interp_idx n x v in
  (1 <= i <= n - 1)%nat /\ (i = 1%nat \/ x (i - 1)%nat <= v) /\ (i = (n - 1)%nat \/ v < x i).
Proof.
  intros Hn Hs. cbn zeta. unfold interp_idx. destruct (bucketize_spec n x v Hs) as [A B]. pose proof (bucketize_le n x v).
  set (k := bucketize n x v) in *. split; [lia|]. split.
  - destruct (Nat.le_gt_cases k 1); [left; lia|]. right. apply A. lia.
  - destruct (Nat.le_gt_cases (n - 1) k); [left; lia|]. right. apply B. lia.
Qed.
Lemma idx_unique n x v i : (2 <= n)%nat -> strict n x -> (1 <= i <= n - 1)%nat ->
  (i = 1%nat \/ x (i - 1)%nat <= v) -> (i = (n - 1)%nat \/ v < x i) -> interp_idx n x v = i.
Proof.
  intros Hn Hs Hi A B. destruct (idx_spec n x v Hn Hs) as [Hj [A' B']]. set (j := interp_idx n x v) in *.
  destruct (Nat.lt_trichotomy i j) as [L|[E|L]]; [|congruence|].
  - destruct B as [B|B]; [lia|]. destruct A' as [A'|A']; [lia|]. pose proof (strict_le n x i (j - 1) Hs ltac:(lia)). lra.
  - destruct B' as [B'|B']; [lia|]. destruct A as [A|A]; [lia|]. pose proof (strict_le n x j (i - 1) Hs ltac:(lia)). lra.
Qed.

Lemma cell_lt n x y i v w : strict n x -> strict n y -> (1 <= i <= n - 1)%nat -> v < w ->
  y (i - 1)%nat + (v - x (i - 1)%nat) / (x i - x (i - 1)%nat) * (y i - y (i - 1)%nat) <
  y (i - 1)%nat + (w - x (i - 1)%nat) / (x i - x (i - 1)%nat) * (y i - y (i - 1)%nat).
Proof.
  intros Hx Hy Hi H. assert (x (i - 1)%nat < x i) by (apply Hx; lia). assert (y (i - 1)%nat < y i) by (apply Hy; lia).
  assert (Hd : 0 < / (x i - x (i - 1)%nat)) by (apply Rinv_0_lt_compat; lra). unfold Rdiv.
  apply Rplus_lt_compat_l. apply Rmult_lt_compat_r; [lra|]. apply Rmult_lt_compat_r; [exact Hd|lra].
Qed.
Lemma cell_end x y i : x (i - 1)%nat < x i ->
  y (i - 1)%nat + (x i - x (i - 1)%nat) / (x i - x (i - 1)%nat) * (y i - y (i - 1)%nat) = y i.
Proof. intros. field. lra. Qed.
Lemma cell_start x y i : x (i - 1)%nat < x i ->
  y (i - 1)%nat + (x (i - 1)%nat - x (i - 1)%nat) / (x i - x (i - 1)%nat) * (y i - y (i - 1)%nat) = y (i - 1)%nat.
Proof. intros. field. lra. Qed.

(** strictly increasing tables interpolate to a strictly increasing function (also beyond the ends) *)
Theorem interp_mono n x y v w : (2 <= n)%nat -> strict n x -> strict n y -> v < w -> interp n x y v < interp n x y w.
Proof.
  intros Hn Hx Hy H. unfold interp.
  destruct (idx_spec n x v Hn Hx) as [Hi [Ai Bi]]. destruct (idx_spec n x w Hn Hx) as [Hj [Aj Bj]]. cbn zeta in *.
  set (i := interp_idx n x v) in *. set (j := interp_idx n x w) in *.
  destruct (Nat.lt_trichotomy i j) as [L|[E|L]].
  - destruct Bi as [Bi|Bi]; [lia|]. destruct Aj as [Aj|Aj]; [lia|].
    pose proof (cell_lt n x y i v (x i) Hx Hy Hi Bi) as C1. rewrite cell_end in C1 by (apply Hx; lia).
    assert (C2 : y (j - 1)%nat <= y (j - 1)%nat + (w - x (j - 1)%nat) / (x j - x (j - 1)%nat) * (y j - y (j - 1)%nat)).
    { destruct Aj as [Aj|Aj].
      - pose proof (cell_lt n x y j _ _ Hx Hy Hj Aj) as C. rewrite cell_start in C by (apply Hx; lia). lra.
      - rewrite <- Aj. rewrite cell_start by (apply Hx; lia). lra. }
    pose proof (strict_le n y i (j - 1) Hy ltac:(lia)). lra.
  - rewrite <- E. apply (cell_lt n); assumption.
  - exfalso. destruct Bj as [Bj|Bj]; [lia|]. destruct Ai as [Ai|Ai]; [lia|]. pose proof (strict_le n x j (i - 1) Hx ltac:(lia)). lra.
Qed.
(** the knots are reproduced *)
Theorem interp_knot n x y k : (2 <= n)%nat -> strict n x -> (k < n)%nat -> interp n x y (x k) = y k.
Proof.
  intros Hn Hx Hk. unfold interp. destruct (Nat.eq_dec k (n - 1)) as [->|N].
  - rewrite (idx_unique n x _ (n - 1)) by (try assumption; try lia; right; apply Rlt_le, Hx; lia). apply cell_end, Hx. lia.
  - rewrite (idx_unique n x _ (S k)); try assumption; try lia.
    + replace (S k - 1)%nat with k by lia. assert (x k < x (S k)) by (apply Hx; lia). field. lra.
    + right. replace (S k - 1)%nat with k by lia. lra.
    + right. apply Hx. lia.
Qed.
(** and the range is respected *)
Theorem interp_range n x y v : (2 <= n)%nat -> strict n x -> strict n y -> x 0%nat <= v <= x (n - 1)%nat ->
  y 0%nat <= interp n x y v <= y (n - 1)%nat.
Proof.
  intros Hn Hx Hy [A B]. rewrite <- (interp_knot n x y 0 Hn Hx) by lia. rewrite <- (interp_knot n x y (n - 1) Hn Hx) by lia.
  split.
  - destruct A as [A| <-]; [left; apply interp_mono; assumption|lra].
  - destruct B as [B| ->]; [left; apply interp_mono; assumption|lra].
Qed.
(** interpolating back through the same table is the identity *)
Theorem interp_inverse n x y v : (2 <= n)%nat -> strict n x -> strict n y -> x 0%nat <= v <= x (n - 1)%nat ->
  interp n y x (interp n x y v) = v.
Proof.
  intros Hn Hx Hy [A B]. destruct (idx_spec n x v Hn Hx) as [Hi [Ai Bi]]. cbn zeta in *. set (i := interp_idx n x v) in *.
  assert (Xi : x (i - 1)%nat < x i) by (apply Hx; lia). assert (Yi : y (i - 1)%nat < y i) by (apply Hy; lia).
  assert (Lo : x (i - 1)%nat <= v) by (destruct Ai as [Ai|Ai]; [rewrite Ai; exact A|exact Ai]).
  assert (W : interp n x y v = y (i - 1)%nat + (v - x (i - 1)%nat) / (x i - x (i - 1)%nat) * (y i - y (i - 1)%nat)) by reflexivity.
  assert (E : interp_idx n y (interp n x y v) = i).
  { apply idx_unique; try assumption.
    - right. rewrite W. destruct Lo as [Lo|Lo].
      + pose proof (cell_lt n x y i _ _ Hx Hy Hi Lo) as C. rewrite cell_start in C by exact Xi. lra.
      + rewrite <- Lo. rewrite cell_start by exact Xi. lra.
    - destruct Bi as [Bi|Bi]; [now left|]. right. rewrite W.
      pose proof (cell_lt n x y i v (x i) Hx Hy Hi Bi) as C. rewrite cell_end in C by exact Xi. exact C. }
  unfold interp at 1. rewrite E. rewrite W. field. lra.
Qed.

(** ** trapezoidal integrals *)
Lemma cumtrapz_S y x k : cumtrapz y x (S k) = cumtrapz y x k + (x (S k) - x k) * (y k + y (S k)) / 2.
Proof. reflexivity. Qed.
Lemma cumtrapz_strict n y x : strict n x -> (forall k, (k < n)%nat -> 0 <= y k) -> (forall k, (0 < k < n)%nat -> 0 < y k) ->
  strict n (cumtrapz y x).
Proof.
  intros Hx H0 H1 i j Hij. induction j as [|j IH]; [lia|].
  assert (S1 : cumtrapz y x j < cumtrapz y x (S j)).
  { rewrite cumtrapz_S. assert (x j < x (S j)) by (apply Hx; lia). assert (0 <= y j) by (apply H0; lia). assert (0 < y (S j)) by (apply H1; lia). nra. }
  destruct (Nat.eq_dec i j) as [->|]; [exact S1|]. assert (cumtrapz y x i < cumtrapz y x j) by (apply IH; lia). lra.
Qed.
Lemma cumtrapz_scal y x c k : cumtrapz (fun i => y i / c) x k = cumtrapz y x k / c.
Proof. unfold cumtrapz. unfold Rdiv. rewrite <- Rsum_scal_r. apply Rsum_ext. intros i _. ring. Qed.

  Lemma nth_filter_seq n (f : nat -> bool) i j : let l := filter f (seq 0 n) in
    (i < j < length l)%nat -> (nth i l 0 < nth j l 0)%nat.
  Proof.
    cbn zeta. revert i j. assert (G : forall m b i j, (i < j < length (filter f (seq b m)))%nat -> (nth i (filter f (seq b m)) 0 < nth j (filter f (seq b m)) 0)%nat).
    { induction m as [|m IH]; intros b i j H; cbn in *; [lia|]. destruct (f b); [|apply IH; exact H].
      destruct j as [|j]; [lia|]. cbn [nth length] in *. destruct i as [|i].
      - assert (In (nth j (filter f (seq (S b) m)) 0%nat) (filter f (seq (S b) m))) as Hin by (apply nth_In; lia).
        apply filter_In in Hin. destruct Hin as [Hin _]. apply in_seq in Hin. lia.
      - apply IH. lia. }
    apply G.
  Qed.

Section Proofs.
  Variables (h0 om zmax : R) (n : nat) (ty : dtype) (rate : R -> R).
  Hypothesis (Hh : 0 < h0) (Hom : 0 <= om) (Hz : 0 < zmax) (Hrate : forall z, 0 <= z -> 0 < rate z).

  Lemma zg_nonneg i : 0 <= zg zmax n i.
  Proof using All.
    unfold zg, linspace0. apply Rmult_le_pos; [apply pos_INR|]. unfold Rdiv. apply Rmult_le_pos; [lra|].
    destruct (Req_dec (INR (n - 1)) 0) as [->|N]; [rewrite Rinv_0; lra|]. apply Rlt_le, Rinv_0_lt_compat. pose proof (pos_INR (n - 1)). lra.
  Qed.
  Lemma zg_strict : (2 <= n)%nat -> strict n (zg zmax n).
  Proof using All.
    intros Hn i j Hij. unfold zg, linspace0. assert (0 < INR (n - 1)) by (apply INR_pos; lia).
    apply Rmult_lt_compat_r; [apply Rdiv_lt_0_compat; lra|]. apply lt_INR. lia.
  Qed.
  Lemma zg_0 : zg zmax n 0 = 0.
  Proof using All. unfold zg, linspace0. cbn. ring. Qed.
  Lemma zg_last : (2 <= n)%nat -> zg zmax n (n - 1) = zmax.
  Proof using All. intros Hn. unfold zg, linspace0. field. apply not_0_INR. lia. Qed.
  Lemma hubble_pos z : 0 <= z -> 0 < hubble h0 om z.
  Proof using All.
    intros H. unfold hubble. apply Rmult_lt_0_compat; [exact Hh|]. apply sqrt_lt_R0.
    assert (1 <= (1 + z) ^ 3) by (cbn; nra). nra.
  Qed.
  Lemma comoving_strict : (2 <= n)%nat -> strict n (comoving h0 om zmax n).
  Proof using All.
    intros Hn i j Hij. unfold comoving. apply Rmult_lt_compat_r; [lra|]. apply (cumtrapz_strict n); [apply zg_strict, Hn| | |lia].
    - intros k _. apply Rlt_le, Rdiv_lt_0_compat; [unfold C_light; lra|apply hubble_pos, zg_nonneg].
    - intros k _. apply Rdiv_lt_0_compat; [unfold C_light; lra|apply hubble_pos, zg_nonneg].
  Qed.
  Lemma comoving_0 : comoving h0 om zmax n 0 = 0.
  Proof using All. unfold comoving, cumtrapz. cbn. unfold Rdiv. ring. Qed.
  Lemma comoving_pos i : (2 <= n)%nat -> (0 < i < n)%nat -> 0 < comoving h0 om zmax n i.
  Proof using All. intros Hn Hi. rewrite <- comoving_0. apply comoving_strict; [exact Hn|lia]. Qed.
  Lemma comoving_nonneg i : (2 <= n)%nat -> (i < n)%nat -> 0 <= comoving h0 om zmax n i.
  Proof using All. intros Hn Hi. rewrite <- comoving_0. apply (strict_le n); [apply comoving_strict, Hn|lia]. Qed.
  Lemma dist_strict : (2 <= n)%nat -> strict n (dist_grid h0 om zmax n ty).
  Proof using All.
    intros Hn. destruct ty; cbn [dist_grid]; [apply zg_strict, Hn|apply comoving_strict, Hn|].
    intros i j Hij. unfold luminosity. pose proof (comoving_strict Hn i j Hij). pose proof (comoving_nonneg i Hn ltac:(lia)).
    pose proof (zg_strict Hn i j Hij). pose proof (zg_nonneg i). nra.
  Qed.
  Lemma dist_0 : dist_grid h0 om zmax n ty 0 = 0.
  Proof using All. destruct ty; cbn [dist_grid]; [apply zg_0|apply comoving_0|]. unfold luminosity. rewrite comoving_0. ring. Qed.

  (** The tabulated comoving distance is the trapezoidal rule for D_C(z) = (1/1000) * integral of c / H: within half a grid
      step times the total variation of the integrand.  (C in m/s, h0 in km/s/Mpc; so D_C is in Mpc.) *)
  Definition c_over_H (z : R) : R := 299792458 / (h0 * sqrt (om * (1 + z) ^ 3 + (1 - om))).
  Lemma c_over_H_decr a b : 0 <= a -> a <= b -> c_over_H b <= c_over_H a.
  Proof using All.
    intros Ha Hab. unfold c_over_H, Rdiv. apply Rmult_le_compat_l; [lra|].
    pose proof (hubble_pos a Ha) as P. unfold hubble in P. apply Rinv_le_contravar; [exact P|]. apply Rmult_le_compat_l; [lra|].
    apply sqrt_le_1_alt. assert ((1 + a) ^ 3 <= (1 + b) ^ 3) by (apply pow_incr; lra). nra.
  Qed.
  Lemma c_over_H_cont z : 0 <= z -> continuous c_over_H z.
  Proof using All.
    intros H. pose proof (hubble_pos z H) as P. unfold hubble in P. apply (ex_derive_continuous c_over_H). unfold c_over_H.
    assert (1 <= (1 + z) ^ 3) by (cbn; nra). assert (0 < om * (1 + z) ^ 3 + (1 - om)) by nra.
    auto_derive. repeat split; cbn in *; lra.
  Qed.
  Lemma c_over_H_int a b : 0 <= a -> a <= b -> ex_RInt c_over_H a b.
  Proof using All. intros Ha Hab. apply (@ex_RInt_continuous R_CompleteNormedModule). intros z Hz'. rewrite Rmin_left, Rmax_right in Hz' by lra. apply c_over_H_cont. lra. Qed.
  Theorem ucv_comoving_distance i : (2 <= n)%nat -> (i < n)%nat ->
    Rabs (comoving h0 om zmax n i - RInt c_over_H 0 (zg zmax n i) / 1000) <= dz zmax n / 2 * (c_over_H 0 - c_over_H (zg zmax n i)) / 1000.
  Proof using All.
    intros Hn Hi. assert (HD : forall j, zg zmax n (S j) - zg zmax n j = dz zmax n).
    { intros j. unfold dz, zg, linspace0. rewrite S_INR. cbn [INR]. ring. }
    assert (D0 : 0 < dz zmax n) by (unfold dz; pose proof (zg_strict Hn 0%nat 1%nat ltac:(lia)); lra).
    unfold comoving. change (fun k => C_light / hubble h0 om (zg zmax n k)) with (fun k => c_over_H (zg zmax n k)).
    assert (G : Rabs (cumtrapz (fun k => c_over_H (zg zmax n k)) (zg zmax n) i - RInt c_over_H 0 (zg zmax n i)) <= dz zmax n / 2 * (c_over_H 0 - c_over_H (zg zmax n i))).
    { clear Hi. induction i as [|i IH].
      - rewrite zg_0, RInt_point. unfold cumtrapz, zero. cbn. rewrite !Rminus_diag_eq, Rabs_R0 by reflexivity. lra.
      - rewrite cumtrapz_S, HD. pose proof (zg_nonneg i) as Z0. set (a := zg zmax n i) in *. set (b := zg zmax n (S i)) in *.
        assert (Hab : b = a + dz zmax n) by (unfold a, b; rewrite <- (HD i); ring).
        rewrite <- (RInt_Chasles c_over_H 0 a b) by (apply c_over_H_int; lra).
        change (plus (RInt c_over_H 0 a) (RInt c_over_H a b)) with (RInt c_over_H 0 a + RInt c_over_H a b).
        assert (B1 : dz zmax n * c_over_H b <= RInt c_over_H a b).
        { replace (dz zmax n * c_over_H b) with (RInt (fun _ => c_over_H b) a b) by (rewrite RInt_const; unfold scal; cbn; unfold mult; cbn; rewrite Hab; ring).
          apply RInt_le; [lra|apply ex_RInt_const|apply c_over_H_int; lra|]. intros z Hz'. apply c_over_H_decr; lra. }
        assert (B2 : RInt c_over_H a b <= dz zmax n * c_over_H a).
        { replace (dz zmax n * c_over_H a) with (RInt (fun _ => c_over_H a) a b) by (rewrite RInt_const; unfold scal; cbn; unfold mult; cbn; rewrite Hab; ring).
          apply RInt_le; [lra|apply c_over_H_int; lra|apply ex_RInt_const|]. intros z Hz'. apply c_over_H_decr; lra. }
        apply Rabs_le_between in IH. apply Rabs_le_between. lra. }
    replace (cumtrapz (fun k => c_over_H (zg zmax n k)) (zg zmax n) i / 1000 - RInt c_over_H 0 (zg zmax n i) / 1000)
      with ((cumtrapz (fun k => c_over_H (zg zmax n k)) (zg zmax n) i - RInt c_over_H 0 (zg zmax n i)) / 1000) by field.
    unfold Rdiv at 1. rewrite Rabs_mult, (Rabs_pos_eq (/ 1000)) by lra. apply (Rmult_le_compat_r (/ 1000)) in G; [|lra]. exact G.
  Qed.
  (** ... and the grids the samples are drawn on: z, D_C and D_L = (1 + z) D_C on n equally spaced redshifts from 0 to z_max *)
  Theorem ucv_grids i : (2 <= n)%nat -> (i < n)%nat -> zg zmax n i = INR i / INR (n - 1) * zmax /\
    dist_grid h0 om zmax n Redshift i = zg zmax n i /\
    dist_grid h0 om zmax n ComovingDistance i = comoving h0 om zmax n i /\
    dist_grid h0 om zmax n LuminosityDistance i = (1 + zg zmax n i) * comoving h0 om zmax n i.
  Proof using All. intros Hn Hi. repeat split; cbn [dist_grid]; unfold luminosity, zg, linspace0; try ring. field. apply not_0_INR. lia. Qed.

  (** The constructor's range check: ValueError exactly when the maximum exceeds the last distance of the grid. *)
  Theorem ucv_create_valueerror minimum maximum : (2 <= n)%nat ->
    ucv_create h0 om zmax n ty minimum maximum = Err ValueError <-> dist_grid h0 om zmax n ty (n - 1) < maximum.
  Proof using All.
    intros Hn. unfold ucv_create. destruct (Nat.ltb_spec n 2); [lia|].
    set (d := dist_grid h0 om zmax n ty). assert (Hd : strict n d) by (apply dist_strict, Hn). assert (Hzg : strict n (zg zmax n)) by (apply zg_strict, Hn).
    assert (K : interp n d (zg zmax n) (d (n - 1)%nat) = zmax) by (rewrite interp_knot by (try assumption; lia); apply zg_last, Hn).
    destruct (Rlt_dec zmax (interp n d (zg zmax n) maximum)) as [L|L].
    - split; [intros _|reflexivity]. destruct (Rlt_dec (d (n - 1)%nat) maximum) as [|N]; [assumption|].
      assert (maximum < d (n - 1)%nat \/ maximum = d (n - 1)%nat) as [L'| ->] by lra; [|lra].
      apply (interp_mono n d (zg zmax n)) in L'; try assumption. lra.
    - split.
      + destruct (length _ <? 2)%nat; discriminate.
      + intros L'. apply (interp_mono n d (zg zmax n)) in L'; try assumption. lra.
  Qed.

  Variables (minimum maximum : R) (s : ucv).
  Hypothesis (Hs : ucv_create h0 om zmax n ty minimum maximum = Ok s).

  Lemma ucv_facts : exists idx, (2 <= n)%nat /\ (2 <= length idx)%nat /\ u_n s = length idx /\ u_min s = minimum /\ u_max s = maximum /\
    (forall i j, (i < j < length idx)%nat -> (nth i idx 0 < nth j idx 0)%nat) /\
    (forall k, (k < length idx)%nat -> (nth k idx 0 < n)%nat /\
       interp n (dist_grid h0 om zmax n ty) (zg zmax n) minimum <= zg zmax n (nth k idx 0%nat) <= interp n (dist_grid h0 om zmax n ty) (zg zmax n) maximum) /\
    (forall k, u_z s k = zg zmax n (nth k idx 0%nat)) /\ (forall k, u_d s k = dist_grid h0 om zmax n ty (nth k idx 0%nat)) /\
    (forall k, u_com s k = comoving h0 om zmax n (nth k idx 0%nat)) /\
    (minimum <= 0 -> nth 0 idx 0%nat = 0%nat).
  Proof using All.
    revert Hs. unfold ucv_create. destruct (Nat.ltb_spec n 2) as [|Hn]; [discriminate|].
    set (zlo := interp n _ _ minimum). set (zhi := interp n _ _ maximum).
    destruct (Rlt_dec zmax zhi); [discriminate|]. set (idx := ucv_idx zmax n zlo zhi).
    destruct (Nat.ltb_spec (length idx) 2) as [|Hl]; [discriminate|]. intros H. injection H as <-. cbn.
    exists idx. split; [lia|]. split; [lia|]. do 3 (split; [reflexivity|]).
    split; [intros i j Hij; unfold idx, ucv_idx; apply nth_filter_seq, Hij|].
    assert (F : forall k, (k < length idx)%nat -> (nth k idx 0 < n)%nat /\ zlo <= zg zmax n (nth k idx 0%nat) <= zhi).
    { intros k Hk. assert (Hin : In (nth k idx 0%nat) idx) by (apply nth_In, Hk). unfold idx in Hin at 2. unfold ucv_idx in Hin. apply filter_In in Hin.
      destruct Hin as [Hin Hb]. apply in_seq in Hin. split; [lia|].
      destruct (Rle_dec zlo _); [|discriminate]. destruct (Rle_dec _ zhi); [|discriminate]. lra. }
    split; [exact F|]. do 3 (split; [reflexivity|]).
    intros Hmin.
    assert (Hzlo : zlo <= zg zmax n 0).
    { unfold zlo. rewrite <- (interp_knot n (dist_grid h0 om zmax n ty) (zg zmax n) 0) by (try lia; apply dist_strict; lia). rewrite dist_0.
      destruct Hmin as [L| ->]; [left; apply interp_mono; [lia|apply dist_strict; lia|apply zg_strict; lia|exact L]|lra]. }
    assert (Hzhi : zg zmax n 0 <= zhi) by (destruct (F 0%nat ltac:(lia)) as [_ [_ B]]; pose proof (zg_nonneg (nth 0 idx 0%nat)); rewrite zg_0; lra).
    unfold idx, ucv_idx. destruct n as [|m]; [lia|]. cbn [seq filter].
    destruct (Rle_dec zlo (zg zmax (S m) 0)) as [|N]; [|lra]. destruct (Rle_dec (zg zmax (S m) 0) zhi) as [|N]; [|lra]. reflexivity.
  Qed.

  Lemma ud_strict : strict (u_n s) (u_d s).
  Proof using All.
    destruct ucv_facts as [idx [Hn [Hl [En [_ [_ [Hi [Hk [Ez [Ed [Ec _]]]]]]]]]]]. intros i j Hij. rewrite !Ed. rewrite En in Hij.
    apply dist_strict; [exact Hn|]. split; [apply Hi, Hij|apply Hk; lia].
  Qed.
  Lemma un_ge2 : (2 <= u_n s)%nat.
  Proof using All. destruct ucv_facts as [idx [Hn [Hl [En _]]]]. lia. Qed.

  Lemma gradient_pos k : (k < u_n s)%nat -> 0 < gradient (u_n s) (dz zmax n) (u_d s) k.
  Proof using All.
    intros Hk. pose proof un_ge2 as H2. pose proof ud_strict as Hd.
    assert (Hdz : 0 < dz zmax n). { unfold dz. destruct ucv_facts as [idx [Hn _]]. pose proof (zg_strict Hn 0%nat 1%nat ltac:(lia)). lra. }
    unfold gradient. destruct (Nat.eqb_spec k 0); [|destruct (Nat.eqb_spec k (u_n s - 1))].
    - apply Rdiv_lt_0_compat; [|exact Hdz]. assert (u_d s 0%nat < u_d s 1%nat) by (apply Hd; lia). lra.
    - apply Rdiv_lt_0_compat; [|exact Hdz]. assert (u_d s (u_n s - 2)%nat < u_d s (u_n s - 1)%nat) by (apply Hd; lia). lra.
    - apply Rdiv_lt_0_compat; [|lra]. assert (u_d s (k - 1)%nat < u_d s (S k)) by (apply Hd; lia). lra.
  Qed.
  Lemma up_nonneg k : (k < u_n s)%nat -> 0 <= u_p h0 om zmax n rate s k /\ ((0 < k)%nat -> 0 < u_p h0 om zmax n rate s k).
  Proof using All.
    intros Hk. pose proof (gradient_pos k Hk) as G. unfold u_p.
    destruct ucv_facts as [idx [Hn [Hl [En [_ [_ [Hi [Hkk [Ez [Ed [Ec _]]]]]]]]]]].
    destruct (Hkk k ltac:(lia)) as [B _]. rewrite Ez, Ec.
    set (i := nth k idx 0%nat) in *. pose proof (zg_nonneg i) as Z. pose proof (hubble_pos _ Z) as H. pose proof (Hrate _ Z) as R1.
    assert (Q : 0 < / hubble h0 om (zg zmax n i)) by (apply Rinv_0_lt_compat, H). assert (Q' : 0 < / gradient (u_n s) (dz zmax n) (u_d s) k) by (apply Rinv_0_lt_compat, G).
    assert (P : 0 <= comoving h0 om zmax n i ^ 2) by apply pow2_ge_0.
    split.
    - unfold Rdiv. apply Rmult_le_pos; [apply Rmult_le_pos; [apply Rmult_le_pos|]|]; lra.
    - intros Hk0. assert (0 < i)%nat by (assert (nth 0 idx 0 < nth k idx 0)%nat by (apply Hi; lia); fold i in H0; lia).
      pose proof (comoving_pos i Hn ltac:(lia)). assert (0 < comoving h0 om zmax n i ^ 2) by (apply pow_lt; assumption).
      unfold Rdiv. apply Rmult_lt_0_compat; [apply Rmult_lt_0_compat; [apply Rmult_lt_0_compat|]|]; lra.
  Qed.
  Lemma total_pos : 0 < trapz (u_n s) (u_p h0 om zmax n rate s) (u_d s).
  Proof using All.
    pose proof un_ge2 as H2. unfold trapz. replace 0 with (cumtrapz (u_p h0 om zmax n rate s) (u_d s) 0) by reflexivity.
    apply (cumtrapz_strict (u_n s)); [apply ud_strict| | |lia]; intros k Hk; apply up_nonneg; lia.
  Qed.

  (** The tabulated CDF runs from 0 to 1 and is strictly increasing. *)
  Theorem ucv_cdf_spec : (2 <= u_n s)%nat /\ u_cdf h0 om zmax n rate s 0 = 0 /\ u_cdf h0 om zmax n rate s (u_n s - 1) = 1 /\
    strict (u_n s) (u_cdf h0 om zmax n rate s).
  Proof using All.
    split; [apply un_ge2|]. split; [reflexivity|]. pose proof total_pos as T. split.
    - unfold u_cdf, u_pdf. rewrite cumtrapz_scal. unfold trapz in *. field. lra.
    - intros i j Hij. unfold u_cdf, u_pdf. rewrite !cumtrapz_scal. apply Rmult_lt_compat_r; [apply Rinv_0_lt_compat, T|].
      apply (cumtrapz_strict (u_n s)); [apply ud_strict| | |lia]; intros k Hk; apply up_nonneg; lia.
  Qed.

  (** The tabulated density: proportional to D_C^2 / H(z) (the comoving volume element) times the rate, divided by dd/dz;
      and the tabulated distribution function accumulates it over the distance grid by the trapezoidal rule *)
  Theorem ucv_pdf_spec : exists norm, 0 < norm /\ forall k, (k < u_n s)%nat ->
    u_pdf h0 om zmax n rate s k * norm = u_com s k ^ 2 * rate (u_z s k) / (h0 * sqrt (om * (1 + u_z s k) ^ 3 + (1 - om)) * gradient (u_n s) (dz zmax n) (u_d s) k) /\
    ((S k < u_n s)%nat -> u_cdf h0 om zmax n rate s (S k) - u_cdf h0 om zmax n rate s k =
      (u_d s (S k) - u_d s k) * ((u_pdf h0 om zmax n rate s k + u_pdf h0 om zmax n rate s (S k)) / 2)).
  Proof using All.
    exists (trapz (u_n s) (u_p h0 om zmax n rate s) (u_d s)). pose proof total_pos as T. split; [exact T|]. intros k Hk. split.
    - unfold u_pdf. pose proof (gradient_pos k Hk). destruct ucv_facts as [idx [Hn [Hl [En [_ [_ [Hi [Hkk [Ez _]]]]]]]]].
      assert (Z : 0 <= u_z s k) by (rewrite Ez; apply zg_nonneg). pose proof (hubble_pos _ Z) as HP. unfold hubble in HP.
      replace (u_p h0 om zmax n rate s k / trapz (u_n s) (u_p h0 om zmax n rate s) (u_d s) * trapz (u_n s) (u_p h0 om zmax n rate s) (u_d s)) with (u_p h0 om zmax n rate s k) by (field; lra).
      unfold u_p, hubble. set (q := sqrt _) in *. assert (q <> 0) by (intros E; rewrite E in HP; lra). field. repeat split; lra.
    - intros _. unfold u_cdf. rewrite cumtrapz_S. unfold Rdiv. ring.
  Qed.

  Lemma ud_range k : (k < u_n s)%nat -> minimum <= u_d s k <= maximum.
  Proof using All.
    intros Hk. destruct ucv_facts as [idx [Hn [Hl [En [_ [_ [Hi [Hkk [Ez [Ed [Ec _]]]]]]]]]]].
    destruct (Hkk k ltac:(lia)) as [B [Lo Hi']]. rewrite Ed. set (i := nth k idx 0%nat) in *. set (d := dist_grid h0 om zmax n ty) in *.
    assert (Hd : strict n d) by (apply dist_strict, Hn). assert (Hzg : strict n (zg zmax n)) by (apply zg_strict, Hn).
    rewrite <- (interp_knot n d (zg zmax n) i Hn Hd B) in Lo, Hi'.
    split.
    - destruct (Rle_dec minimum (d i)) as [|N]; [assumption|]. exfalso.
      assert (L : d i < minimum) by lra. apply (interp_mono n d (zg zmax n)) in L; try assumption. lra.
    - destruct (Rle_dec (d i) maximum) as [|N]; [assumption|]. exfalso.
      assert (L : maximum < d i) by lra. apply (interp_mono n d (zg zmax n)) in L; try assumption. lra.
  Qed.

  (** Every sample lies in [minimum, maximum]; the tabulated CDF at the sample is the uniform draw; larger draws give
      larger samples. *)
  Theorem ucv_rsample_spec u : 0 <= u <= 1 ->
    minimum <= u_rsample h0 om zmax n rate s u <= maximum /\
    interp (u_n s) (u_d s) (u_cdf h0 om zmax n rate s) (u_rsample h0 om zmax n rate s u) = u /\
    (forall v, u < v <= 1 -> u_rsample h0 om zmax n rate s u < u_rsample h0 om zmax n rate s v).
  Proof using All.
    intros Hu. destruct ucv_cdf_spec as [H2 [C0 [C1 Cs]]]. pose proof ud_strict as Hd. unfold u_rsample.
    split; [|split].
    - pose proof (interp_range (u_n s) _ (u_d s) u H2 Cs Hd ltac:(rewrite C0, C1; exact Hu)) as B.
      pose proof (ud_range 0 ltac:(lia)). pose proof (ud_range (u_n s - 1) ltac:(lia)). lra.
    - apply interp_inverse; try assumption. rewrite C0, C1. exact Hu.
    - intros v Hv. apply interp_mono; try assumption. lra.
  Qed.

  (** log_prob: -inf outside the requested range; finite for values in the range beyond the second grid point; but when
      minimum <= 0 (sampling from zero distance) it is NaN for every value in the first grid cell. *)
  Theorem ucv_log_prob_outside v : v < minimum \/ maximum < v -> u_log_prob h0 om zmax n rate s v = Some MInf.
  Proof using All.
    destruct ucv_facts as [idx [_ [_ [_ [Em [Ex _]]]]]]. intros H. unfold u_log_prob. rewrite Em, Ex.
    destruct (Rle_dec minimum v); [|reflexivity]. destruct (Rle_dec v maximum); [lra|reflexivity].
  Qed.
  Lemma pdf_pos k : (0 < k < u_n s)%nat -> 0 < u_pdf h0 om zmax n rate s k.
  Proof using All. intros Hk. unfold u_pdf. apply Rdiv_lt_0_compat; [apply up_nonneg; lia|apply total_pos]. Qed.
  Theorem ucv_log_prob_finite v : (3 <= u_n s)%nat -> minimum <= v <= maximum -> u_d s 1%nat <= v ->
    exists r, u_log_prob h0 om zmax n rate s v = Some (Fin r).
  Proof using All.
    intros H3 Hv H1. destruct ucv_facts as [idx [_ [_ [_ [Em [Ex _]]]]]]. unfold u_log_prob. rewrite Em, Ex.
    destruct (Rle_dec minimum v); [|lra]. destruct (Rle_dec v maximum); [|lra]. unfold xinterp.
    pose proof un_ge2 as H2. pose proof ud_strict as Hd. destruct (idx_spec (u_n s) (u_d s) v H2 Hd) as [Hi [_ Bi]]. cbn zeta in *.
    set (i := interp_idx (u_n s) (u_d s) v) in *.
    assert (L : forall k, (0 < k < u_n s)%nat -> xlog (u_pdf h0 om zmax n rate s k) = Fin (ln (u_pdf h0 om zmax n rate s k))).
    { intros k Hk. pose proof (pdf_pos k Hk). unfold xlog. destruct (Rlt_dec 0 (u_pdf h0 om zmax n rate s k)); [reflexivity|lra]. }
    destruct (Nat.eq_dec i 1) as [E1|N1].
    - destruct Bi as [Bi|Bi]; [lia|]. rewrite E1 in Bi. lra.
    - rewrite (L i), (L (i - 1)%nat) by lia. cbn. eexists; reflexivity.
  Qed.
  (** its value: the logarithm of the tabulated density, interpolated linearly in its cell (the first and last cells extend to the ends of the range) *)
  Theorem ucv_log_prob_value v i : (1 <= i <= u_n s - 1)%nat -> (i = 1%nat \/ u_d s (i - 1)%nat <= v) -> (i = (u_n s - 1)%nat \/ v < u_d s i) ->
    0 < u_pdf h0 om zmax n rate s (i - 1) -> minimum <= v <= maximum ->
    u_log_prob h0 om zmax n rate s v = Some (Fin (ln (u_pdf h0 om zmax n rate s (i - 1)) +
      (v - u_d s (i - 1)%nat) / (u_d s i - u_d s (i - 1)%nat) * (ln (u_pdf h0 om zmax n rate s i) - ln (u_pdf h0 om zmax n rate s (i - 1))))).
  Proof using All.
    intros Hi A1 A2 P0 Hv. destruct ucv_facts as [idx [_ [_ [_ [Em [Ex _]]]]]]. unfold u_log_prob. rewrite Em, Ex.
    destruct (Rle_dec minimum v); [|lra]. destruct (Rle_dec v maximum); [|lra]. unfold xinterp.
    rewrite (idx_unique (u_n s) (u_d s) v i un_ge2 ud_strict) by assumption.
    pose proof (pdf_pos i ltac:(lia)) as P1.
    assert (L : forall k, 0 < u_pdf h0 om zmax n rate s k -> xlog (u_pdf h0 om zmax n rate s k) = Fin (ln (u_pdf h0 om zmax n rate s k))).
    { intros k Hk. unfold xlog. destruct (Rlt_dec 0 (u_pdf h0 om zmax n rate s k)); [reflexivity|lra]. }
    rewrite (L i P1), (L (i - 1)%nat P0). reflexivity.
  Qed.
  (** at a grid point it is the logarithm of the tabulated density *)
  Corollary ucv_log_prob_knot k : (3 <= u_n s)%nat -> (1 <= k < u_n s)%nat -> minimum <= u_d s k <= maximum ->
    u_log_prob h0 om zmax n rate s (u_d s k) = Some (Fin (ln (u_pdf h0 om zmax n rate s k))).
  Proof using All.
    intros H3 Hk Hv. pose proof ud_strict as Hd. destruct (Nat.eq_dec k (u_n s - 1)) as [E|E].
    - assert (u_d s (k - 1)%nat < u_d s k) by (apply Hd; lia).
      rewrite (ucv_log_prob_value (u_d s k) k); [|lia|right; lra|left; exact E|apply pdf_pos; lia|exact Hv]. do 2 f_equal. field. lra.
    - assert (u_d s k < u_d s (S k)) by (apply Hd; lia).
      rewrite (ucv_log_prob_value (u_d s k) (S k)); replace (S k - 1)%nat with k by lia; [|lia|right; lra|right; lra|apply pdf_pos; lia|exact Hv]. do 2 f_equal. field. lra.
  Qed.
  Theorem ucv_log_prob_first_cell_refuted v : minimum <= 0 -> 0 <= v -> v < u_d s 1%nat -> v <= maximum ->
    u_log_prob h0 om zmax n rate s v = Some NaN.
  Proof using All.
    intros Hmin Hv0 Hv1 Hvm. destruct ucv_facts as [idx [_ [_ [_ [Em [Ex [_ [_ [_ [Ed [Ec Z]]]]]]]]]]]. specialize (Z Hmin).
    unfold u_log_prob. rewrite Em, Ex.
    destruct (Rle_dec minimum v); [|lra]. destruct (Rle_dec v maximum); [|lra]. unfold xinterp.
    pose proof un_ge2 as H2. pose proof ud_strict as Hd.
    rewrite (idx_unique (u_n s) (u_d s) v 1 H2 Hd) by (try lia; auto). replace (1 - 1)%nat with 0%nat by lia.
    assert (D0 : u_d s 0%nat = 0) by (rewrite Ed, Z; apply dist_0).
    assert (P0 : u_pdf h0 om zmax n rate s 0 = 0).
    { unfold u_pdf, u_p. rewrite Ec, Z, comoving_0. unfold Rdiv. ring. }
    rewrite P0, D0, Rminus_0_r, Rminus_0_r.
    assert (X0 : xlog 0 = MInf). { unfold xlog. destruct (Rlt_dec 0 0); [lra|]. destruct (Req_EM_T 0 0); [reflexivity|lra]. }
    pose proof (pdf_pos 1 ltac:(lia)) as P1.
    assert (X1 : xlog (u_pdf h0 om zmax n rate s 1) = Fin (ln (u_pdf h0 om zmax n rate s 1))) by (unfold xlog; destruct (Rlt_dec 0 _); [reflexivity|lra]).
    rewrite X0, X1. cbn [xsub xmul].
    assert (T : 0 <= v / u_d s 1%nat) by (apply Rmult_le_pos; [lra|]; apply Rlt_le, Rinv_0_lt_compat; lra).
    destruct (Rlt_dec 0 (v / u_d s 1%nat)); [reflexivity|]. destruct (Req_EM_T (v / u_d s 1%nat) 0); [reflexivity|lra].
  Qed.
End Proofs.


(** non-vacuity: redshift in [0, 1] on a five-point grid up to z = 2 (h0 = 70, om = 1/3, no rate evolution) *)
Example ucv_nonvacuous : exists s, ucv_create 70 (1 / 3) 2 5 Redshift 0 1 = Ok s.
Proof.
  assert (Z : forall k, (k < 5)%nat -> zg 2 5 k = INR k / 2) by (intros; unfold zg, linspace0; cbn [Nat.sub INR]; field).
  assert (Hst : strict 5 (zg 2 5)) by (intros i j H; rewrite !Z by lia; apply Rmult_lt_compat_r; [lra|apply lt_INR; lia]).
  assert (I0 : interp 5 (zg 2 5) (zg 2 5) 0 = 0).
  { replace 0 with (zg 2 5 0) at 1 by (rewrite Z by lia; cbn; field). rewrite interp_knot by (try assumption; lia). rewrite Z by lia. cbn. field. }
  assert (I1 : interp 5 (zg 2 5) (zg 2 5) 1 = 1).
  { replace 1 with (zg 2 5 2) at 1 by (rewrite Z by lia; cbn; field). rewrite interp_knot by (try assumption; lia). rewrite Z by lia. cbn. field. }
  unfold ucv_create. change (5 <? 2)%nat with false. cbn iota. cbn [dist_grid]. rewrite I0, I1.
  destruct (Rlt_dec 2 1); [lra|].
  assert (E : ucv_idx 2 5 0 1 = [0; 1; 2]%nat).
  { unfold ucv_idx. cbn [seq filter]. rewrite !Z by lia. cbn [INR].
    repeat match goal with |- context [Rle_dec ?a ?b] => destruct (Rle_dec a b); try lra end. reflexivity. }
  rewrite E. change (length [0; 1; 2]%nat <? 2)%nat with false. cbn iota. eexists; reflexivity.
Qed.
