(** Property C51, part 1: the B-spline basis. *)
From Coq Require Import Sorted.
From Verif Require Import Base Tensor Rutil Slicing_model Norm_model Gw_model Linsolve Spline_model.
Local Open Scope R_scope.

(** ** specification of the knot vector: m + k + 1 non-decreasing knots, the first and last k + 1 repeated, the last interval
    before t_m not empty *)
Record clamped (t : nat -> R) (m k : nat) : Prop := {
  cl_k : (1 <= k)%nat; cl_m : (k < m)%nat;
  cl_mono : forall i j, (i <= j)%nat -> (j <= m + k)%nat -> t i <= t j;
  cl_first : forall j, (j <= k)%nat -> t j = t 0%nat;
  cl_last : forall j, (m <= j <= m + k)%nat -> t j = t m;
  cl_end : t (m - 1)%nat < t m }.

Lemma zeroth_cases t m k x j : clamped t m k -> t 0%nat <= x <= t m -> (j < m)%nat ->
  zeroth t m k x j = if Rle_dec (t j) x then if Rlt_dec x (t (j + 1)%nat) then 1 else if (j =? m - 1)%nat then 1 else 0 else 0.
Proof.
  intros C Hx Hj. unfold zeroth. destruct C as [Ck Cm Cmono Cf Cl Ce].
  rewrite (Cl (m + k - 1)%nat) by lia.
  assert (F1 : t 1%nat = t 0%nat) by (apply Cf; lia).
  assert (E0 : (if (j =? 0)%nat then if Rlt_dec x (t 1%nat) then 1 else if Rle_dec (t j) x then if Rlt_dec x (t (j + 1)%nat) then 1 else 0 else 0
      else if Rle_dec (t j) x then if Rlt_dec x (t (j + 1)%nat) then 1 else 0 else 0) = if Rle_dec (t j) x then if Rlt_dec x (t (j + 1)%nat) then 1 else 0 else 0).
  { destruct (j =? 0)%nat; [|reflexivity]. destruct (Rlt_dec x (t 1%nat)); [lra|reflexivity]. }
  rewrite E0. destruct (Nat.eqb_spec j (m - 1)) as [->|N]; [|destruct (Rle_dec (t j) x); [destruct (Rlt_dec x (t (j + 1)%nat))|]; reflexivity].
  replace (m - 1 + 1)%nat with m by lia. destruct (Rle_dec (t m) x), (Rle_dec (t (m - 1)%nat) x), (Rlt_dec x (t m)); try lra; reflexivity.
Qed.
(** support, and non-negativity *)
Lemma basis_support t m k x : clamped t m k -> t 0%nat <= x <= t m ->
  forall d, (d <= k)%nat -> forall j, (j < m)%nat -> 0 <= basis t m k x d j /\
    (basis t m k x d j <> 0 -> t j <= x <= t (j + d + 1)%nat /\ t j < t (j + d + 1)%nat).
Proof.
  intros C Hx. induction d as [|d IH]; intros Hd j Hj.
  - cbn [basis]. rewrite zeroth_cases by assumption. rewrite Nat.add_0_r. destruct C as [Ck Cm Cmono Cf Cl Ce].
    destruct (Rle_dec (t j) x); [|split; [lra|congruence]]. destruct (Rlt_dec x (t (j + 1)%nat)); [split; [lra|intros _; lra]|].
    destruct (Nat.eqb_spec j (m - 1)) as [->|N]; [|split; [lra|congruence]]. split; [lra|]. intros _. replace (m - 1 + 1)%nat with m by lia. lra.
  - cbn [basis]. specialize (IH ltac:(lia)). pose proof C as [Ck Cm Cmono Cf Cl Ce].
    assert (HL : 0 <= coefL t (S d) j x * basis t m k x d j /\ (coefL t (S d) j x * basis t m k x d j <> 0 -> t j <= x <= t (j + S d)%nat /\ t j < t (j + S d)%nat)).
    { destruct (IH j Hj) as [P Q]. destruct (Req_EM_T (basis t m k x d j) 0) as [E|E]; [rewrite E; split; [lra|intros K; exfalso; apply K; ring]|].
      destruct (Q E) as [Q1 Q2]. replace (j + d + 1)%nat with (j + S d)%nat in * by lia. split; [|intros _; auto].
      apply Rmult_le_pos; [|exact P]. unfold coefL, qdiv. destruct (Req_EM_T _ 0); [lra|]. apply Rle_mult_inv_pos; lra. }
    assert (HR : 0 <= coefR t (S d) j x * (if (j + 1 <? m)%nat then basis t m k x d (j + 1) else 0) /\
       (coefR t (S d) j x * (if (j + 1 <? m)%nat then basis t m k x d (j + 1) else 0) <> 0 -> t (j + 1)%nat <= x <= t (j + S d + 1)%nat /\ t (j + 1)%nat < t (j + S d + 1)%nat)).
    { destruct (Nat.ltb_spec (j + 1) m) as [Hj1|]; [|split; [lra|intros K; exfalso; apply K; ring]].
      destruct (IH (j + 1)%nat Hj1) as [P Q]. destruct (Req_EM_T (basis t m k x d (j + 1)) 0) as [E|E]; [rewrite E; split; [lra|intros K; exfalso; apply K; ring]|].
      destruct (Q E) as [Q1 Q2]. replace (j + 1 + d + 1)%nat with (j + S d + 1)%nat in * by lia. split; [|intros _; auto].
      apply Rmult_le_pos; [|exact P]. unfold coefR, qdiv. destruct (Req_EM_T _ 0); [lra|]. apply Rle_mult_inv_pos; lra. }
    destruct HL as [PL QL], HR as [PR QR]. split; [lra|]. intros NZ.
    assert (M1 : t (j + S d)%nat <= t (j + S d + 1)%nat) by (apply Cmono; lia). assert (M2 : t j <= t (j + 1)%nat) by (apply Cmono; lia).
    destruct (Req_EM_T (coefL t (S d) j x * basis t m k x d j) 0) as [E|E].
    + rewrite E, Rplus_0_l in NZ. apply QR in NZ. lra.
    + apply QL in E. lra.
Qed.
Lemma find_interval (t : nat -> R) m x : (0 < m)%nat -> t 0%nat <= x < t m -> exists j, (j < m)%nat /\ t j <= x < t (j + 1)%nat.
Proof.
  induction m as [|m IH]; intros Hm Hx; [lia|]. destruct (Rlt_dec x (t m)) as [L|L].
  - destruct m as [|m]; [lra|]. destruct IH as [j [Hj K]]; [lia|lra|]. exists j. split; [lia|exact K].
  - exists m. split; [lia|]. rewrite Nat.add_1_r. lra.
Qed.
Lemma partition0 t m k x : clamped t m k -> t 0%nat <= x <= t m -> Rsum m (zeroth t m k x) = 1.
Proof.
  intros C Hx. pose proof C as [Ck Cm Cmono Cf Cl Ce].
  assert (U : exists j, (j < m)%nat /\ t j <= x /\ (x < t (j + 1)%nat \/ j = (m - 1)%nat /\ x = t m)).
  { destruct (Req_EM_T x (t m)) as [->|N].
    - exists (m - 1)%nat. split; [lia|]. split; [lra|]. right. auto.
    - destruct (find_interval t m x) as [j [Hj K]]; [lia|lra|]. exists j. split; [exact Hj|]. split; [lra|left; lra]. }
  destruct U as [j [Hj [L U]]]. rewrite (Rsum_single m j); [|assumption|].
  2:{ intros i Hi Ni. rewrite zeroth_cases by assumption. destruct (Rle_dec (t i) x) as [Li|]; [|reflexivity].
      destruct (Rlt_dec x (t (i + 1)%nat)) as [Lt|NLt].
      - exfalso. destruct (Nat.lt_trichotomy i j) as [K|[K|K]]; [|contradiction|].
        + assert (t (i + 1)%nat <= t j) by (apply Cmono; lia). lra.
        + destruct U as [U|[-> _]]; [|lia]. assert (t (j + 1)%nat <= t i) by (apply Cmono; lia). lra.
      - destruct (Nat.eqb_spec i (m - 1)) as [->|]; [|reflexivity]. exfalso. destruct U as [U|[-> _]]; [|lia].
        assert (t (j + 1)%nat <= t (m - 1)%nat) by (apply Cmono; lia). lra. }
  rewrite zeroth_cases by assumption. destruct (Rle_dec (t j) x); [|lra]. destruct (Rlt_dec x (t (j + 1)%nat)) as [|N]; [reflexivity|].
  destruct U as [U|[-> _]]; [lra|]. rewrite Nat.eqb_refl. reflexivity.
Qed.
(** a weighted sum of degree d in terms of degree d - 1 *)
Lemma basis_step t m k x d w : clamped t m k -> t 0%nat <= x <= t m -> (S d <= k)%nat ->
  Rsum m (fun j => w j * basis t m k x (S d) j)
  = Rsum m (fun j => (if (j =? 0)%nat then 0 else w (j - 1)%nat + (w j - w (j - 1)%nat) * ((x - t j) / (t (j + S d)%nat - t j))) * basis t m k x d j).
Proof.
  intros C Hx Hd. pose proof C as [Ck Cm Cmono Cf Cl Ce].
  assert (B0 : basis t m k x d 0 = 0).
  { destruct (basis_support t m k x C Hx d ltac:(lia) 0%nat ltac:(lia)) as [_ S]. destruct (Req_EM_T (basis t m k x d 0) 0) as [|N]; [assumption|]. destruct (S N) as [_ L].
    rewrite (Cf (0 + d + 1)%nat) in L by lia. lra. }
  destruct m as [|m]; [lia|]. cbn [basis].
  rewrite (Rsum_ext (S m) (fun j => w j * (coefL t (S d) j x * basis t (S m) k x d j + coefR t (S d) j x * (if (j + 1 <? S m)%nat then basis t (S m) k x d (j + 1) else 0)))
     (fun j => w j * (coefL t (S d) j x * basis t (S m) k x d j) + w j * (coefR t (S d) j x * (if (j + 1 <? S m)%nat then basis t (S m) k x d (j + 1) else 0)))) by (intros; ring).
  rewrite Rsum_plus.
  match goal with |- Rsum (S m) ?f1 + Rsum (S m) ?f2 = Rsum (S m) ?f3 =>
    assert (E1 : Rsum (S m) f1 = Rsum m (fun i => f1 (S i))) by (rewrite Rsum_S_l, B0; ring);
    assert (E2 : Rsum (S m) f2 = Rsum m f2) by (cbn [Rsum]; rewrite (Nat.add_1_r m); replace (S m <? S m)%nat with false by (symmetry; apply Nat.ltb_irrefl); ring);
    assert (E3 : Rsum (S m) f3 = Rsum m (fun i => f3 (S i))) by (rewrite Rsum_S_l; cbn [Nat.eqb]; ring);
    rewrite E1, E2, E3; clear E1 E2 E3 end.
  rewrite <- Rsum_plus. apply Rsum_ext. intros j Hj. cbn [Nat.eqb].
  rewrite Nat.add_1_r. replace (S j <? S m)%nat with true by (symmetry; apply Nat.ltb_lt; lia). replace (S j - 1)%nat with j by lia.
  destruct (Req_EM_T (basis t (S m) k x d (S j)) 0) as [E|E]; [rewrite E; ring|].
  destruct (basis_support t (S m) k x C Hx d ltac:(lia) (S j) ltac:(lia)) as [_ Sp]. destruct (Sp E) as [_ L]. clear Sp.
  replace (S j + d + 1)%nat with (S j + S d)%nat in L by lia.
  unfold coefL, coefR, qdiv. replace (j + S d + 1)%nat with (S j + S d)%nat by lia. rewrite Nat.add_1_r.
  destruct (Req_EM_T (t (S j + S d)%nat - t (S j)) 0) as [Z|_]; [lra|]. field. lra.
Qed.
(** the basis functions of every degree up to k sum to one on the whole interval *)
Theorem basis_partition t m k x : clamped t m k -> t 0%nat <= x <= t m -> forall d, (d <= k)%nat -> Rsum m (basis t m k x d) = 1.
Proof.
  intros C Hx. induction d as [|d IH]; intros Hd; [cbn [basis]; apply partition0; assumption|].
  rewrite (Rsum_ext m (basis t m k x (S d)) (fun j => 1 * basis t m k x (S d) j)) by (intros; ring).
  rewrite (basis_step t m k x d (fun _ => 1) C Hx Hd). transitivity (Rsum m (basis t m k x d)); [|apply IH; lia]. apply Rsum_ext. intros j Hj.
  destruct (Nat.eqb_spec j 0) as [->|]; [|ring].
  destruct (basis_support t m k x C Hx d ltac:(lia) 0%nat Hj) as [_ Sp]. destruct (Req_EM_T (basis t m k x d 0) 0) as [E|N]; [rewrite E; ring|]. destruct (Sp N) as [_ L].
  pose proof C as [Ck Cm Cmono Cf Cl Ce]. rewrite (Cf (0 + d + 1)%nat) in L by lia. lra.
Qed.
(** the averages of the d knots t_(j+1) .. t_(j+d), used as coefficients, give back x *)
Definition knot_mean (t : nat -> R) (d j : nat) : R := Rsum d (fun i => t (j + 1 + i)%nat) / INR d.
Theorem basis_identity t m k x : clamped t m k -> t 0%nat <= x <= t m -> forall d, (1 <= d <= k)%nat -> Rsum m (fun j => knot_mean t d j * basis t m k x d j) = x.
Proof.
  intros C Hx. assert (G : forall d, (S d <= k)%nat -> Rsum m (fun j => knot_mean t (S d) j * basis t m k x (S d) j) = x).
  { pose proof C as [Ck Cm Cmono Cf Cl Ce].
    assert (ST : forall d, (S d <= k)%nat -> Rsum m (fun j => knot_mean t (S d) j * basis t m k x (S d) j)
        = Rsum m (fun j => (Rsum d (fun i => t (j + 1 + i)%nat) + x) / INR (S d) * basis t m k x d j)).
    { intros d Hd. rewrite (basis_step t m k x d _ C Hx Hd). apply Rsum_ext. intros j Hj.
      destruct (basis_support t m k x C Hx d ltac:(lia) j Hj) as [_ Sp]. destruct (Req_EM_T (basis t m k x d j) 0) as [E|N]; [rewrite E; ring|]. destruct (Sp N) as [_ L].
      destruct (Nat.eqb_spec j 0) as [->|Nj]; [rewrite (Cf (0 + d + 1)%nat) in L by lia; lra|]. f_equal.
      assert (IS : INR (S d) <> 0) by (apply not_0_INR; lia). unfold knot_mean.
      destruct j as [|j]; [lia|]. replace (S j - 1)%nat with j by lia. replace (S j + d + 1)%nat with (S j + S d)%nat in L by lia.
      assert (E1 : Rsum (S d) (fun i => t (S j + 1 + i)%nat) = Rsum d (fun i => t (S j + 1 + i)%nat) + t (S j + S d)%nat) by (cbn [Rsum]; f_equal; f_equal; lia).
      assert (E2 : Rsum (S d) (fun i => t (j + 1 + i)%nat) = t (S j) + Rsum d (fun i => t (S j + 1 + i)%nat)).
      { rewrite Rsum_S_l. f_equal; [f_equal; lia|]. apply Rsum_ext. intros i Hi. f_equal. lia. }
      rewrite E1, E2. set (s := Rsum d _). field. split; [exact IS|lra]. }
    induction d as [|d IH]; intros Hd; rewrite ST by assumption.
    - rewrite (Rsum_ext m _ (fun j => x * basis t m k x 0 j)) by (intros j Hj; cbn [Rsum]; cbn [INR]; field).
      rewrite Rsum_scal, basis_partition by (try assumption; lia). ring.
    - assert (IS : INR (S d) <> 0) by (apply not_0_INR; lia). assert (IS2 : INR (S (S d)) <> 0) by (apply not_0_INR; lia).
      rewrite (Rsum_ext m _ (fun j => INR (S d) / INR (S (S d)) * (knot_mean t (S d) j * basis t m k x (S d) j) + x / INR (S (S d)) * basis t m k x (S d) j)).
      + rewrite Rsum_plus, !Rsum_scal, IH, basis_partition by (try assumption; lia). rewrite (S_INR (S d)) in *. field. assumption.
      + intros j Hj. unfold knot_mean. field. auto. }
  intros d Hd. destruct d as [|d]; [lia|]. apply G. lia.
Qed.
(** at the right end only the last function is non-zero; at the left end only the first *)
Lemma basis_at_end t m k : clamped t m k -> forall d, (d <= k)%nat -> forall j, (j < m)%nat -> basis t m k (t m) d j = if (j =? m - 1)%nat then 1 else 0.
Proof.
  intros C. pose proof C as [Ck Cm Cmono Cf Cl Ce]. assert (Hx : t 0%nat <= t m <= t m) by (split; [apply Cmono; lia|lra]).
  induction d as [|d IH]; intros Hd j Hj.
  - cbn [basis]. rewrite zeroth_cases by assumption. destruct (Rle_dec (t j) (t m)) as [_|N]; [|exfalso; apply N, Cmono; lia].
    destruct (Rlt_dec (t m) (t (j + 1)%nat)) as [L|_]; [|reflexivity]. assert (t (j + 1)%nat <= t m) by (apply Cmono; lia). lra.
  - cbn [basis]. rewrite (IH ltac:(lia) j Hj). destruct (Nat.eqb_spec j (m - 1)) as [->|N].
    + replace (m - 1 + 1 <? m)%nat with false by (symmetry; apply Nat.ltb_ge; lia). unfold coefL, qdiv. rewrite (Cl (m - 1 + S d)%nat) by lia.
      destruct (Req_EM_T _ 0); [lra|]. field. lra.
    + destruct (Nat.ltb_spec (j + 1) m) as [Hj1|]; [|lia]. rewrite (IH ltac:(lia) (j + 1)%nat Hj1). destruct (Nat.eqb_spec (j + 1) (m - 1)) as [E|]; [|ring].
      unfold coefR, qdiv. rewrite (Cl (j + S d + 1)%nat) by lia. destruct (Req_EM_T _ 0); unfold Rdiv; ring.
Qed.

(** ** the knots of the interpolator *)
(** specification: strictly increasing coordinates *)
Definition increasing (x : list R) : Prop := forall i j, (i < j)%nat -> (j < List.length x)%nat -> at_ x i < at_ x j.
Lemma increasing_sorted x : StronglySorted Rlt x -> increasing x.
Proof.
  induction 1 as [|a l S IH F]; intros i j Hij Hj; [cbn in Hj; lia|]. destruct j as [|j]; [lia|]. cbn in Hj. rewrite Forall_forall in F. destruct i as [|i]; unfold at_; cbn [nth].
  - apply F, nth_In. lia.
  - apply (IH i j); lia.
Qed.
Lemma fit_knots_length x k : (k + 2 <= List.length x)%nat -> List.length (fit_knots x k) = (List.length x + k + 1)%nat.
Proof. intros H. unfold fit_knots. rewrite !app_length, !repeat_length, map_length, seq_length. lia. Qed.
Lemma nth_repeat' {A} (a d : A) n i : (i < n)%nat -> nth i (repeat a n) d = a.
Proof. revert i. induction n; intros i Hi; [lia|]. destruct i; cbn; [reflexivity|apply IHn; lia]. Qed.
Theorem fit_knots_spec x k : (k + 2 <= List.length x)%nat ->
  (forall j, (j <= k)%nat -> at_ (fit_knots x k) j = at_ x 0) /\
  (forall j, (j < List.length x - k - 1)%nat -> at_ (fit_knots x k) (k + 1 + j) = Rsum k (fun i => at_ x (j + 1 + i)) / INR k) /\
  (forall j, (List.length x <= j <= List.length x + k)%nat -> at_ (fit_knots x k) j = at_ x (List.length x - 1)).
Proof.
  intros H. unfold fit_knots. set (n := List.length x) in *.
  assert (AT : forall l i, at_ l i = nth i l 0) by reflexivity. repeat split.
  - intros j Hj. rewrite (AT (_ ++ _)). rewrite app_nth1 by (rewrite repeat_length; lia). apply nth_repeat'. lia.
  - intros j Hj. rewrite (AT (_ ++ _)). rewrite app_nth2 by (rewrite repeat_length; lia). rewrite repeat_length. replace (k + 1 + j - (k + 1))%nat with j by lia.
    rewrite app_nth1 by (rewrite map_length, seq_length; lia).
    rewrite (nth_indep _ 0 ((fun j => Rsum k (fun i => at_ x (1 + j + i)) / INR k) 0%nat)) by (rewrite map_length, seq_length; lia).
    rewrite (map_nth (fun j => Rsum k (fun i => at_ x (1 + j + i)) / INR k)), seq_nth by lia. f_equal. apply Rsum_ext. intros i Hi. f_equal. lia.
  - intros j Hj. rewrite (AT (_ ++ _)). rewrite app_nth2 by (rewrite repeat_length; lia). rewrite repeat_length. rewrite app_nth2 by (rewrite map_length, seq_length; lia). rewrite map_length, seq_length.
    apply nth_repeat'. lia.
Qed.
Lemma window_bounds x k j lo hi : (1 <= k)%nat -> (forall i, (i < k)%nat -> lo < at_ x (j + 1 + i) < hi) -> lo < Rsum k (fun i => at_ x (j + 1 + i)) / INR k < hi.
Proof.
  intros Hk H. assert (P : 0 < INR k) by (apply lt_0_INR; lia).
  assert (A : 0 < Rsum k (fun i => at_ x (j + 1 + i) - lo)) by (apply Rsum_pos; [lia|]; intros i Hi; destruct (H i Hi); lra).
  assert (B : 0 < Rsum k (fun i => hi - at_ x (j + 1 + i))) by (apply Rsum_pos; [lia|]; intros i Hi; destruct (H i Hi); lra).
  rewrite Rsum_minus, Rsum_const in A, B. split.
  - apply (Rmult_lt_reg_r (INR k)); [assumption|]. unfold Rdiv. rewrite Rmult_assoc, Rinv_l by lra. lra.
  - apply (Rmult_lt_reg_r (INR k)); [assumption|]. unfold Rdiv. rewrite Rmult_assoc, Rinv_l by lra. lra.
Qed.
(** for increasing coordinates: a clamped knot vector with one basis function per coordinate, whose supports satisfy the
    Schoenberg-Whitney condition t_i < x_i < t_(i+k+1) (with equality at the ends only) *)
Theorem fit_knots_clamped x k : (1 <= k)%nat -> (k + 2 <= List.length x)%nat -> increasing x ->
  clamped (at_ (fit_knots x k)) (List.length x) k /\
  at_ (fit_knots x k) 0 = at_ x 0 /\ at_ (fit_knots x k) (List.length x) = at_ x (List.length x - 1) /\
  (forall i, (0 < i < List.length x - 1)%nat -> at_ (fit_knots x k) i < at_ x i < at_ (fit_knots x k) (i + k + 1)).
Proof.
  intros Hk Hn HI. destruct (fit_knots_spec x k Hn) as [K1 [K2 K3]]. set (t := at_ (fit_knots x k)) in *. set (n := List.length x) in *.
  assert (MID : forall j, (j < n - k - 1)%nat -> at_ x j < t (k + 1 + j)%nat < at_ x (j + k + 1)%nat).
  { intros j Hj. rewrite K2 by assumption. apply window_bounds; [assumption|]. intros i Hi. split; apply HI; fold n; lia. }
  assert (STEP : forall j, (j < n + k)%nat -> t j <= t (S j)).
  { intros j Hj. destruct (Nat.lt_ge_cases j k) as [A|A]; [rewrite !K1 by lia; lra|].
    destruct (Nat.lt_ge_cases j n) as [B|B]; [|rewrite !K3 by lia; lra].
    destruct (Nat.eq_dec j k) as [->|Nk].
    - destruct (Nat.eq_dec (S k) n) as [E|E]; [lia|]. rewrite K1 by lia. pose proof (MID 0%nat ltac:(lia)) as M. replace (k + 1 + 0)%nat with (S k) in M by lia. lra.
    - destruct (Nat.eq_dec (S j) n) as [E|E].
      + rewrite (K3 (S j)) by lia. pose proof (MID (j - k - 1)%nat ltac:(lia)) as M. replace (k + 1 + (j - k - 1))%nat with j in M by lia. replace (j - k - 1 + k + 1)%nat with j in M by lia.
        replace (n - 1)%nat with j by lia. lra.
      + replace j with (k + 1 + (j - k - 1))%nat at 1 by lia. replace (S j) with (k + 1 + (j - k))%nat by lia. rewrite !K2 by lia.
        unfold Rdiv. apply Rmult_le_compat_r; [left; apply Rinv_0_lt_compat, lt_0_INR; lia|]. apply Rsum_le. intros i Hi. left. apply HI; fold n; lia. }
  assert (MONO : forall i j, (i <= j)%nat -> (j <= n + k)%nat -> t i <= t j).
  { intros i j Hij. induction Hij as [|j Hij IH]; intros Hj; [lra|]. apply Rle_trans with (t j); [apply IH; lia|apply STEP; lia]. }
  assert (T0 : t 0%nat = at_ x 0) by (apply K1; lia). assert (TN : t n = at_ x (n - 1)) by (apply K3; lia).
  split; [|split; [assumption|split; [assumption|]]].
  - constructor; try assumption; try lia.
    + intros j Hj. rewrite T0. apply K1. assumption.
    + intros j Hj. rewrite TN. apply K3. assumption.
    + rewrite TN. replace (n - 1)%nat with (k + 1 + (n - k - 2))%nat at 1 by lia. pose proof (MID (n - k - 2)%nat ltac:(lia)) as M. replace (n - k - 2 + k + 1)%nat with (n - 1)%nat in M by lia. lra.
  - intros i Hi. split.
    + destruct (Nat.le_gt_cases i k) as [A|A]; [rewrite K1 by lia; apply HI; fold n; lia|].
      pose proof (MID (i - k - 1)%nat ltac:(lia)) as M. replace (k + 1 + (i - k - 1))%nat with i in M by lia. replace (i - k - 1 + k + 1)%nat with i in M by lia. lra.
    + destruct (Nat.lt_ge_cases i (n - k - 1)) as [A|A].
      * pose proof (MID i A) as M. replace (k + 1 + i)%nat with (i + k + 1)%nat in M by lia. lra.
      * rewrite K3 by lia. apply HI; fold n; lia.
Qed.
