(** C111 (Euler's constant): the literal of constants.py line 5 against the limit of
    1 + 1/2 + ... + 1/n - ln n, by Euler-Maclaurin bracketing at n = 2^10. *)
From Coq Require Import Reals Lra Lia ZArith QArith Qreals.
From Coquelicot Require Import Coquelicot.
From Verif Require Import Base Rutil Conv_model.
Local Open Scope R_scope.

(** the n-th harmonic number *)
Definition harmonic (n : nat) : R := Rsum n (fun k => / INR (k + 1)).

(** * Two bracketing sequences *)
Definition tail5 (x : R) : R := - (1 / (2 * x)) + 1 / (12 * x ^ 2) - 1 / (120 * x ^ 4) + 1 / (252 * x ^ 6) - 1 / (240 * x ^ 8) + 1 / (132 * x ^ 10).
Definition tail6 (x : R) : R := tail5 x - 691 / (32760 * x ^ 12).
Definition step5 (x : R) : R := 1 / (x + 1) - (ln (x + 1) - ln x) + (tail5 (x + 1) - tail5 x).
Definition step6 (x : R) : R := 1 / (x + 1) - (ln (x + 1) - ln x) + (tail6 (x + 1) - tail6 x).

Lemma step5_derive x : 0 < x -> is_derive step5 x ((5 / 66 + 5 / 6 * x + 62 / 15 * x ^ 2 + 182 / 15 * x ^ 3 + 487 / 21 * x ^ 4 + 625 / 21 * x ^ 5 + 2654 / 105 * x ^ 6 + 1382 / 105 * x ^ 7 + 691 / 210 * x ^ 8) / (x * (x + 1)) ^ 11).
Proof.
  intro H. unfold step5, tail5. auto_derive.
  - repeat split; try lra; apply Rgt_not_eq; repeat apply Rmult_lt_0_compat; try lra.
  - field. lra.
Qed.
Lemma step6_derive x : 0 < x -> is_derive step6 x (- ((691 / 2730 + 691 / 210 * x + 45431 / 2310 * x ^ 2 + 164947 / 2310 * x ^ 3 + 202241 / 1155 * x ^ 4 + 6395 / 21 * x ^ 5 + 40189 / 105 * x ^ 6 + 5191 / 15 * x ^ 7 + 6533 / 30 * x ^ 8 + 175 / 2 * x ^ 9 + 35 / 2 * x ^ 10) / (x * (x + 1)) ^ 13)).
Proof.
  intro H. unfold step6, tail6, tail5. auto_derive.
  - repeat split; try lra; apply Rgt_not_eq; repeat apply Rmult_lt_0_compat; try lra.
  - field. lra.
Qed.

(** a function with a positive derivative that becomes small is not positive *)
Lemma below_zero f df x0 : (forall x, x0 <= x -> is_derive f x (df x)) -> (forall x, x0 <= x -> 0 <= df x) ->
  (forall e, 0 < e -> exists X, forall x, X <= x -> f x <= e) -> f x0 <= 0.
Proof.
  intros D P L. destruct (Rle_or_lt (f x0) 0) as [|H]; [assumption|exfalso].
  destruct (L (f x0 / 2)) as [X HX]; [lra|]. set (y := Rmax X (x0 + 1)).
  assert (Y1 : X <= y) by apply Rmax_l. assert (Y2 : x0 + 1 <= y) by apply Rmax_r. clearbody y. specialize (HX y Y1).
  assert (Hm : Rmin x0 y = x0) by (apply Rmin_left; lra). assert (HM : Rmax x0 y = y) by (apply Rmax_right; lra).
  destruct (MVT_gen f x0 y df) as [c [[C1 C2] C3]].
  - intros x [A B]. apply D. rewrite Hm in A. lra.
  - intros x [A B]. apply continuity_pt_filterlim. apply (ex_derive_continuous f). exists (df x). apply D. rewrite Hm in A. lra.
  - rewrite Hm in C1. assert (0 <= df c * (y - x0)) by (apply Rmult_le_pos; [apply P; lra|lra]). lra.
Qed.

Lemma ln_step x : 0 < x -> 0 <= ln (x + 1) - ln x <= / x.
Proof.
  intro H. split; [assert (ln x < ln (x + 1)) by (apply ln_increasing; lra); lra|].
  replace (ln (x + 1) - ln x) with (ln ((x + 1) / x)) by (rewrite ln_div; lra).
  replace ((x + 1) / x) with (1 + / x) by (field; lra). apply Rlt_le. assert (0 < / x) by (apply Rinv_0_lt_compat, H).
  apply exp_lt_inv. rewrite exp_ln by lra. apply exp_ineq1. lra.
Qed.
Lemma inv_pow_le x k : 1 <= x -> 0 < / x ^ S k <= / x.
Proof.
  intro H. assert (P : x <= x ^ S k). { cbn. rewrite <- (Rmult_1_r x) at 1. apply Rmult_le_compat_l; [lra|]. apply pow_R1_Rle, H. }
  split; [apply Rinv_0_lt_compat; lra|]. apply Rinv_le_contravar; lra.
Qed.
Lemma tail5_bound x : 1 <= x -> Rabs (tail5 x) <= 2 * / x.
Proof.
  intro H. unfold tail5. assert (P2 := inv_pow_le x 1 H). assert (P4 := inv_pow_le x 3 H). assert (P6 := inv_pow_le x 5 H). assert (P8 := inv_pow_le x 7 H). assert (P10 := inv_pow_le x 9 H).
  assert (X : 0 < x) by lra. assert (I : 0 < / x) by (apply Rinv_0_lt_compat, X).
  replace (1 / (2 * x)) with (1 / 2 * / x) by (field; lra). replace (1 / (12 * x ^ 2)) with (1 / 12 * / x ^ 2) by (field; lra).
  replace (1 / (120 * x ^ 4)) with (1 / 120 * / x ^ 4) by (field; lra). replace (1 / (252 * x ^ 6)) with (1 / 252 * / x ^ 6) by (field; lra).
  replace (1 / (240 * x ^ 8)) with (1 / 240 * / x ^ 8) by (field; lra). replace (1 / (132 * x ^ 10)) with (1 / 132 * / x ^ 10) by (field; lra).
  apply Rabs_le. lra.
Qed.
Lemma tail6_bound x : 1 <= x -> Rabs (tail6 x) <= 3 * / x.
Proof.
  intro H. unfold tail6. assert (T := tail5_bound x H). assert (P12 := inv_pow_le x 11 H). assert (X : 0 < x) by lra.
  replace (691 / (32760 * x ^ 12)) with (691 / 32760 * / x ^ 12) by (field; lra). apply Rabs_le. apply Rabs_def2' in T || (apply Rabs_le_between in T). lra.
Qed.
Lemma step_small (tl : R -> R) x : 1 <= x -> (forall y, 1 <= y -> Rabs (tl y) <= 3 * / y) ->
  Rabs (1 / (x + 1) - (ln (x + 1) - ln x) + (tl (x + 1) - tl x)) <= 8 * / x.
Proof.
  intros H T. assert (A := T x H). assert (B := T (x + 1) ltac:(lra)). assert (L := ln_step x ltac:(lra)).
  assert (I : 0 < / (x + 1) <= / x). { split; [apply Rinv_0_lt_compat; lra|]. apply Rinv_le_contravar; lra. }
  apply Rabs_le_between in A. apply Rabs_le_between in B. apply Rabs_le. replace (1 / (x + 1)) with (/ (x + 1)) by (field; lra). lra.
Qed.
Lemma vanishes (f : R -> R) e : (forall x, 1 <= x -> Rabs (f x) <= 8 * / x) -> 0 < e -> exists X, forall x, X <= x -> Rabs (f x) <= e.
Proof.
  intros H E. exists (Rmax 1 (8 / e)). intros x Hx. assert (A : 1 <= x) by (eapply Rle_trans; [apply Rmax_l|apply Hx]).
  assert (B : 8 / e <= x) by (eapply Rle_trans; [apply Rmax_r|apply Hx]). eapply Rle_trans; [apply H, A|].
  apply (Rmult_le_reg_r x); [lra|]. replace (8 * / x * x) with 8 by (field; lra). apply (Rmult_le_compat_l e) in B; [|lra].
  replace (e * (8 / e)) with 8 in B by (field; lra). lra.
Qed.
Lemma step5_neg x : 1 <= x -> step5 x <= 0.
Proof.
  intro H. eapply (below_zero step5 _ x).
  - intros y Hy. apply step5_derive. lra.
  - intros y Hy. apply Rdiv_le_0_compat; [|apply pow_lt, Rmult_lt_0_compat; lra].
    assert (0 < y) by lra. assert (0 < y ^ 2) by (apply pow_lt; lra). assert (0 < y ^ 3) by (apply pow_lt; lra). assert (0 < y ^ 4) by (apply pow_lt; lra). assert (0 < y ^ 5) by (apply pow_lt; lra). assert (0 < y ^ 6) by (apply pow_lt; lra). assert (0 < y ^ 7) by (apply pow_lt; lra). assert (0 < y ^ 8) by (apply pow_lt; lra). lra.
  - intros e E. destruct (vanishes step5 e) as [X HX]; [|exact E|].
    + intros y Hy. apply step_small; [exact Hy|]. intros z Hz. eapply Rle_trans; [apply tail5_bound, Hz|]. assert (0 < / z) by (apply Rinv_0_lt_compat; lra). lra.
    + exists X. intros y Hy. specialize (HX y Hy). apply Rabs_le_between in HX. lra.
Qed.
Lemma step6_pos x : 1 <= x -> 0 <= step6 x.
Proof.
  intro H. assert (0 <= - - step6 x); [|lra]. apply Ropp_0_ge_le_contravar, Rle_ge.
  eapply (below_zero (fun x => - step6 x) (fun x => - - ((691 / 2730 + 691 / 210 * x + 45431 / 2310 * x ^ 2 + 164947 / 2310 * x ^ 3 + 202241 / 1155 * x ^ 4 + 6395 / 21 * x ^ 5 + 40189 / 105 * x ^ 6 + 5191 / 15 * x ^ 7 + 6533 / 30 * x ^ 8 + 175 / 2 * x ^ 9 + 35 / 2 * x ^ 10) / (x * (x + 1)) ^ 13)) x).
  - intros y Hy. apply (is_derive_opp step6). apply step6_derive. lra.
  - intros y Hy. rewrite Ropp_involutive. apply Rdiv_le_0_compat; [|apply pow_lt, Rmult_lt_0_compat; lra].
    assert (0 < y) by lra. assert (0 < y ^ 2) by (apply pow_lt; lra). assert (0 < y ^ 3) by (apply pow_lt; lra). assert (0 < y ^ 4) by (apply pow_lt; lra). assert (0 < y ^ 5) by (apply pow_lt; lra). assert (0 < y ^ 6) by (apply pow_lt; lra). assert (0 < y ^ 7) by (apply pow_lt; lra). assert (0 < y ^ 8) by (apply pow_lt; lra). assert (0 < y ^ 9) by (apply pow_lt; lra). assert (0 < y ^ 10) by (apply pow_lt; lra). lra.
  - intros e E. destruct (vanishes step6 e) as [X HX]; [|exact E|].
    + intros y Hy. apply step_small; [exact Hy|]. apply tail6_bound.
    + exists X. intros y Hy. specialize (HX y Hy). apply Rabs_le_between in HX. lra.
Qed.

(** * The limit lies between the sequences *)
Definition gap (n : nat) : R := harmonic n - ln (INR n).
Definition up (n : nat) : R := gap (n + 1) + tail5 (INR (n + 1)).
Definition low (n : nat) : R := gap (n + 1) + tail6 (INR (n + 1)).
Lemma gap_step n : gap (S n + 1) - gap (n + 1) = 1 / (INR (n + 1) + 1) - (ln (INR (n + 1) + 1) - ln (INR (n + 1))).
Proof.
  unfold gap, harmonic. replace (S n + 1)%nat with (S (n + 1)) by lia. cbn [Rsum]. rewrite <- S_INR. replace (n + 1 + 1)%nat with (S (n + 1)) by lia. unfold Rdiv. ring.
Qed.
Lemma INR1 n : 1 <= INR (n + 1).
Proof. rewrite plus_INR. cbn [INR]. assert (0 <= INR n) by apply pos_INR. lra. Qed.
Lemma up_decr n : up (S n) <= up n.
Proof.
  assert (S := step5_neg (INR (n + 1)) (INR1 n)). unfold step5 in S. rewrite <- gap_step in S. unfold up.
  replace (INR (Datatypes.S n + 1)) with (INR (n + 1) + 1) by (rewrite <- S_INR; f_equal; lia). lra.
Qed.
Lemma low_incr n : low n <= low (S n).
Proof.
  assert (S := step6_pos (INR (n + 1)) (INR1 n)). unfold step6 in S. rewrite <- gap_step in S. unfold low.
  replace (INR (Datatypes.S n + 1)) with (INR (n + 1) + 1) by (rewrite <- S_INR; f_equal; lia). lra.
Qed.
Lemma low_up n : low n <= up n.
Proof.
  unfold low, up, tail6. assert (0 < 691 / (32760 * INR (n + 1) ^ 12)); [|lra]. assert (H := INR1 n). apply Rdiv_lt_0_compat; [lra|]. apply Rmult_lt_0_compat; [lra|]. apply pow_lt; lra.
Qed.
Lemma tail_lim (tl : R -> R) : (forall y, 1 <= y -> Rabs (tl y) <= 3 * / y) -> is_lim_seq (fun n => tl (INR (n + 1))) 0.
Proof.
  intro T. apply is_lim_seq_abs_0. apply (is_lim_seq_le_le (fun _ => 0) _ (fun n => 3 * / INR (n + 1))).
  - intro n. split; [apply Rabs_pos|apply T, INR1].
  - apply is_lim_seq_const.
  - replace (Finite 0) with (Rbar_mult 3 0) by (cbn; f_equal; ring). apply is_lim_seq_scal_l.
    apply (is_lim_seq_ext (fun n => / INR (S n))); [intro n; do 2 f_equal; lia|].
    apply (is_lim_seq_incr_1 (fun n => / INR n)). replace (Finite 0) with (Rbar_inv p_infty) by reflexivity. apply is_lim_seq_inv; [apply is_lim_seq_INR|discriminate].
Qed.
Lemma gamma_brackets : exists g : R, is_lim_seq gap g /\ forall n, low n <= g <= up n.
Proof.
  destruct (ex_finite_lim_seq_incr low (up 0)) as [g Hg].
  - apply low_incr.
  - intro n. eapply Rle_trans; [apply low_up|]. induction n as [|n IH]; [apply Rle_refl|]. eapply Rle_trans; [apply up_decr|exact IH].
  - assert (T4 := tail_lim tail6 tail6_bound).
    assert (T3 := tail_lim tail5). specialize (T3 (fun y H => Rle_trans _ _ _ (tail5_bound y H) (Rmult_le_compat_r (/ y) 2 3 (Rlt_le _ _ (Rinv_0_lt_compat y (Rlt_le_trans _ _ _ Rlt_0_1 H))) (ltac:(lra) : 2 <= 3)))).
    assert (G : is_lim_seq (fun n => gap (n + 1)) g).
    { apply (is_lim_seq_ext (fun n => low n - tail6 (INR (n + 1)))); [intro n; unfold low; ring|]. replace (Finite g) with (Finite (g - 0)) by (f_equal; ring). apply is_lim_seq_minus'; assumption. }
    assert (U : is_lim_seq up g). { replace (Finite g) with (Finite (g + 0)) by (f_equal; ring). apply is_lim_seq_plus'; assumption. }
    exists g. split.
    + apply is_lim_seq_incr_1. apply (is_lim_seq_ext (fun n => gap (n + 1))); [intro n; f_equal; lia|exact G].
    + intro n. split; [apply (is_lim_seq_incr_compare low g Hg low_incr)|apply (is_lim_seq_decr_compare up g U up_decr)].
Qed.

(** * Numbers *)
(** harmonic numbers in fixed point *)
Fixpoint hz (s : Z) (n : nat) (k acc : Z) : Z := match n with O => acc | S n' => hz s n' (k + 1) (acc + s / k) end.
Lemma Rsum_shift n f : Rsum (S n) f = f 0%nat + Rsum n (fun k => f (S k)).
Proof. induction n as [|n IH]; [cbn; ring|]. change (Rsum (S n) f + f (S n) = f 0%nat + (Rsum n (fun k => f (S k)) + f (S n))). rewrite IH. ring. Qed.
Lemma hz_spec s n : (0 < s)%Z -> forall k acc, (0 < k)%Z ->
  IZR (hz s n k acc) <= IZR acc + IZR s * Rsum n (fun j => / (IZR k + INR j)) <= IZR (hz s n k acc) + INR n.
Proof.
  intros Hs. induction n as [|n IH]; intros k acc Hk.
  - cbn [hz Rsum INR]. lra.
  - cbn [hz]. specialize (IH (k + 1)%Z (acc + s / k)%Z ltac:(lia)). rewrite Rsum_shift, S_INR.
    assert (D : IZR (s / k) <= IZR s / IZR k < IZR (s / k) + 1).
    { assert (K : 0 < IZR k) by (apply IZR_lt, Hk). assert (E := Z.div_mod s k ltac:(lia)). assert (M := Z.mod_pos_bound s k Hk).
      assert (E' : IZR s = IZR k * IZR (s / k) + IZR (s mod k)) by (rewrite <- mult_IZR, <- plus_IZR; apply f_equal, E).
      assert (M1 : 0 <= IZR (s mod k)) by (apply IZR_le; lia). assert (M2 : IZR (s mod k) < IZR k) by (apply IZR_lt; lia).
      set (q := IZR (s / k)) in *. set (r := IZR (s mod k)) in *. clearbody q r. rewrite E'. replace ((IZR k * q + r) / IZR k) with (q + r / IZR k) by (field; lra).
      split; [assert (0 <= r / IZR k) by (apply Rdiv_le_0_compat; lra); lra|]. assert (r / IZR k < 1); [|lra]. apply (Rmult_lt_reg_r (IZR k)); [exact K|]. replace (r / IZR k * IZR k) with r by (field; lra). lra. }
    rewrite plus_IZR in IH. rewrite (Rsum_ext n (fun j => / (IZR k + INR (S j))) (fun j => / (IZR (k + 1) + INR j))).
    2:{ intros j _. rewrite S_INR, plus_IZR. f_equal. ring. }
    cbn [INR]. rewrite Rplus_0_r. set (T := Rsum n _) in *. clearbody T. unfold Rdiv in D. rewrite Rmult_plus_distr_l. lra.
Qed.
Lemma harmonic_hz s n : (0 < s)%Z -> IZR (hz s n 1 0) <= IZR s * harmonic n <= IZR (hz s n 1 0) + INR n.
Proof.
  intro H. assert (E := hz_spec s n H 1%Z 0%Z ltac:(lia)). unfold harmonic. rewrite (Rsum_ext n _ (fun j => / (1 + INR j))); [lra|].
  intros j _. rewrite plus_INR. cbn [INR]. f_equal. ring.
Qed.

(** ln 2 = 2 artanh (1/3) *)
Definition artanh_sum (n : nat) (x : R) : R := Rsum n (fun k => 2 * x ^ (2 * k + 1) / INR (2 * k + 1)).
Lemma odd_term n (x : R) : is_derive (fun x : R => 2 * x ^ (2 * n + 1) / INR (2 * n + 1)) x (2 * x ^ (2 * n)).
Proof.
  assert (E : INR (2 * n + 1) <> 0) by (apply not_0_INR; lia). assert (P : (2 * n + 1 = S (2 * n))%nat) by lia. set (c := INR (2 * n + 1)) in *.
  assert (Ec : INR (S (2 * n)) = c) by (unfold c; f_equal; lia). rewrite P. clearbody c. set (m := (2 * n)%nat) in *. clearbody m.
  auto_derive; [exact I|]. change (Init.Nat.pred (S m)) with m. change (match m with O => 1 | S _ => INR m + 1 end) with (INR (S m)). rewrite Ec. field. exact E.
Qed.
Lemma artanh_derive n (x : R) : is_derive (artanh_sum n) x (Rsum n (fun k => 2 * x ^ (2 * k))).
Proof.
  unfold artanh_sum. induction n as [|n IH]; cbn [Rsum].
  - apply @is_derive_const.
  - apply (is_derive_plus (fun x => Rsum n (fun k => 2 * x ^ (2 * k + 1) / INR (2 * k + 1))) (fun x => 2 * x ^ (2 * n + 1) / INR (2 * n + 1))); [exact IH|].
    apply odd_term.
Qed.
Lemma geom n y : y <> 1 -> Rsum n (fun k => y ^ k) = (1 - y ^ n) / (1 - y).
Proof. intro H. induction n as [|n IH]; cbn [Rsum pow]; [field; lra|]. rewrite IH. field. lra. Qed.
Lemma artanh_bound n x : 0 < x -> x <= 1 / 3 -> 0 <= ln (1 + x) - ln (1 - x) - artanh_sum n x <= 3 * x * x ^ (2 * n).
Proof.
  intros H0 H. set (f := fun y => ln (1 + y) - ln (1 - y) - artanh_sum n y). set (df := fun y => 2 * y ^ (2 * n) / (1 - y ^ 2)).
  assert (D : forall y, 0 <= y <= x -> is_derive f y (df y)).
  { intros y Hy. unfold f. replace (df y) with (minus (/ (1 + y) + / (1 - y)) (Rsum n (fun k => 2 * y ^ (2 * k)))).
    - apply (is_derive_minus (fun y => ln (1 + y) - ln (1 - y)) (artanh_sum n)); [auto_derive; [lra|field; lra]|apply artanh_derive].
    - change (/ (1 + y) + / (1 - y) - Rsum n (fun k => 2 * y ^ (2 * k)) = df y). unfold df. rewrite (Rsum_ext n (fun k => 2 * y ^ (2 * k)) (fun k => 2 * (y ^ 2) ^ k)) by (intros k _; rewrite pow_mult; reflexivity).
      rewrite Rsum_scal, geom by nra. rewrite <- pow_mult. set (p := y ^ (2 * n)). clearbody p. field. repeat split; nra. }
  assert (F0 : f 0 = 0). { unfold f. rewrite Rplus_0_r, Rminus_0_r, ln_1. unfold artanh_sum. rewrite Rsum_0; [ring|]. intros k _. rewrite pow_i by lia. unfold Rdiv. ring. }
  destruct (MVT_gen f 0 x df) as [c [[C1 C2] C3]].
  - intros y Hy. rewrite Rmin_left, Rmax_right in Hy by lra. apply D. lra.
  - intros y Hy. rewrite Rmin_left, Rmax_right in Hy by lra. apply continuity_pt_filterlim. apply (ex_derive_continuous f). exists (df y). apply D. lra.
  - rewrite Rmin_left in C1 by lra. rewrite Rmax_right in C2 by lra. change (ln (1 + x) - ln (1 - x) - artanh_sum n x) with (f x). rewrite F0 in C3. replace (f x) with (df c * x) by lra.
    assert (P : 0 <= c ^ (2 * n) <= x ^ (2 * n)) by (split; [apply pow_le, C1|apply pow_incr; lra]). unfold df.
    assert (Q : 8 / 9 <= 1 - c ^ 2) by nra. set (p := c ^ (2 * n)) in *. set (q := x ^ (2 * n)) in *. set (d := 1 - c ^ 2) in *. clearbody p q d.
    assert (I : 0 < / d <= 9 / 8). { split; [apply Rinv_0_lt_compat; lra|]. replace (9 / 8) with (/ (8 / 9)) by lra. apply Rinv_le_contravar; lra. }
    set (i := / d) in *. assert (E : 2 * p / d = 2 * p * i) by reflexivity. rewrite E. clearbody i. clear E.
    assert (0 <= p * i <= q * (9 / 8)) by (split; [apply Rmult_le_pos; lra|apply Rmult_le_compat; lra]). nra.
Qed.
(** partial sums of the series at 1/3 in rational arithmetic *)
Fixpoint lq (n : nat) : Q := match n with O => 0 | S n' => Qred (lq n' + (2 # Pos.of_nat (2 * n' + 1)) * (1 # (3 ^ Pos.of_nat (2 * n' + 1))))%Q end.
Lemma Q2R_red q : Q2R (Qred q) = Q2R q. Proof. apply Qeq_eqR, Qred_correct. Qed.
Lemma lq_spec n : Q2R (lq n) = artanh_sum n (1 / 3).
Proof.
  induction n as [|n IH]; [unfold Q2R; cbn; lra|]. cbn [lq]. rewrite Q2R_red, Q2R_plus, IH, Q2R_mult. unfold artanh_sum at 2. cbn [Rsum]. fold (artanh_sum n (1 / 3)). f_equal.
  unfold Q2R; cbn [Qnum Qden]. assert (E : IZR (Z.pos (Pos.of_nat (2 * n + 1))) = INR (2 * n + 1)). { rewrite INR_IZR_INZ. f_equal. rewrite <- positive_nat_Z. f_equal. apply Nat2Pos.id. lia. }
  rewrite E. assert (E3 : IZR (Z.pos (3 ^ Pos.of_nat (2 * n + 1))) = 3 ^ (2 * n + 1)). { rewrite Pos2Z.inj_pow.
    rewrite <- (positive_nat_Z (Pos.of_nat (2 * n + 1))), Nat2Pos.id by lia. rewrite <- pow_IZR. reflexivity. }
  rewrite E3. replace (1 / 3) with (/ 3) by lra. rewrite pow_inv. field. split; [apply pow_nonzero; lra|apply not_0_INR; lia].
Qed.

Lemma ln2_bound : Q2R (lq 45) <= ln 2 <= Q2R (lq 45) + / 9 ^ 45.
Proof.
  assert (A := artanh_bound 45 (1 / 3) ltac:(lra) ltac:(lra)). rewrite <- lq_spec in A. rewrite <- ln_div in A by lra.
  replace ((1 + 1 / 3) / (1 - 1 / 3)) with 2 in A by lra. replace (3 * (1 / 3) * (1 / 3) ^ (2 * 45)) with (/ 9 ^ 45) in A; [lra|].
  rewrite pow_mult. replace ((1 / 3) ^ 2) with (/ 9) by lra. rewrite pow_inv. set (a := / 9 ^ 45). clearbody a. lra.
Qed.
Lemma bracket_at n g : (forall n, low n <= g <= up n) -> (0 < n)%nat -> gap n + tail6 (INR n) <= g <= gap n + tail5 (INR n).
Proof. intros B H. specialize (B (n - 1)%nat). unfold low, up in B. replace (n - 1 + 1)%nat with n in B by lia. exact B. Qed.
Definition gamma_Q : Q := 577215664901532860606512090082402431 # 10 ^ 36.
Definition hval : Z := hz (10 ^ 45) (2 ^ 10) 1 0.
Definition eQ : Q := 1 # 1024.
Definition t5Q : Q := ((- 1 # 2) * eQ + (1 # 12) * (eQ * eQ) + (- 1 # 120) * (eQ * eQ * eQ * eQ) + (1 # 252) * (eQ * eQ * eQ * eQ * eQ * eQ) + (- 1 # 240) * (eQ * eQ * eQ * eQ * eQ * eQ * eQ * eQ) + (1 # 132) * (eQ * eQ * eQ * eQ * eQ * eQ * eQ * eQ * eQ * eQ))%Q.
Definition t6Q : Q := (t5Q + (- 691 # 32760) * (eQ * eQ * eQ * eQ * eQ * eQ * eQ * eQ * eQ * eQ * eQ * eQ))%Q.
Lemma low_check : (gamma_Q - (1 # 2 * 10 ^ 36) <= (hval # 10 ^ 45) - 10 * (lq 45 + (1 # 9 ^ 45)) + t6Q)%Q.
Proof. apply Qle_bool_iff. vm_compute. reflexivity. Qed.
Lemma up_check : ((hval + 2 ^ 10 # 10 ^ 45) - 10 * lq 45 + t5Q <= gamma_Q + (1 # 2 * 10 ^ 36))%Q.
Proof. apply Qle_bool_iff. vm_compute. reflexivity. Qed.
Lemma t5_R : Q2R t5Q = tail5 1024.
Proof.
  unfold t5Q. rewrite !Q2R_plus, !Q2R_mult. unfold tail5. replace (Q2R eQ) with (/ 1024) by (unfold Q2R, eQ; cbn [Qnum Qden]; lra).
  replace (Q2R (- 1 # 2)) with (- (1 / 2)) by (unfold Q2R; cbn [Qnum Qden]; lra). replace (Q2R (1 # 12)) with (/ 12) by (unfold Q2R; cbn [Qnum Qden]; lra).
  replace (Q2R (- 1 # 120)) with (- / 120) by (unfold Q2R; cbn [Qnum Qden]; lra). replace (Q2R (1 # 252)) with (/ 252) by (unfold Q2R; cbn [Qnum Qden]; lra).
  replace (Q2R (- 1 # 240)) with (- / 240) by (unfold Q2R; cbn [Qnum Qden]; lra). replace (Q2R (1 # 132)) with (/ 132) by (unfold Q2R; cbn [Qnum Qden]; lra).
  assert (H : 0 < 1024) by lra. set (x := 1024) in *. clearbody x. field. lra.
Qed.
Lemma t6_R : Q2R t6Q = tail6 1024.
Proof.
  unfold t6Q, tail6. rewrite Q2R_plus, t5_R, !Q2R_mult. replace (Q2R eQ) with (/ 1024) by (unfold Q2R, eQ; cbn [Qnum Qden]; lra).
  replace (Q2R (- 691 # 32760)) with (- (691 / 32760)) by (unfold Q2R; cbn [Qnum Qden]; lra).
  assert (H : 0 < 1024) by lra. set (t := tail5 1024). clearbody t. set (x := 1024) in *. clearbody x. field. lra.
Qed.
Lemma Q2R_frac a p : Q2R (a # p) = IZR a / IZR (Z.pos p). Proof. reflexivity. Qed.
Lemma N10 : INR (2 ^ 10) = 1024. Proof. rewrite pow_INR. cbn [INR]. lra. Qed.
Lemma hval_spec : IZR hval <= IZR (10 ^ 45) * harmonic (2 ^ 10) <= IZR hval + INR (2 ^ 10).
Proof. unfold hval. apply harmonic_hz. vm_compute. reflexivity. Qed.
Lemma gap_bound : Q2R ((hval # 10 ^ 45) - 10 * (lq 45 + (1 # 9 ^ 45)))%Q <= gap (2 ^ 10) <= Q2R ((hval + 2 ^ 10 # 10 ^ 45) - 10 * lq 45)%Q.
Proof.
  assert (Hh := hval_spec). rewrite N10 in Hh. assert (L := ln2_bound).
  revert Hh L. generalize hval. generalize (lq 45). intros q hv Hh L.
  rewrite !Q2R_minus, !Q2R_mult, Q2R_plus, !Q2R_frac. replace (10 / 1) with 10 by lra.
  replace (IZR (Z.pos (9 ^ 45))) with (9 ^ 45) by (rewrite pow_IZR; apply f_equal; vm_compute; reflexivity).
  replace (IZR (hv + 2 ^ 10)) with (IZR hv + 1024) by (rewrite plus_IZR; f_equal; apply f_equal; vm_compute; reflexivity).
  change (IZR (Z.pos (10 ^ 45))) with (IZR (10 ^ 45)) || replace (IZR (Z.pos (10 ^ 45))) with (IZR (10 ^ 45)) by (apply f_equal; vm_compute; reflexivity).
  assert (S : 0 < IZR (10 ^ 45)) by (apply IZR_lt; vm_compute; reflexivity). unfold gap. rewrite N10.
  replace (ln 1024) with (10 * ln 2). 2:{ replace 1024 with (2 ^ 10) by lra. rewrite ln_pow by lra. f_equal. cbn [INR]. lra. }
  set (s := IZR (10 ^ 45)) in *. set (h := IZR hv) in *. set (H := harmonic (2 ^ 10)) in *. set (l := Q2R q) in *. set (e := / 9 ^ 45) in *. set (l2 := ln 2) in *.
  replace (1 / 9 ^ 45) with e by (unfold e; lra). clearbody s h H l e l2.
  assert (A : h / s <= H <= (h + 1024) / s).
  { split; apply (Rmult_le_reg_r s); try exact S; [replace (h / s * s) with h by (field; lra)|replace ((h + 1024) / s * s) with (h + 1024) by (field; lra)]; lra. }
  lra.
Qed.
(** the literal has all its 36 decimals right *)
Theorem euler_gamma_literal : exists g : R, is_lim_seq (fun n => harmonic n - ln (INR n)) g /\ Rabs (EulerGamma - g) <= 1 / (2 * 10 ^ 36).
Proof.
  destruct gamma_brackets as [g [G B]]. exists g. split; [exact G|]. assert (K := bracket_at (2 ^ 10) g B ltac:(apply Nat.neq_0_lt_0, Nat.pow_nonzero; lia)).
  rewrite N10, <- t5_R, <- t6_R in K. assert (GB := gap_bound). assert (A := low_check). assert (U := up_check). apply Qle_Rle in A, U.
  rewrite Q2R_minus, Q2R_plus in A. rewrite !Q2R_plus in U. rewrite Q2R_frac in A, U.
  assert (E1 : Q2R gamma_Q = EulerGamma). { unfold gamma_Q, EulerGamma. rewrite Q2R_frac. f_equal. rewrite pow_IZR. apply f_equal. vm_compute. reflexivity. }
  assert (E2 : IZR (Z.pos (2 * 10 ^ 36)) = 2 * 10 ^ 36). { rewrite pow_IZR, <- mult_IZR. apply f_equal. vm_compute. reflexivity. }
  rewrite E1, E2 in A, U. revert A U GB. generalize ((hval # 10 ^ 45) - 10 * (lq 45 + (1 # 9 ^ 45)))%Q. generalize ((hval + 2 ^ 10 # 10 ^ 45) - 10 * lq 45)%Q. intros q1 q2 A U GB. set (a := Q2R q2) in *. set (b := Q2R q1) in *. set (x := gap (2 ^ 10)) in *. set (y := Q2R t5Q) in *. set (z := Q2R t6Q) in *. set (d := 1 / (2 * 10 ^ 36)) in *.
  clearbody a b x y z d. clear E1 E2. apply Rabs_le. lra.
Qed.
