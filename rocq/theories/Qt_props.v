(** Property C46: one row of Q-tiles (window, padding, energies). *)
From Coq Require Import String.
From Verif Require Import Base Tensor Rutil Slicing_model Autoenc_model Norm_model Norm_props Dft Gw_model Gw_props Snr_props Spectral_model Spectral_props Trans_model Decim_props Whiten_props Qt_model.
From Coquelicot Require Import Complex.
Local Open Scope R_scope.

(** ** specification *)
Definition positive (t : qtile) : Prop := 0 < qt_q t /\ 0 < qt_f t /\ 0 < qt_dur t /\ 0 < qt_sr t /\ 0 < qt_mm t.
(** half width of the bisquare window, in frequency bins: f dur sqrt(11) / q *)
Definition half_width (t : qtile) : R := qt_f t * qt_dur t * sqrt 11 / qt_q t.
(** the number of tiles that the mismatch asks for *)
Definition wanted_tiles (t : qtile) : R := 2 * PI * qt_f t * qt_dur t / qt_q t / (2 * sqrt (qt_mm t / 3)).

Lemma rtrunc_floor x : 0 <= x -> exists p : nat, rtrunc x = Z.of_nat p /\ INR p <= x < INR p + 1.
Proof.
  intros H. unfold rtrunc. destruct (Rle_dec 0 x); [|lra]. destruct (base_Int_part x) as [A B].
  assert (0 <= Int_part x)%Z by (assert (-1 < Int_part x)%Z by (apply lt_IZR; lra); lia).
  exists (Z.to_nat (Int_part x)). rewrite Z2Nat.id by assumption. rewrite INR_IZR_INZ, Z2Nat.id by assumption. split; [reflexivity|lra].
Qed.
Lemma rceil_spec x : x <= IZR (rceil x) < x + 1.
Proof. unfold rceil. rewrite opp_IZR. destruct (base_Int_part (- x)). lra. Qed.
Lemma rceil_unique x z : x <= IZR z < x + 1 -> rceil x = z.
Proof. intros H. unfold rceil. rewrite (Int_part_unique (- z) (- x)); [lia|]. rewrite opp_IZR. lra. Qed.
Lemma sqrt11_pos : 0 < sqrt 11. Proof. apply sqrt_lt_R0. lra. Qed.
Lemma qprime_half t : positive t -> qt_f t / qprime (qt_q t) * qt_dur t = half_width t.
Proof. intros [Hq [Hf [Hd _]]]. unfold qprime, half_width. pose proof sqrt11_pos. field. lra. Qed.
Lemma half_width_pos t : positive t -> 0 < half_width t.
Proof.
  intros [Hq [Hf [Hd _]]]. unfold half_width. pose proof sqrt11_pos.
  apply Rdiv_lt_0_compat; [|assumption]. repeat apply Rmult_lt_0_compat; assumption.
Qed.
Lemma IZR_sub1_half z : (IZR (2 * z + 1) - 1) / 2 = IZR z.
Proof. rewrite plus_IZR, mult_IZR. lra. Qed.
Lemma rtrunc_IZR z : rtrunc (IZR z) = z.
Proof.
  unfold rtrunc. destruct (Rle_dec 0 (IZR z)); [apply Int_part_unique; lra|].
  rewrite (Int_part_unique (- z)); [lia|]. rewrite opp_IZR. lra.
Qed.
(** the window has 2h+1 entries, for bins -h..h, where h is the half width rounded down *)
Lemma window_half t : positive t -> exists h : nat, INR h <= half_width t < INR h + 1 /\ win_half t = Z.of_nat h /\
  windowsize t = (2 * Z.of_nat h + 1)%Z /\ win_len t = (2 * h + 1)%nat.
Proof.
  intros P. destruct (rtrunc_floor (half_width t)) as [h [E B]]; [apply Rlt_le, half_width_pos; assumption|].
  exists h. assert (W : windowsize t = (2 * Z.of_nat h + 1)%Z) by (unfold windowsize; rewrite qprime_half, E by assumption; reflexivity).
  assert (H : win_half t = Z.of_nat h) by (unfold win_half; rewrite W, IZR_sub1_half; apply rtrunc_IZR).
  repeat split; try tauto. unfold win_len. rewrite H. lia.
Qed.
Lemma ntiles_wanted t : qt_dur t * 2 * PI * qt_f t / qt_q t / deltam (qt_mm t) = wanted_tiles t.
Proof. unfold deltam, wanted_tiles. f_equal. f_equal. ring. Qed.
Lemma wanted_pos t : positive t -> 0 < wanted_tiles t.
Proof.
  intros [Hq [Hf [Hd [_ Hm]]]]. unfold wanted_tiles. pose proof PI_RGT_0.
  assert (0 < sqrt (qt_mm t / 3)) by (apply sqrt_lt_R0; lra).
  apply Rdiv_lt_0_compat; [apply Rdiv_lt_0_compat; [|assumption]|lra].
  apply Rmult_lt_0_compat; [apply Rmult_lt_0_compat; [lra|assumption]|assumption].
Qed.
Lemma ln2_pos : 0 < ln 2. Proof. rewrite <- ln_1. apply ln_increasing; lra. Qed.
Lemma log2_le x z : 0 < x -> (log2 x <= IZR z <-> x <= Rpower 2 (IZR z)).
Proof.
  intros Hx. pose proof ln2_pos. unfold log2, Rpower. rewrite <- (exp_ln x) at 2 by assumption. split; intros L.
  - apply (Rmult_le_compat_r (ln 2)) in L; [|lra]. unfold Rdiv in L. rewrite Rmult_assoc, Rinv_l, Rmult_1_r in L by lra.
    destruct L as [L|L]; [left; apply exp_increasing; assumption|right; rewrite L; reflexivity].
  - assert (ln x <= IZR z * ln 2) by (destruct L as [L|L]; [left; apply exp_lt_inv; assumption|right; apply exp_inv; assumption]).
    apply (Rmult_le_reg_r (ln 2)); [assumption|]. unfold Rdiv. rewrite Rmult_assoc, Rinv_l; lra.
Qed.
Lemma Rpower2_pow n : Rpower 2 (IZR (Z.of_nat n)) = 2 ^ n.
Proof. rewrite <- INR_IZR_INZ. apply Rpower_pow. lra. Qed.
Lemma Rpower2_m1 : Rpower 2 (IZR (-1)) = / 2.
Proof. change (IZR (-1)) with (- (1)). rewrite Rpower_Ropp, Rpower_1 by lra. reflexivity. Qed.
Lemma IZR_pow2 n : IZR (2 ^ Z.of_nat n) = 2 ^ n.
Proof. rewrite pow_IZR. reflexivity. Qed.
(** the number of tiles is the least power of two that is at least what the mismatch asks for; and 0 if that is 1/2 or less *)
Theorem qtile_count t : positive t ->
  (wanted_tiles t <= / 2 -> ntiles t = 0%Z) /\
  (/ 2 < wanted_tiles t -> exists e : nat, ntiles t = Z.of_nat (2 ^ e) /\ wanted_tiles t <= 2 ^ e /\ (forall e', wanted_tiles t <= 2 ^ e' -> (e <= e')%nat)).
Proof.
  intros P. pose proof (wanted_pos t P) as W. unfold ntiles. rewrite ntiles_wanted.
  pose proof (rceil_spec (log2 (wanted_tiles t))) as [C1 C2]. set (z := rceil (log2 (wanted_tiles t))) in *. split; intros L.
  - assert (log2 (wanted_tiles t) <= IZR (-1)).
    { apply log2_le; [assumption|]. rewrite Rpower2_m1. assumption. }
    assert (z < 0)%Z by (apply lt_IZR; lra).
    apply Z.pow_neg_r. assumption.
  - assert (0 <= z)%Z.
    { assert (~ log2 (wanted_tiles t) <= IZR (-1)).
      { rewrite log2_le by assumption. rewrite Rpower2_m1. lra. }
      assert (-1 < z)%Z by (apply lt_IZR; lra). lia. }
    exists (Z.to_nat z). split; [|split].
    + rewrite Nat2Z.inj_pow, Z2Nat.id by assumption. reflexivity.
    + rewrite <- Rpower2_pow, Z2Nat.id by assumption. apply log2_le; assumption.
    + intros e' H'. rewrite <- Rpower2_pow in H'. apply log2_le in H'; [|assumption].
      assert (z < Z.of_nat e' + 1)%Z by (apply lt_IZR; rewrite plus_IZR; lra). lia.
Qed.

(** the window: one entry per bin within the half width, symmetric, non-negative, largest at its centre, and given by the
    bisquare of the offset relative to the half width *)
Theorem qtile_window t : positive t -> exists h : nat, INR h <= half_width t < INR h + 1 /\ win_len t = (2 * h + 1)%nat /\
  (forall j, (j <= 2 * h)%nat -> win t j = win t h * (1 - ((INR j - INR h) / half_width t) ^ 2) ^ 2) /\
  win t h = IZR (ntiles t) / (qt_dur t * qt_sr t) * sqrt (315 * qt_q t / (128 * sqrt 11 * qt_f t)) /\
  (forall j, (j <= 2 * h)%nat -> win t (2 * h - j) = win t j) /\
  (forall j, (j <= 2 * h)%nat -> 0 <= win t j <= win t h).
Proof.
  intros P. destruct (window_half t P) as [h [B [E [_ Wl]]]]. pose proof (half_width_pos t P) as Hw.
  exists h. split; [assumption|]. split; [assumption|].
  assert (X : forall j, IZR (win_idx t j) / qt_dur t * qprime (qt_q t) / qt_f t = (INR j - INR h) / half_width t).
  { intros j. unfold win_idx. rewrite E, plus_IZR, opp_IZR, <- !INR_IZR_INZ. rewrite <- qprime_half by assumption.
    destruct P as [Hq [Hf [Hd _]]]. assert (0 < qprime (qt_q t)) by (unfold qprime; apply Rdiv_lt_0_compat; [assumption|apply sqrt11_pos]).
    field. lra. }
  assert (C : win t h = IZR (ntiles t) / (qt_dur t * qt_sr t) * sqrt (315 * qprime (qt_q t) / (128 * qt_f t))).
  { unfold win. rewrite X. replace ((INR h - INR h) / half_width t) with 0 by (unfold Rdiv; ring). ring. }
  assert (V : forall j, win t j = win t h * (1 - ((INR j - INR h) / half_width t) ^ 2) ^ 2) by (intros j; rewrite C; unfold win; rewrite X; ring).
  assert (N0 : 0 <= win t h).
  { rewrite C. destruct P as [Hq [Hf [Hd [Hs Hm]]]]. apply Rmult_le_pos; [|apply sqrt_pos].
    apply Rmult_le_pos; [apply IZR_le; unfold ntiles; apply Z.pow_nonneg; lia|]. apply Rlt_le, Rinv_0_lt_compat, Rmult_lt_0_compat; assumption. }
  repeat split.
  - intros j _. apply V.
  - rewrite C. f_equal. f_equal. unfold qprime. pose proof sqrt11_pos. destruct P as [Hq [Hf _]]. field. lra.
  - intros j Hj. rewrite (V j), (V (2 * h - j)%nat). f_equal. f_equal. f_equal.
    rewrite minus_INR, mult_INR by lia. cbn [INR]. unfold Rdiv. ring.
  - rewrite V. apply Rmult_le_pos; [assumption|apply pow2_ge_0].
  - rewrite V. rewrite <- (Rmult_1_r (win t h)) at 2. apply Rmult_le_compat_l; [assumption|].
    set (x := (INR j - INR h) / half_width t). assert (Hx : - 1 <= x <= 1).
    { unfold x. pose proof (pos_INR j). assert (INR j <= 2 * INR h) by (replace (2 * INR h) with (INR (2 * h)) by (rewrite mult_INR; cbn; ring); apply le_INR; lia).
      assert (Hi : 0 < / half_width t) by (apply Rinv_0_lt_compat; assumption).
      assert (half_width t * / half_width t = 1) by (apply Rinv_r; lra). unfold Rdiv. split; nra. }
    assert (0 <= x ^ 2 <= 1) by nra. set (y := x ^ 2) in *. nra.
Qed.

Lemma pow2_S e : Z.of_nat (2 ^ S e) = (2 * 2 ^ Z.of_nat e)%Z.
Proof. rewrite Nat.pow_succ_r', Nat2Z.inj_mul, Nat2Z.inj_pow. reflexivity. Qed.
(** padding: for two or more tiles the padded row has exactly the advertised number of tiles, and the centre of the
    window lands in bin N/2 - 1; for one tile the row has two entries unless the window has one entry; for none the
    padded row is empty *)
Theorem qtile_padding t h : positive t -> INR h <= half_width t < INR h + 1 ->
  (forall e : nat, ntiles t = Z.of_nat (2 ^ S e) ->
     pad_left t = (2 ^ Z.of_nat e - 1 - Z.of_nat h)%Z /\ pad_right t = (2 ^ Z.of_nat e - Z.of_nat h)%Z /\
     (pad_left t + windowsize t + pad_right t)%Z = ntiles t) /\
  (ntiles t = 1%Z -> (pad_left t + windowsize t + pad_right t)%Z = if (h =? 0)%nat then 1%Z else 2%Z) /\
  (ntiles t = 0%Z -> (pad_left t + windowsize t + pad_right t)%Z = 0%Z).
Proof.
  intros P B. destruct (window_half t P) as [h' [B' [_ [W _]]]].
  assert (h' = h).
  { assert (h' < h + 1 /\ h < h' + 1)%nat; [|lia]. split; apply INR_lt; rewrite plus_INR; cbn [INR]; lra. }
  subst h'. clear B'. unfold pad_left, pad_right. rewrite W. repeat split.
  - replace (ntiles t - (2 * Z.of_nat h + 1))%Z with (2 * (2 ^ Z.of_nat e - 1 - Z.of_nat h) + 1)%Z.
    + rewrite IZR_sub1_half. apply rtrunc_IZR.
    + rewrite H, pow2_S. lia.
  - replace ((IZR (ntiles t - (2 * Z.of_nat h + 1)) + 1) / 2) with (IZR (2 ^ Z.of_nat e - Z.of_nat h)); [apply rtrunc_IZR|].
    rewrite H, pow2_S. rewrite !minus_IZR, plus_IZR, !mult_IZR. lra.
  - replace ((IZR (ntiles t - (2 * Z.of_nat h + 1)) + 1) / 2) with (IZR (2 ^ Z.of_nat e - Z.of_nat h)).
    2:{ rewrite H, pow2_S. rewrite !minus_IZR, plus_IZR, !mult_IZR. lra. }
    replace ((IZR (ntiles t - (2 * Z.of_nat h + 1)) - 1) / 2) with (IZR (2 ^ Z.of_nat e - 1 - Z.of_nat h)).
    2:{ rewrite H, pow2_S. rewrite !minus_IZR, plus_IZR, !mult_IZR. lra. }
    rewrite !rtrunc_IZR. rewrite H, pow2_S. lia.
  - intros ->. rewrite minus_IZR, plus_IZR, mult_IZR. pose proof (pos_INR h) as Hh. rewrite INR_IZR_INZ in Hh.
    assert (E1 : rtrunc ((1 - (2 * IZR (Z.of_nat h) + 1) - 1) / 2) = (- Z.of_nat h)%Z).
    { unfold rtrunc. destruct (Rle_dec 0 ((1 - (2 * IZR (Z.of_nat h) + 1) - 1) / 2)); [lra|].
      rewrite (Int_part_unique (Z.of_nat h)); [reflexivity|lra]. }
    rewrite E1. destruct (Nat.eqb_spec h 0) as [->|Hn].
    + unfold rtrunc. change (IZR (Z.of_nat 0)) with 0. destruct (Rle_dec 0 ((1 - (2 * 0 + 1) + 1) / 2)); [|lra].
      rewrite (Int_part_unique 0); [reflexivity|lra].
    + assert (1 <= IZR (Z.of_nat h)) by (apply IZR_le; lia).
      unfold rtrunc. destruct (Rle_dec 0 ((1 - (2 * IZR (Z.of_nat h) + 1) + 1) / 2)); [lra|].
      rewrite (Int_part_unique (Z.of_nat h - 1)); [lia|]. rewrite minus_IZR. lra.
  - intros ->. rewrite minus_IZR, plus_IZR, mult_IZR.
    replace ((0 - (2 * IZR (Z.of_nat h) + 1) - 1) / 2) with (IZR (- Z.of_nat h - 1)) by (rewrite minus_IZR, opp_IZR; lra).
    replace ((0 - (2 * IZR (Z.of_nat h) + 1) + 1) / 2) with (IZR (- Z.of_nat h)) by (rewrite opp_IZR; lra).
    rewrite !rtrunc_IZR. lia.
Qed.
(** for a mismatch below 3 pi^2 / 44 (0.67; the default is 0.2) the window always fits in the row: nothing is cropped *)
Theorem qtile_fits t h : positive t -> INR h <= half_width t < INR h + 1 -> 44 * qt_mm t < 3 * PI ^ 2 -> / 2 < wanted_tiles t ->
  (2 * Z.of_nat h + 1 <= ntiles t)%Z.
Proof.
  intros P B M W2. destruct (qtile_count t P) as [_ Q]. destruct (Q W2) as [e [-> [W _]]]. clear Q.
  assert (2 * half_width t < wanted_tiles t).
  { destruct P as [Hq [Hf [Hd [_ Hm]]]]. unfold half_width, wanted_tiles.
    assert (S0 : 0 < sqrt (qt_mm t / 3)) by (apply sqrt_lt_R0; lra). pose proof sqrt11_pos as S1. pose proof PI_RGT_0.
    replace (2 * PI * qt_f t * qt_dur t / qt_q t / (2 * sqrt (qt_mm t / 3))) with (qt_f t * qt_dur t / qt_q t * (PI / sqrt (qt_mm t / 3))) by (field; lra).
    replace (2 * (qt_f t * qt_dur t * sqrt 11 / qt_q t)) with (qt_f t * qt_dur t / qt_q t * (2 * sqrt 11)) by (field; lra).
    apply Rmult_lt_compat_l; [apply Rdiv_lt_0_compat; [apply Rmult_lt_0_compat|]; assumption|].
    apply (Rmult_lt_reg_r (sqrt (qt_mm t / 3))); [assumption|]. replace (PI / sqrt (qt_mm t / 3) * sqrt (qt_mm t / 3)) with PI by (field; lra).
    apply Rsqr_incrst_0; [|apply Rlt_le; apply Rmult_lt_0_compat; [apply Rmult_lt_0_compat; lra|lra]|lra]. unfold Rsqr.
    replace (2 * sqrt 11 * sqrt (qt_mm t / 3) * (2 * sqrt 11 * sqrt (qt_mm t / 3))) with (4 * (sqrt 11 * sqrt 11) * (sqrt (qt_mm t / 3) * sqrt (qt_mm t / 3))) by ring.
    rewrite !sqrt_sqrt by lra. lra. }
  assert (INR (2 * h) < INR (2 ^ e)) by (rewrite mult_INR, pow_INR; change (INR 2) with 2; lra).
  apply INR_lt in H0. lia.
Qed.
Lemma PI_gt_3 : 3 < PI. Proof. pose proof PI2_3_2. unfold PI2 in *. lra. Qed.
(** a mismatch of one half or less is below that bound *)
Theorem qtile_mismatch_half mm : mm <= / 2 -> 44 * mm < 3 * PI ^ 2.
Proof. intros H. pose proof PI_gt_3. nra. Qed.
