(** C79: sample counts and cut-off bins in double precision. *)
From Coq Require Import Reals ZArith Lra Lia List.
From Flocq Require Import Core Relative.
From Verif Require Import Base Gw_model Gw_props F64_model.
Local Open Scope R_scope.
Local Instance prec64 : Prec_gt_0 53 := eq_refl.
Local Instance valid64 : Valid_exp fexp64. Proof. apply FLT_exp_valid. reflexivity. Qed.

(** the integer part of a non-negative number, as [int] computes it *)
Lemma int_is x n : 0 <= x -> IZR n <= x < IZR n + 1 -> rtrunc x = n.
Proof.
  intros H0 H. destruct (proj1 (rtrunc_spec x) H0) as [A B]. assert (n < rtrunc x + 1)%Z by (apply lt_IZR; rewrite plus_IZR; lra). assert (rtrunc x < n + 1)%Z by (apply lt_IZR; rewrite plus_IZR; lra). lia.
Qed.
(** what [fl] is: the nearest double *)
Theorem fl_nearest x : F64 (fl x) /\ forall y, F64 y -> Rabs (fl x - x) <= Rabs (y - x).
Proof.
  split; [apply generic_format_round; exact _|]. intros y Hy. destruct (round_N_pt radix2 fexp64 (fun z => negb (Z.even z)) x) as [_ H]. apply H, Hy.
Qed.
Lemma fl_id x : F64 x -> fl x = x. Proof. intros H. apply round_generic; [exact _|exact H]. Qed.
Lemma fl_le x y : x <= y -> fl x <= fl y. Proof. intros H. apply round_le; [exact _|exact _|exact H]. Qed.
Lemma int_F64 n : (Z.abs n <= 2 ^ 53)%Z -> F64 (IZR n).
Proof.
  intros H. destruct (Z.eq_dec (Z.abs n) (2 ^ 53)) as [E|E].
  - assert (P : F64 (bpow radix2 53)) by (apply generic_format_bpow; unfold fexp64, FLT_exp; lia).
    assert (EB : bpow radix2 53 = IZR (2 ^ 53)) by (rewrite <- IZR_Zpower by lia; reflexivity). rewrite EB in P. destruct (Z_le_dec 0 n).
    + replace n with (2 ^ 53)%Z by lia. exact P.
    + replace n with (- 2 ^ 53)%Z by lia. rewrite opp_IZR. apply generic_format_opp. exact P.
  - apply generic_format_FLT. exists (Float radix2 n 0); cbn [Fnum Fexp]; [unfold F2R; cbn [Fnum Fexp]; change (bpow radix2 0) with 1; lra|change (radix2 ^ 53)%Z with (2 ^ 53)%Z; lia|lia].
Qed.
Lemma half_int_F64 n : (Z.abs n < 2 ^ 53)%Z -> F64 (IZR n / 2).
Proof. intros H. apply generic_format_FLT. exists (Float radix2 n (-1)); cbn [Fnum Fexp]; [unfold F2R; cbn [Fnum Fexp]; change (bpow radix2 (-1)) with (/ 2); lra|change (radix2 ^ 53)%Z with (2 ^ 53)%Z; lia|lia]. Qed.

(** ** power-of-two sample rates: the product is exact *)
Lemma fl_pow2 d k : F64 d -> (0 <= k)%Z -> fl (d * bpow radix2 k) = d * bpow radix2 k.
Proof.
  intros Hd Hk. apply fl_id. apply generic_format_FLT. apply FLT_format_generic in Hd; [|exact _]. destruct Hd as [[m e] E1 E2 E3]. cbn [Fnum Fexp] in *. exists (Float radix2 m (e + k)); cbn [Fnum Fexp]; [|assumption|lia].
  rewrite E1. unfold F2R. cbn [Fnum Fexp]. rewrite bpow_plus. ring.
Qed.
Theorem samples64_pow2 d k n : F64 d -> 0 <= d -> (0 <= k)%Z -> IZR n <= d * bpow radix2 k < IZR n + 1 -> samples64 d (bpow radix2 k) = n.
Proof. intros Hd H0 Hk H. unfold samples64. rewrite fl_pow2 by assumption. apply int_is; [|exact H]. apply Rmult_le_pos; [exact H0|apply bpow_ge_0]. Qed.

(** ** any sample rate: a duration given as a double is never cut short, and gains at most one sample *)
Theorem samples64_bounds d sr n : (0 <= n < 2 ^ 53)%Z -> IZR n <= d * sr < IZR n + 1 -> samples64 d sr = n \/ samples64 d sr = (n + 1)%Z.
Proof.
  intros Hn [H1 H2]. assert (N0 : 0 <= IZR n) by (apply IZR_le; lia).
  assert (L : IZR n <= fl (d * sr)) by (rewrite <- (fl_id (IZR n)) by (apply int_F64; lia); apply fl_le, H1).
  assert (U : fl (d * sr) <= IZR n + 1) by (rewrite <- plus_IZR, <- (fl_id (IZR (n + 1))) by (apply int_F64; lia); apply fl_le; rewrite plus_IZR; lra).
  unfold samples64. destruct (Req_dec (fl (d * sr)) (IZR n + 1)) as [E|E]; [right|left]; apply int_is; rewrite ?plus_IZR; lra.
Qed.
(** ** a duration of exactly n samples, rounded to a double: n samples or n-1 *)
Lemma fl_rel x : bpow radix2 (-1022) <= Rabs x -> exists e, Rabs e <= / 2 * bpow radix2 (-52) /\ fl x = x * (1 + e).
Proof. intros H. destruct (relative_error_N_FLT_ex radix2 (-1074) 53 prec64 (fun z => negb (Z.even z)) x) as (e & E1 & E2); [exact H|]. exists e. split; [exact E1|exact E2]. Qed.
Lemma u64 : / 2 * bpow radix2 (-52) = / IZR (2 ^ 53).
Proof. change (bpow radix2 (-52)) with (/ IZR (2 ^ 52)). change (2 ^ 53)%Z with (2 * 2 ^ 52)%Z. rewrite mult_IZR. field. apply IZR_neq. lia. Qed.
Theorem samples64_near n sr : (1 <= n < 2 ^ 52)%Z -> 0 < sr -> bpow radix2 (-1022) <= IZR n / sr -> 
  (samples64 (fl (IZR n / sr)) sr = n \/ samples64 (fl (IZR n / sr)) sr = (n - 1)%Z) /\ (IZR n / sr <= fl (IZR n / sr) -> samples64 (fl (IZR n / sr)) sr = n).
Proof.
  intros Hn Hs HX. assert (N1 : 1 <= IZR n) by (apply IZR_le; lia). assert (N2 : IZR n < IZR (2 ^ 52)) by (apply IZR_lt; lia).
  assert (P : 0 < IZR n / sr) by (apply Rdiv_lt_0_compat; lra).
  destruct (fl_rel (IZR n / sr)) as (e & He & E); [rewrite Rabs_right by lra; exact HX|]. rewrite u64 in He.
  assert (NE : Rabs (IZR n * e) <= 1 / 2).
  { rewrite Rabs_mult, (Rabs_right (IZR n)) by lra. apply Rle_trans with (IZR (2 ^ 52) * / IZR (2 ^ 53)).
    - apply Rmult_le_compat; [lra|apply Rabs_pos|lra|exact He].
    - change (2 ^ 53)%Z with (2 * 2 ^ 52)%Z. rewrite mult_IZR. right. field. apply IZR_neq. lia. }
  apply Rabs_le_inv in NE. set (d := fl (IZR n / sr)) in *. assert (D : d * sr = IZR n + IZR n * e) by (rewrite E; field; lra).
  assert (L : IZR n - 1 <= fl (d * sr)) by (rewrite <- minus_IZR, <- (fl_id (IZR (n - 1))) by (apply int_F64; lia); apply fl_le; rewrite minus_IZR; lra).
  assert (U : fl (d * sr) <= IZR n + 1 / 2).
  { replace (IZR n + 1 / 2) with (IZR (2 * n + 1) / 2) by (rewrite plus_IZR, mult_IZR; lra). rewrite <- (fl_id (IZR (2 * n + 1) / 2)) by (apply half_int_F64; lia). apply fl_le. rewrite plus_IZR, mult_IZR. lra. }
  unfold samples64. split.
  - destruct (Rle_dec (IZR n) (fl (d * sr))); [left|right]; apply int_is; rewrite ?minus_IZR; lra.
  - intros G. assert (IZR n <= d * sr). { apply (Rmult_le_compat_r sr) in G; [|lra]. replace (IZR n / sr * sr) with (IZR n) in G by (field; lra). exact G. }
    assert (IZR n <= fl (d * sr)) by (rewrite <- (fl_id (IZR n)) by (apply int_F64; lia); apply fl_le; assumption). apply int_is; lra.
Qed.
(** computing [fl] *)
Lemma fl_compute x m e : (-1074 <= e)%Z -> bpow radix2 (e + 52) <= x < bpow radix2 (e + 53) -> Rabs (x * bpow radix2 (- e) - IZR m) < / 2 -> fl x = IZR m * bpow radix2 e.
Proof.
  intros He [H1 H2] Hm. assert (PX : 0 < x) by (eapply Rlt_le_trans; [apply bpow_gt_0|exact H1]). assert (MG : mag radix2 x = (e + 53)%Z :> Z).
  { apply mag_unique. rewrite Rabs_right by lra. replace (e + 53 - 1)%Z with (e + 52)%Z by lia. split; assumption. }
  assert (CE : cexp radix2 fexp64 x = e) by (unfold cexp; rewrite MG; unfold fexp64, FLT_exp; lia).
  unfold fl, round, scaled_mantissa. rewrite CE. rewrite (Znearest_imp _ _ m Hm). reflexivity.
Qed.
(** ** witness: 0.29 s at 100 Hz is 28 samples, not 29 *)
Theorem samples64_short_refuted : samples64 (fl (29 / 100)) 100 = 28%Z.
Proof.
  rewrite (fl_compute (29 / 100) 5224175567749775 (-54)); [|lia|change (bpow radix2 (-54 + 52)) with (/ 4); change (bpow radix2 (-54 + 53)) with (/ 2); lra|].
  2:{ change (bpow radix2 (- (-54))) with 18014398509481984. apply Rabs_def1; lra. }
  unfold samples64. rewrite (fl_compute _ 8162774324609023 (-48)); [|lia|change (bpow radix2 (-48 + 52)) with 16; change (bpow radix2 (-48 + 53)) with 32; change (bpow radix2 (-54)) with (/ 18014398509481984); lra|].
  2:{ change (bpow radix2 (- (-48))) with 281474976710656. change (bpow radix2 (-54)) with (/ 18014398509481984). apply Rabs_def1; lra. }
  change (bpow radix2 (-48)) with (/ 281474976710656). apply int_is; lra.
Qed.

(** ** the padding of the whitening filter is half the window of the module, rounded down *)
Lemma half_F64 y : F64 y -> 1 <= y -> F64 (y / 2).
Proof.
  intros Hy H1. apply FLT_format_generic in Hy; [|exact _]. destruct Hy as [[m e] E1 E2 E3]. cbn [Fnum Fexp] in *.
  assert (e <> -1074)%Z.
  { intros ->. unfold F2R in E1. cbn [Fnum Fexp] in E1. assert (IZR m < IZR (2 ^ 53)) by (apply IZR_lt; change (radix2 ^ 53)%Z with (2 ^ 53)%Z in E2; lia).
    assert (B : bpow radix2 (-1074) <= bpow radix2 (-53)) by (apply bpow_le; lia). change (bpow radix2 (-53)) with (/ IZR (2 ^ 53)) in B. pose proof (bpow_gt_0 radix2 (-1074)) as B0.
    assert (P : 0 < IZR (2 ^ 53)) by (apply IZR_lt; lia). set (T := IZR (2 ^ 53)) in *. assert (T * / T = 1) by (apply Rinv_r; lra). nra. }
  apply generic_format_FLT. exists (Float radix2 m (e - 1)); cbn [Fnum Fexp]; [|assumption|lia]. rewrite E1. unfold F2R. cbn [Fnum Fexp]. unfold Z.sub. rewrite (bpow_plus radix2 e (- (1))). change (bpow radix2 (- (1))) with (/ 2). field.
Qed.
Theorem half64_spec d sr : 0 <= d * sr -> half64 d sr = (samples64 d sr / 2)%Z.
Proof.
  intros H. unfold half64, samples64. set (y := fl (d * sr)). assert (Y0 : 0 <= y) by (unfold y; rewrite <- (fl_id 0) by (apply (int_F64 0); lia); apply fl_le, H). assert (YF : F64 y) by apply fl_nearest.
  destruct (proj1 (rtrunc_spec y) Y0) as [A B]. set (n := rtrunc y) in *. assert (N0 : (0 <= n)%Z) by (apply le_IZR; destruct (Z_le_dec 0 n) as [K|K]; [apply IZR_le, K|exfalso; assert (n + 1 <= 0)%Z as Q by lia; apply IZR_le in Q; rewrite plus_IZR in Q; lra]).
  destruct (Rle_dec 1 y) as [L|L].
  - rewrite (fl_id (y / 2)) by (apply half_F64; assumption). pose proof (Z.div_mod n 2 ltac:(lia)) as DM. pose proof (Z.mod_pos_bound n 2 ltac:(lia)) as MB. assert (E : IZR n = 2 * IZR (n / 2) + IZR (n mod 2)) by (rewrite <- mult_IZR, <- plus_IZR; f_equal; exact DM).
    assert (0 <= IZR (n mod 2) <= 1) by (split; apply IZR_le; lia). apply int_is; lra.
  - assert (n = 0)%Z by (assert (n < 1)%Z by (apply lt_IZR; lra); lia). rewrite H0. change (0 / 2)%Z with 0%Z.
    assert (U : fl (y / 2) <= IZR 1 / 2) by (rewrite <- (fl_id (IZR 1 / 2)) by (apply half_int_F64; lia); apply fl_le; lra).
    assert (V : 0 <= fl (y / 2)) by (rewrite <- (fl_id 0) at 1 by (apply (int_F64 0); lia); apply fl_le; lra). apply int_is; lra.
Qed.

(** ** cut-off bins *)
(** grids with 2^-k Hz between bins: bin k is removed by the high-pass exactly when the next bin is not above the cut-off *)
Theorem cut64_pow2 c sr n k : F64 c -> 0 <= c -> (0 < n)%Z -> (0 <= k <= 1022)%Z -> sr / IZR n = bpow radix2 (- k) -> forall b, (0 <= b)%Z ->
  (highpassed64 c sr n b = true <-> IZR (b + 1) * (sr / IZR n) <= c) /\ (lowpassed64 c sr n b = true <-> c < IZR (b + 1) * (sr / IZR n)).
Proof.
  intros Fc Hc Hn Hk Hdf b Hb. assert (X : IZR (cut64 c sr n) <= c * bpow radix2 k < IZR (cut64 c sr n) + 1).
  { unfold cut64. rewrite Hdf. rewrite (fl_id (bpow radix2 (- k))) by (apply generic_format_bpow; unfold fexp64, FLT_exp; lia).
    unfold Rdiv. rewrite <- bpow_opp, Z.opp_involutive, fl_pow2 by (assumption || lia). apply rtrunc_spec. apply Rmult_le_pos; [exact Hc|apply bpow_ge_0]. }
  rewrite Hdf. set (j := cut64 c sr n) in *. assert (P := bpow_gt_0 radix2 k). assert (Q : bpow radix2 (- k) * bpow radix2 k = 1) by (rewrite <- bpow_plus, Z.add_opp_diag_l; reflexivity). assert (P' := bpow_gt_0 radix2 (- k)).
  assert (IFF : (b < j)%Z <-> IZR (b + 1) * bpow radix2 (- k) <= c).
  { split; intros HH.
    - assert (IZR (b + 1) <= IZR j) by (apply IZR_le; lia). apply Rmult_le_reg_r with (bpow radix2 k); [exact P|]. rewrite Rmult_assoc, Q. lra.
    - apply (Rmult_le_compat_r (bpow radix2 k)) in HH; [|lra]. rewrite Rmult_assoc, Q in HH. assert (b + 1 < j + 1)%Z by (apply lt_IZR; rewrite (plus_IZR j); lra). lia. }
  unfold highpassed64, lowpassed64. fold j. rewrite Z.ltb_lt, Z.leb_le. split; [exact IFF|]. split; intros HH.
  - destruct (Rlt_dec c (IZR (b + 1) * bpow radix2 (- k))) as [K|K]; [exact K|]. assert (b < j)%Z by (apply IFF; lra). lia.
  - destruct (Z_le_dec j b) as [K|K]; [exact K|]. assert (IZR (b + 1) * bpow radix2 (- k) <= c) by (apply IFF; lia). lra.
Qed.
(** any grid: the index is off by at most one, and for a cut-off that lies on a bin it is that bin or the one below *)
Lemma quotient c df x : 0 < df -> bpow radix2 (-1022) <= df -> c = x * df -> 1 / 2 <= x < IZR (2 ^ 51) -> x - 1 / 2 <= c / fl df <= x + 1 / 2.
Proof.
  intros Hd HN E Hx. destruct (fl_rel df) as (e & He & F); [rewrite Rabs_right by lra; exact HN|]. rewrite u64 in He. rewrite F, E.
  assert (P51 : IZR (2 ^ 53) = 4 * IZR (2 ^ 51)) by (rewrite <- mult_IZR; reflexivity). assert (P0 : 1 <= IZR (2 ^ 51)) by (apply IZR_le; lia).
  assert (HE : IZR (2 ^ 51) * Rabs e <= 1 / 4). { apply Rle_trans with (IZR (2 ^ 51) * / IZR (2 ^ 53)); [apply Rmult_le_compat_l; lra|]. rewrite P51. right. field. lra. }
  set (T := IZR (2 ^ 51)) in *. clearbody T. pose proof (Rabs_pos e). assert (E4 : Rabs e <= 1 / 4) by nra. assert (XE : x * Rabs e <= 1 / 4) by nra.
  assert (-Rabs e <= e <= Rabs e) by (split; [pose proof (Rle_abs (- e)) as K; rewrite Rabs_Ropp in K; lra|apply Rle_abs]). set (a := Rabs e) in *. clearbody a.
  replace (x * df / (df * (1 + e))) with (x / (1 + e)) by (field; lra). assert (XP : - (1 / 4) <= x * e <= 1 / 4) by nra.
  split; apply Rmult_le_reg_r with (1 + e); try lra; unfold Rdiv; rewrite (Rmult_assoc x (/ (1 + e))), Rinv_l by lra; nra.
Qed.
Theorem cut64_near c sr n j : (1 <= j < 2 ^ 51 - 1)%Z -> 0 < sr -> (0 < n)%Z -> bpow radix2 (-1022) <= sr / IZR n -> 
  (IZR j * (sr / IZR n) <= c < IZR (j + 1) * (sr / IZR n) -> (j - 1 <= cut64 c sr n <= j + 1)%Z) /\
  (c = IZR j * (sr / IZR n) -> cut64 c sr n = j \/ cut64 c sr n = (j - 1)%Z).
Proof.
  intros Hj Hs Hn HN. assert (PN : 0 < IZR n) by (apply IZR_lt; lia). assert (PD : 0 < sr / IZR n) by (apply Rdiv_lt_0_compat; lra). set (df := sr / IZR n) in *.
  assert (J1 : 1 <= IZR j) by (apply IZR_le; lia). assert (J2 : IZR j + 1 < IZR (2 ^ 51)) by (rewrite <- plus_IZR; apply IZR_lt; lia).
  assert (G : forall x, IZR j <= x < IZR j + 1 -> c = x * df -> IZR j - 1 <= fl (c / fl df) <= IZR j + 3 / 2 /\ (x = IZR j -> fl (c / fl df) <= IZR j + 1 / 2)).
  { intros x Hx E. pose proof (quotient c df x PD HN E ltac:(lra)) as [Q1 Q2].
    assert (HI : forall m, (Z.abs m < 2 ^ 53)%Z -> fl (IZR m / 2) = IZR m / 2) by (intros m Hm; apply fl_id, half_int_F64, Hm).
    assert (A1 : IZR j - 1 <= fl (c / fl df)) by (replace (IZR j - 1) with (IZR (2 * j - 2) / 2) by (rewrite minus_IZR, mult_IZR; lra); rewrite <- HI by lia; apply fl_le; rewrite minus_IZR, mult_IZR; lra).
    assert (A2 : fl (c / fl df) <= IZR j + 3 / 2) by (replace (IZR j + 3 / 2) with (IZR (2 * j + 3) / 2) by (rewrite plus_IZR, mult_IZR; lra); rewrite <- HI by lia; apply fl_le; rewrite plus_IZR, mult_IZR; lra).
    split; [lra|]. intros Ex. replace (IZR j + 1 / 2) with (IZR (2 * j + 1) / 2) by (rewrite plus_IZR, mult_IZR; lra). rewrite <- HI by lia. apply fl_le. rewrite plus_IZR, mult_IZR. lra. }
  split.
  - intros Hc. destruct (G (c / df)) as [[G1 G2] _]; [|field; lra|].
    { rewrite plus_IZR in Hc. assert (K : df * / df = 1) by (apply Rinv_r; lra). assert (IK : 0 < / df) by (apply Rinv_0_lt_compat; exact PD). split; [apply Rmult_le_reg_r with df; [exact PD|]|apply Rmult_lt_reg_r with df; [exact PD|]]; unfold Rdiv; rewrite Rmult_assoc, (Rmult_comm (/ df)), K, Rmult_1_r; lra. }
    unfold cut64. fold df. destruct (proj1 (rtrunc_spec (fl (c / fl df))) ltac:(lra)) as [A B]. set (r := rtrunc _) in *. split; [assert (j - 1 < r + 1)%Z by (apply lt_IZR; rewrite minus_IZR, plus_IZR; lra); lia|assert (r < j + 2)%Z by (apply lt_IZR; rewrite plus_IZR; lra); lia].
  - intros Hc. destruct (G (IZR j)) as [[G1 _] G2]; [lra|exact Hc|]. specialize (G2 eq_refl). unfold cut64. fold df. destruct (Rle_dec (IZR j) (fl (c / fl df))); [left|right]; apply int_is; rewrite ?minus_IZR; lra.
Qed.
(** witness: 1488 samples at 1024 Hz and a high-pass of 64 Hz, which is bin 93 exactly: bin 92, below the cut-off, is not removed *)
Theorem highpass_bin_refuted : IZR 93 * (1024 / IZR 1488) = 64 /\ IZR 92 * (1024 / IZR 1488) < 64 /\ highpassed64 64 1024 1488 92 = false /\ highpassed64 64 1024 1488 91 = true.
Proof.
  split; [lra|]. split; [lra|]. assert (E : cut64 64 1024 1488 = 92%Z); [|unfold highpassed64; rewrite E; split; reflexivity].
  unfold cut64. rewrite (fl_compute (1024 / IZR 1488) 6198502712940038 (-53)); [|lia|change (bpow radix2 (-53 + 52)) with (/ 2); change (bpow radix2 (-53 + 53)) with 1; lra|].
  2:{ change (bpow radix2 (- (-53))) with 9007199254740992. apply Rabs_def1; lra. }
  change (bpow radix2 (-53)) with (/ 9007199254740992). replace (64 / (6198502712940038 * / 9007199254740992)) with (64 * 9007199254740992 / 6198502712940038) by (field; lra).
  rewrite (fl_compute _ 6544293208522751 (-46)); [|lia|change (bpow radix2 (-46 + 52)) with 64; change (bpow radix2 (-46 + 53)) with 128; lra|].
  2:{ change (bpow radix2 (- (-46))) with 70368744177664. apply Rabs_def1; lra. }
  change (bpow radix2 (-46)) with (/ 70368744177664). apply int_is; lra.
Qed.
(** ** the default overlap, fftlength / 2, is half the frame, rounded down *)
Lemma fl_half x : bpow radix2 (-1000) <= x -> fl (x / 2) = fl x / 2.
Proof.
  intros H. assert (PX : 0 < x) by (eapply Rlt_le_trans; [apply bpow_gt_0|exact H]).
  assert (EX : x / 2 = x * bpow radix2 (-1)) by (change (bpow radix2 (-1)) with (/ 2); reflexivity).
  assert (MG : mag radix2 (x / 2) = (mag radix2 x - 1)%Z :> Z) by (rewrite EX, mag_mult_bpow by lra; lia).
  assert (M1 : (-1000 < mag radix2 x)%Z). { apply mag_gt_bpow. rewrite Rabs_right by lra. exact H. }
  assert (CE : cexp radix2 fexp64 (x / 2) = (cexp radix2 fexp64 x - 1)%Z) by (unfold cexp; rewrite MG; unfold fexp64, FLT_exp; lia).
  unfold fl, round, scaled_mantissa, F2R. cbn [Fnum Fexp]. rewrite CE. set (e := cexp radix2 fexp64 x).
  assert (S1 : x / 2 * bpow radix2 (- (e - 1)) = x * bpow radix2 (- e)). { replace (- (e - 1))%Z with (- e + 1)%Z by lia. rewrite bpow_plus. change (bpow radix2 1) with 2. field. }
  rewrite S1. unfold Z.sub. rewrite (bpow_plus radix2 e (- (1))). change (bpow radix2 (- (1))) with (/ 2). field.
Qed.
Theorem default_overlap64 d sr : F64 d -> bpow radix2 (-1000) <= d -> bpow radix2 (-1000) <= d * sr -> samples64 (fl (d / 2)) sr = (samples64 d sr / 2)%Z.
Proof.
  intros Fd Hd Hs. rewrite fl_half, (fl_id d) by assumption. rewrite <- half64_spec by (eapply Rle_trans; [apply bpow_ge_0|exact Hs]). unfold samples64, half64.
  replace (d / 2 * sr) with (d * sr / 2) by field. rewrite fl_half by exact Hs. rewrite (fl_id (fl (d * sr) / 2)); [reflexivity|]. rewrite <- fl_half by exact Hs. apply fl_nearest.
Qed.
(** concrete cases: 1.5 s at 2048 Hz; a 4 s grid at 2048 Hz with a 20 Hz high-pass removes bins 0..79 *)
Example samples64_ex : samples64 (3 / 2) (bpow radix2 11) = 3072%Z /\ half64 (3 / 2) (bpow radix2 11) = 1536%Z /\ (forall b, (0 <= b)%Z -> highpassed64 20 2048 8192 b = true <-> (b < 80)%Z).
Proof.
  assert (A : samples64 (3 / 2) (bpow radix2 11) = 3072%Z). { apply samples64_pow2; [apply half_int_F64; lia|lra|lia|]. change (bpow radix2 11) with 2048. lra. }
  split; [exact A|]. split; [rewrite half64_spec, A; [reflexivity|]; change (bpow radix2 11) with 2048; lra|].
  intros b Hb. destruct (cut64_pow2 20 2048 8192 2) with (b := b) as [H _]; [apply (int_F64 20); lia|lra|lia|lia|change (bpow radix2 (- (2))) with (/ 4); lra|exact Hb|].
  rewrite H. rewrite plus_IZR. split; intros K; [apply lt_IZR; lra|]. assert (b + 1 <= 80)%Z as Q by lia. apply IZR_le in Q. rewrite plus_IZR in Q. lra.
Qed.
