(** C109: TophatIntegrator in float32 arithmetic: the error does not depend on the length or on samples outside the window. *)
From Coq Require Import String Reals ZArith Lra Lia List Permutation.
From Flocq Require Import Core Relative.
From Verif Require Import Base Tensor Rutil Autoenc_model Trans_model Integ_props F64_model F64_props Data_model Round32_props Leak32_model Leak32_props Oavg32_props Toph32_model.
Local Open Scope R_scope.

(** ** the rounded model with exact operations is the model of C42 *)
Theorem tophat_g_exact W x : tophat_g (fun _ _ k f => Rsum k f) (1 / INR W) W x = tophat W x.
Proof. reflexivity. Qed.
Lemma tophat_g_spec dot w W x pre L : shape x = pre ++ [L] -> (0 < L)%nat -> (0 < W)%nat ->
  exists r, tophat_g dot w W x = Ok r /\ shape r = shape x /\
  forall p t, inb p pre -> (t < L)%nat -> exists f, get r (p ++ [t]) = Some (dot (ravel pre p) t W f) /\
    forall j, (j < W)%nat -> f j = (if (W - 1 - j <=? t)%nat then elt x (p ++ [(t - (W - 1 - j))%nat]) else 0) * w.
Proof.
  intros Sx HL HW. unfold tophat_g. destruct (shape x) as [|d0 sx0] eqn:Ex; [destruct pre; discriminate|]. rewrite <- Ex in *. clear Ex d0 sx0.
  rewrite Sx, last_last. unfold reshape, infer_dims. cbn [existsb map filter negb]. replace (Z.of_nat L =? -1)%Z with false by lia. replace (Z.of_nat L <? -1)%Z with false by lia.
  change (-1 =? -1)%Z with true. change (1 =? -1)%Z with false. change (-1 <? -1)%Z with false. change (1 <? -1)%Z with false. cbn [orb negb List.length map prod]. rewrite Nat2Z.id.
  change (Z.to_nat 1) with 1%nat. rewrite Nat.mul_1_r, Nat.mul_1_l. replace (L =? 0)%nat with false by lia.
  unfold numel at 1 2. rewrite Sx, prod_app. cbn [prod]. rewrite Nat.mul_1_r, Nat.mod_mul, Nat.div_mul by lia. cbn [Nat.eqb bind].
  unfold reshape_to at 1. unfold numel. rewrite Sx, prod_app. cbn [prod]. rewrite !Nat.mul_1_r, Nat.mul_1_l, Nat.eqb_refl. cbn [bind].
  unfold conv1d_g, pad_last. cbn [shape removelast last app].
  replace ((W - 1 + L + 0 <? W)%nat) with false by lia. replace (W =? 0)%nat with false by lia. cbn [orb negb Nat.eqb].
  unfold reshape_to, numel. cbn [shape bind]. rewrite prod_app. cbn [prod]. replace ((prod pre * (L * 1) =? prod pre * (1 * ((W - 1 + L + 0 - W + 1) * 1)))%nat) with true by (symmetry; apply Nat.eqb_eq; nia).
  eexists. split; [reflexivity|]. split; [reflexivity|]. intros p t Hp Ht. eexists. split.
  { rewrite get_inb by (cbn [shape]; apply inb_app; [assumption|cbn; auto]). f_equal. cbn [elt].
  assert (LL : (W - 1 + L + 0 - W + 1 = L)%nat) by lia. rewrite LL.
  assert (Rp := ravel_lt pre p Hp).
  assert (U : unravel [prod pre; 1; L]%nat (ravel (pre ++ [L]) (p ++ [t])) = [ravel pre p; 0; t]%nat).
  { rewrite ravel_app by (apply inb_length, Hp). cbn [ravel prod]. rewrite Nat.mul_1_r, Nat.add_0_r.
    transitivity (unravel [prod pre; 1; L]%nat (ravel [prod pre; 1; L]%nat [ravel pre p; 0; t]%nat)); [f_equal; cbn; lia|].
    apply unravel_ravel. cbn. lia. }
  rewrite U. reflexivity. }
  intros j Hj. cbn [last removelast app elt]. f_equal.
  replace (W - 1 <=? t + j)%nat with (W - 1 - j <=? t)%nat by (destruct (Nat.leb_spec (W - 1 - j) t), (Nat.leb_spec (W - 1) (t + j)); lia).
  destruct (Nat.leb_spec (W - 1 - j) t) as [H|H]; [|rewrite andb_false_l; ring].
  replace (t + j <? W - 1 + L)%nat with true by lia. cbn [andb]. f_equal.
  replace (t + j - (W - 1))%nat with (t - (W - 1 - j))%nat by lia.
  assert (R0 : ravel [prod pre; 1; L]%nat [ravel pre p; 0; t - (W - 1 - j)]%nat = ravel (pre ++ [L]) (p ++ [(t - (W - 1 - j))%nat])).
  { rewrite ravel_app by (apply inb_length, Hp). cbn. lia. }
  rewrite R0. apply unravel_ravel. apply inb_app; [assumption|cbn; lia].
Qed.

(** ** rounding *)
Lemma acc_err_gen r z : acc_round r -> Rabs (r z - z) <= u32 * Rabs z + eta32.
Proof.
  intros (emin & p & He & Hp & ->). assert (PP : Prec_gt_0 p) by (unfold Prec_gt_0; lia).
  destruct (error_N_FLT radix2 emin p PP (fun x => negb (Z.even x)) z) as (eps & eta & H1 & H2 & _ & E).
  replace (round radix2 (FLT_exp emin p) ZnearestE z) with (z * (1 + eps) + eta) by (symmetry; exact E). replace (z * (1 + eps) + eta - z) with (eps * z + eta) by ring.
  eapply Rle_trans; [apply Rabs_triang|]. rewrite Rabs_mult. apply Rplus_le_compat.
  - apply Rmult_le_compat_r; [apply Rabs_pos|]. eapply Rle_trans; [exact H1|]. replace u32 with (/ 2 * bpow radix2 (-24 + 1)).
    + apply Rmult_le_compat_l; [lra|]. apply bpow_le. lia.
    + change (bpow radix2 (-24 + 1)) with (/ IZR (2 ^ 23)). unfold u32. change (2 ^ 24)%Z with (2 * 2 ^ 23)%Z. rewrite mult_IZR. field. apply IZR_neq. lia.
  - eapply Rle_trans; [exact H2|]. apply Rle_trans with (/ 2 * bpow radix2 (-149)); [apply Rmult_le_compat_l; [lra|]; apply bpow_le; lia|].
    right. unfold eta32. change (-149)%Z with (1 + -150)%Z. rewrite bpow_plus. change (bpow radix2 1) with 2. field.
Qed.
Lemma acc_zero r : acc_round r -> r 0 = 0.
Proof. intros (emin & p & He & Hp & ->). apply round_0. exact _. Qed.
Lemma acc_pos r z : acc_round r -> 0 <= z -> 0 <= r z.
Proof.
  intros (emin & p & He & Hp & ->) Hz. assert (PP : Prec_gt_0 p) by (unfold Prec_gt_0; lia). assert (V := FLT_exp_valid emin p).
  rewrite <- (round_0 radix2 (FLT_exp emin p) ZnearestE). apply round_le; [exact V|exact _|exact Hz].
Qed.
Lemma dotted_len f l v : dotted f l v -> (0 < List.length l)%nat.
Proof. induction 1 as [| |l1 l2 l v1 v2 r _ _ I1 _ _ P]; [cbn; lia|cbn; lia|]. apply Permutation_length in P. rewrite app_length in P. lia. Qed.
Lemma dotted_ext f g l v : (forall j, In j l -> f j = g j) -> dotted f l v -> dotted g l v.
Proof.
  intros E H. induction H as [j|j r Hr|l1 l2 l v1 v2 r Hr H1 I1 H2 I2 P].
  - rewrite (E j) by (left; reflexivity). constructor.
  - rewrite (E j) by (left; reflexivity). constructor. exact Hr.
  - eapply dot_node; [exact Hr| | |exact P]; [apply I1|apply I2]; intros j Hj; apply E; (eapply Permutation_in; [exact P|]); apply in_or_app; auto.
Qed.
(** the error of a dot product, whatever the order of the additions and wherever products are fused *)
Theorem dotted_error f l v : dotted f l v ->
  Rabs (v - lsum f l) <= (1 + u32) ^ List.length l * (lsum (fun j => Rabs (f j)) l + (2 * INR (List.length l) - 1) * eta32) - lsum (fun j => Rabs (f j)) l.
Proof.
  assert (U := u32_pos). assert (N := eta32_pos). induction 1 as [j|j r Hr|l1 l2 l v1 v2 r Hr H1 I1 H2 I2 P].
  - cbn [lsum fold_right List.length pow INR]. assert (A := Rabs_pos (f j)). replace (f j - (f j + 0)) with 0 by ring. rewrite Rabs_R0. nra.
  - cbn [lsum fold_right List.length pow INR]. assert (A := Rabs_pos (f j)). replace (r (f j) - (f j + 0)) with (r (f j) - f j) by ring. assert (E := acc_err_gen r (f j) Hr). nra.
  - assert (LP := Permutation_length P). rewrite app_length in LP. assert (N1 := dotted_len _ _ _ H1). assert (N2 := dotted_len _ _ _ H2).
    rewrite <- !(lsum_perm _ _ _ P), !lsum_app, <- LP, plus_INR.
    assert (S1 := lsum_abs f l1). assert (S2 := lsum_abs f l2). assert (P1 := lsum_abs_pos f l1). assert (P2 := lsum_abs_pos f l2).
    set (s1 := lsum f l1) in *. set (s2 := lsum f l2) in *. set (a1 := lsum (fun j => Rabs (f j)) l1) in *. set (a2 := lsum (fun j => Rabs (f j)) l2) in *.
    assert (U1 : 1 <= 1 + u32) by lra. assert (Q0 : 1 <= (1 + u32) ^ (List.length l1 + List.length l2)) by (apply pow_R1_Rle; exact U1).
    assert (Q1 : (1 + u32) * (1 + u32) ^ List.length l1 <= (1 + u32) ^ (List.length l1 + List.length l2)) by (rewrite tech_pow_Rmult; apply Rle_pow; [exact U1|lia]).
    assert (Q2 : (1 + u32) * (1 + u32) ^ List.length l2 <= (1 + u32) ^ (List.length l1 + List.length l2)) by (rewrite tech_pow_Rmult; apply Rle_pow; [exact U1|lia]).
    assert (M1 : 1 <= INR (List.length l1)) by (apply (le_INR 1); lia). assert (M2 : 1 <= INR (List.length l2)) by (apply (le_INR 1); lia).
    set (m1 := INR (List.length l1)) in *. set (m2 := INR (List.length l2)) in *.
    set (g1 := (1 + u32) ^ List.length l1) in *. set (g2 := (1 + u32) ^ List.length l2) in *. set (g := (1 + u32) ^ (List.length l1 + List.length l2)) in *.
    set (c1 := a1 + (2 * m1 - 1) * eta32) in *. set (c2 := a2 + (2 * m2 - 1) * eta32) in *.
    assert (V1 : Rabs v1 <= g1 * c1). { replace v1 with (v1 - s1 + s1) by ring. eapply Rle_trans; [apply Rabs_triang|]. lra. }
    assert (V2 : Rabs v2 <= g2 * c2). { replace v2 with (v2 - s2 + s2) by ring. eapply Rle_trans; [apply Rabs_triang|]. lra. }
    assert (V : Rabs (v1 + v2) <= g1 * c1 + g2 * c2) by (eapply Rle_trans; [apply Rabs_triang|]; lra).
    assert (E := acc_err_gen r (v1 + v2) Hr).
    replace (r (v1 + v2) - (s1 + s2)) with (r (v1 + v2) - (v1 + v2) + (v1 - s1 + (v2 - s2))) by ring.
    eapply Rle_trans; [apply Rabs_triang|]. assert (T2 := Rabs_triang (v1 - s1) (v2 - s2)).
    assert (C1 : 0 <= c1) by (unfold c1; nra). assert (C2 : 0 <= c2) by (unfold c2; nra).
    assert (M : u32 * Rabs (v1 + v2) <= u32 * (g1 * c1 + g2 * c2)) by (apply Rmult_le_compat_l; lra).
    assert (K1 : (1 + u32) * g1 * c1 <= g * c1) by (apply Rmult_le_compat_r; assumption).
    assert (K2 : (1 + u32) * g2 * c2 <= g * c2) by (apply Rmult_le_compat_r; assumption).
    assert (K3 : eta32 <= g * eta32) by nra.
    replace (a1 + a2 + (2 * (m1 + m2) - 1) * eta32) with (c1 + c2 + eta32) by (unfold c1, c2; ring).
    clearbody s1 s2 g1 g2 g c1 c2 a1 a2. nra.
Qed.
Lemma dotted_zero f l v : (forall j, In j l -> f j = 0) -> dotted f l v -> v = 0.
Proof.
  intros Z H. induction H as [j|j r Hr|l1 l2 l v1 v2 r Hr H1 I1 H2 I2 P].
  - apply Z. left. reflexivity.
  - rewrite Z by (left; reflexivity). apply acc_zero, Hr.
  - rewrite I1, I2, Rplus_0_l; [apply acc_zero, Hr| |]; intros j Hj; apply Z; (eapply Permutation_in; [exact P|]); apply in_or_app; auto.
Qed.
Lemma dotted_pos f l v : (forall j, In j l -> 0 <= f j) -> dotted f l v -> 0 <= v.
Proof.
  intros Z H. induction H as [j|j r Hr|l1 l2 l v1 v2 r Hr H1 I1 H2 I2 P].
  - apply Z. left. reflexivity.
  - apply acc_pos; [exact Hr|]. apply Z. left. reflexivity.
  - apply acc_pos; [exact Hr|]. apply Rplus_le_le_0_compat; [apply I1|apply I2]; intros j Hj; apply Z; (eapply Permutation_in; [exact P|]); apply in_or_app; auto.
Qed.
(** float32 convolutions exist: one adds from the left *)
Lemma dot_left_dotted f t : dotted f (seq 0 (S t)) (dot_left f t).
Proof.
  induction t as [|t IH]; cbn [dot_left].
  - apply dot_round, fl32_acc.
  - eapply dot_node; [apply fl32_acc|exact IH|apply (dot_round f (S t)), fl32_acc|]. rewrite (seq_S (S t)). apply Permutation_refl.
Qed.
Theorem conv32_left : conv32 (fun _ _ k f => fl32 (dot_left f (k - 1))).
Proof. intros b t k f Hk. exists (dot_left f (k - 1)). split; [|reflexivity]. replace k with (S (k - 1)) at 1 by lia. apply dot_left_dotted. Qed.

(** ** the window *)
(** the samples at distance j < W behind t, zero before the start *)
Definition behind (x : tensor R) (p : list nat) (t j : nat) : R := if (j <=? t)%nat then elt x (p ++ [(t - j)%nat]) else 0.
Lemma window32_err W : (0 < W)%nat -> (Z.of_nat W <= 2 ^ 24)%Z -> Rabs (window32 W - / INR W) <= u32 * / INR W /\ 0 < window32 W.
Proof.
  intros HW HB. assert (E := recip_err W HW HB). unfold window32. replace (1 / INR W) with (/ INR W) by (unfold Rdiv; ring). split; [exact E|].
  assert (P : 0 < / INR W) by (apply Rinv_0_lt_compat, lt_0_INR; lia). apply Rabs_def2_le in E || apply Rabs_le_between in E || (apply Rcomplements.Rabs_le_between in E).
  assert (U2 : u32 < 1). { unfold u32. rewrite <- Rinv_1. apply Rinv_lt_contravar; [rewrite Rmult_1_l; apply IZR_lt; lia|apply IZR_lt; lia]. } nra.
Qed.

(** ** C109 *)
(** each output against the exact mean of the window, in terms of the mean absolute value of the window only: samples outside the window, the length of
    the series and earlier rounding errors do not enter *)
Theorem tophat32_error dot W x r pre L p t : conv32 dot -> shape x = pre ++ [L] -> (0 < W)%nat -> (Z.of_nat W <= 2 ^ 24)%Z ->
  tophat32 dot W x = Ok r -> inb p pre -> (t < L)%nat ->
  let A := Rsum W (fun j => Rabs (behind x p t j)) / INR W in
  exists v, get r (p ++ [t]) = Some v /\ F32 v /\
    Rabs (v - Rsum W (behind x p t) / INR W) <= (1 + u32) ^ (W + 2) * (A + 2 * INR W * eta32) - A.
Proof.
  intros HD Sx HW HB Hr Hp Ht A. assert (HL : (0 < L)%nat) by lia. destruct (tophat_g_spec dot (window32 W) W x pre L Sx HL HW) as [r' [E [_ G]]].
  unfold tophat32 in Hr. rewrite E in Hr. injection Hr as ->. destruct (G p t Hp Ht) as [f [Gv Gf]]. destruct (HD (ravel pre p) t W f HW) as [v [Hv Ev]].
  exists (fl32 v). split; [rewrite Gv, Ev; reflexivity|]. split; [apply fl32_F32|].
  assert (U := u32_pos). assert (N := eta32_pos). destruct (window32_err W HW HB) as [WE WP]. assert (PI : 0 < INR W) by (apply lt_0_INR; lia). assert (PV : 0 < / INR W) by (apply Rinv_0_lt_compat, PI).
  assert (D := dotted_error f _ _ Hv). rewrite seq_length, !lsum_seq in D.
  assert (F1 : Rsum W f = Rsum W (behind x p t) * window32 W).
  { rewrite <- (Rsum_rev W f), <- Rsum_scal_r. apply Rsum_ext. intros j Hj. rewrite Gf by lia. unfold behind. replace (W - 1 - (W - 1 - j))%nat with j by lia. reflexivity. }
  assert (F2 : Rsum W (fun j => Rabs (f j)) = Rsum W (fun j => Rabs (behind x p t j)) * window32 W).
  { rewrite <- (Rsum_rev W (fun j => Rabs (f j))), <- Rsum_scal_r. apply Rsum_ext. intros j Hj. rewrite Gf by lia. unfold behind. replace (W - 1 - (W - 1 - j))%nat with j by lia. rewrite Rabs_mult, (Rabs_right (window32 W)) by lra. reflexivity. }
  rewrite F1, F2 in D. set (s := Rsum W (behind x p t)) in *. set (a := Rsum W (fun j => Rabs (behind x p t j))) in *. set (w := window32 W) in *.
  assert (SA : Rabs s <= a) by (unfold s, a; rewrite <- !lsum_seq; apply lsum_abs).
  assert (A0 : 0 <= A) by (unfold A, Rdiv; apply Rmult_le_pos; [eapply Rle_trans; [apply Rabs_pos|exact SA]|lra]).
  assert (aw : a * w <= (1 + u32) * A).
  { unfold A, Rdiv. replace ((1 + u32) * (a * / INR W)) with (a * ((1 + u32) * / INR W)) by ring. apply Rmult_le_compat_l; [eapply Rle_trans; [apply Rabs_pos|exact SA]|].
    assert (Q := Rle_abs (w - / INR W)). lra. }
  assert (sw : Rabs (s * w - s / INR W) <= u32 * A).
  { replace (s * w - s / INR W) with (s * (w - / INR W)) by (unfold Rdiv; ring). rewrite Rabs_mult. replace (u32 * A) with (a * (u32 * / INR W)) by (unfold A, Rdiv; ring).
    apply Rmult_le_compat; [apply Rabs_pos|apply Rabs_pos|exact SA|exact WE]. }
  assert (aw0 : 0 <= a * w) by (apply Rmult_le_pos; [eapply Rle_trans; [apply Rabs_pos|exact SA]|lra]).
  assert (swa : Rabs (s * w) <= a * w) by (rewrite Rabs_mult, (Rabs_right w) by lra; apply Rmult_le_compat_r; lra).
  assert (E1 := fl32_err v). assert (IW : 1 <= INR W) by (apply (le_INR 1); lia). assert (G1 : 1 <= (1 + u32) ^ W) by (apply pow_R1_Rle; lra).
  replace ((1 + u32) ^ (W + 2)) with ((1 + u32) ^ W * (1 + u32) * (1 + u32)) by (rewrite pow_add; ring). set (g := (1 + u32) ^ W) in *.
  assert (V1 : Rabs v <= g * (a * w + (2 * INR W - 1) * eta32)). { replace v with (v - s * w + s * w) by ring. eapply Rle_trans; [apply Rabs_triang|]. lra. }
  replace (fl32 v - s / INR W) with (fl32 v - v + ((v - s * w) + (s * w - s / INR W))) by ring.
  eapply Rle_trans; [apply Rabs_triang|]. assert (T := Rabs_triang (v - s * w) (s * w - s / INR W)).
  assert (M : u32 * Rabs v <= u32 * (g * (a * w + (2 * INR W - 1) * eta32))) by (apply Rmult_le_compat_l; lra).
  assert (B : Rabs (fl32 v - v) + Rabs (v - s * w + (s * w - s / INR W)) <= (1 + u32) * g * (a * w + (2 * INR W - 1) * eta32) - a * w + eta32 + u32 * A) by lra.
  eapply Rle_trans; [exact B|]. assert (GG : 1 <= (1 + u32) * g) by nra. set (h := (1 + u32) * g) in *. set (k := INR W) in *.
  assert (B1 : (h - 1) * (a * w) <= (h - 1) * ((1 + u32) * A)) by (apply Rmult_le_compat_l; lra).
  assert (B2 : eta32 <= h * eta32) by nra. assert (B3 : 0 <= h * (2 * k * eta32)) by (apply Rmult_le_pos; [lra|]; apply Rmult_le_pos; lra).
  replace (g * (1 + u32) * (1 + u32)) with (h * (1 + u32)) by (unfold h; ring). set (kn := k * eta32) in *.
  replace (h * (1 + u32) * (A + 2 * k * eta32) - A) with ((h - 1) * ((1 + u32) * A) + u32 * A + h * (2 * kn) + u32 * (h * (2 * kn))) by (unfold kn; ring).
  replace (h * (a * w + (2 * k - 1) * eta32) - a * w + eta32 + u32 * A) with ((h - 1) * (a * w) + u32 * A + h * (2 * kn) + (eta32 - h * eta32)) by (unfold kn; ring).
  assert (B4 : 0 <= u32 * (h * (2 * kn))). { apply Rmult_le_pos; [lra|]. replace (h * (2 * kn)) with (h * (2 * k * eta32)) by (unfold kn; ring). exact B3. }
  lra.
Qed.
(** the same with a bound one can read *)
Theorem tophat32_error_simple dot W x r pre L p t : conv32 dot -> shape x = pre ++ [L] -> (0 < W)%nat -> (Z.of_nat W <= 2 ^ 22)%Z ->
  tophat32 dot W x = Ok r -> inb p pre -> (t < L)%nat ->
  exists v, get r (p ++ [t]) = Some v /\
    Rabs (v - Rsum W (behind x p t) / INR W) <= 2 * INR (W + 2) * u32 * (Rsum W (fun j => Rabs (behind x p t j)) / INR W) + 4 * INR W * eta32.
Proof.
  intros HD Sx HW HB Hr Hp Ht. destruct (tophat32_error dot W x r pre L p t HD Sx HW ltac:(lia) Hr Hp Ht) as [v [G [_ E]]]. exists v. split; [exact G|].
  eapply Rle_trans; [exact E|]. destruct (rounding_factor (W + 2)) as [R1 R2]; [lia|]. assert (N := eta32_pos). assert (PI : 0 < INR W) by (apply lt_0_INR; lia).
  set (A := Rsum W (fun j => Rabs (behind x p t j)) / INR W) in *.
  assert (A0 : 0 <= A) by (unfold A, Rdiv; apply Rmult_le_pos; [apply Rsum_nonneg; intros; apply Rabs_pos|left; apply Rinv_0_lt_compat, PI]).
  set (g := (1 + u32) ^ (W + 2)) in *. assert (K : 0 <= INR W * eta32) by (apply Rmult_le_pos; lra). set (q := 2 * INR (W + 2) * u32) in *.
  assert (B1 : (g - 1) * A <= q * A) by (apply Rmult_le_compat_r; lra). assert (B2 : g * (2 * (INR W * eta32)) <= 2 * (2 * (INR W * eta32))) by (apply Rmult_le_compat_r; lra). lra.
Qed.
(** after W zero samples the output is exactly zero: nothing of the past remains, not even a rounding error *)
Theorem tophat32_silent dot W x r pre L p t : conv32 dot -> shape x = pre ++ [L] -> (0 < W)%nat -> tophat32 dot W x = Ok r -> inb p pre -> (t < L)%nat ->
  (forall j, (j < W)%nat -> behind x p t j = 0) -> get r (p ++ [t]) = Some 0.
Proof.
  intros HD Sx HW Hr Hp Ht Z. assert (HL : (0 < L)%nat) by lia. destruct (tophat_g_spec dot (window32 W) W x pre L Sx HL HW) as [r' [E [_ G]]].
  unfold tophat32 in Hr. rewrite E in Hr. injection Hr as ->. destruct (G p t Hp Ht) as [f [Gv Gf]]. destruct (HD (ravel pre p) t W f HW) as [v [Hv Ev]].
  rewrite Gv, Ev. f_equal. rewrite (dotted_zero f (seq 0 W) v); [apply acc_zero, fl32_acc| |exact Hv].
  intros j Hj. apply in_seq in Hj. rewrite Gf by lia. specialize (Z (W - 1 - j)%nat ltac:(lia)). unfold behind in Z. rewrite Z. ring.
Qed.
(** non-negative scores give non-negative outputs *)
Theorem tophat32_nonneg dot W x r pre L p t : conv32 dot -> shape x = pre ++ [L] -> (0 < W)%nat -> (Z.of_nat W <= 2 ^ 24)%Z -> tophat32 dot W x = Ok r -> inb p pre -> (t < L)%nat ->
  (forall j, (j < W)%nat -> 0 <= behind x p t j) -> exists v, get r (p ++ [t]) = Some v /\ 0 <= v.
Proof.
  intros HD Sx HW HB Hr Hp Ht Z. assert (HL : (0 < L)%nat) by lia. destruct (tophat_g_spec dot (window32 W) W x pre L Sx HL HW) as [r' [E [_ G]]].
  unfold tophat32 in Hr. rewrite E in Hr. injection Hr as ->. destruct (G p t Hp Ht) as [f [Gv Gf]]. destruct (HD (ravel pre p) t W f HW) as [v [Hv Ev]].
  exists (fl32 v). split; [rewrite Gv, Ev; reflexivity|]. apply acc_pos; [apply fl32_acc|]. apply (dotted_pos f (seq 0 W) v); [|exact Hv].
  destruct (window32_err W HW HB) as [_ WP]. intros j Hj. apply in_seq in Hj. rewrite Gf by lia. specialize (Z (W - 1 - j)%nat ltac:(lia)). unfold behind in Z. apply Rmult_le_pos; lra.
Qed.
(** every series is accepted, and the shape is kept *)
Theorem tophat32_runs dot W x pre L : shape x = pre ++ [L] -> (0 < L)%nat -> (0 < W)%nat -> exists r, tophat32 dot W x = Ok r /\ shape r = shape x.
Proof. intros Sx HL HW. destruct (tophat_g_spec dot (window32 W) W x pre L Sx HL HW) as [r [E [S0 _]]]. exists r. split; assumption. Qed.

(** ** a case: 1 s of 64 Hz data after a burst of 10^30; one sample after the burst has left the window the error is at most 2 * 67 * 2^-24 *)
Example tophat32_ex : let x := mk [2; 200]%nat (fun i => if (last i 0 <? 50)%nat then 10 ^ 30 else 1) in
  exists dot r v, conv32 dot /\ tophat32 dot 65 x = Ok r /\ get r [1; 150]%nat = Some v /\ Rabs (v - 1) <= 2 * 67 * u32 + 4 * 65 * eta32.
Proof.
  intros x. exists (fun _ _ k f => fl32 (dot_left f (k - 1))).
  destruct (tophat32_runs (fun _ _ k f => fl32 (dot_left f (k - 1))) 65 x [2%nat] 200 eq_refl) as [r [E _]]; [lia|lia|].
  destruct (tophat32_error_simple _ 65 x r [2%nat] 200 [1%nat] 150 conv32_left eq_refl ltac:(lia) ltac:(lia) E) as [v [G B]]; [cbn; lia|lia|].
  exists r, v. split; [apply conv32_left|]. split; [exact E|]. split; [exact G|].
  assert (Q : forall j, (j < 65)%nat -> behind x [1%nat] 150 j = 1).
  { intros j Hj. unfold behind. replace (j <=? 150)%nat with true by lia. cbn [elt x app last]. replace (150 - j <? 50)%nat with false by lia. reflexivity. }
  rewrite (Rsum_ext 65 (behind x [1%nat] 150) (fun _ => 1) Q) in B. rewrite (Rsum_ext 65 (fun j => Rabs (behind x [1%nat] 150 j)) (fun _ => 1)) in B by (intros j Hj; rewrite Q by exact Hj; apply Rabs_R1).
  rewrite Rsum_const, Rmult_1_r in B. replace (INR (65 + 2)) with 67 in B by (rewrite INR_IZR_INZ; reflexivity). replace (INR 65) with 65 in B by (rewrite INR_IZR_INZ; reflexivity).
  replace (65 / 65) with 1 in B by field. rewrite Rmult_1_r in B. exact B.
Qed.
