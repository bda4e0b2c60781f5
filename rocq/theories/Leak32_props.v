(** C107: LeakyIntegrator in float32 arithmetic. *)
From Coq Require Import String Reals ZArith Lra Lia List Permutation.
From Flocq Require Import Core Relative.
From Verif Require Import Base Tensor Rutil Trans_model Integ_props F64_model F64_props Data_model Round32_props Leak32_model.
Local Open Scope R_scope.
Local Instance prec24 : Prec_gt_0 24 := eq_refl.
Local Instance valid24 : Valid_exp (FLT_exp (-149) 24). Proof. apply FLT_exp_valid. reflexivity. Qed.

(** ** specification: the recursion computed with real numbers *)
(** y(0) = max(lower, d(0) - lower), y(t+1) = max(lower, y(t) + d(t+1)) *)
Fixpoint ideal (lower : R) (d : nat -> R) (t : nat) : R :=
  match t with O => Rmax lower (d O - lower) | S t' => Rmax lower (ideal lower d t' + d t) end.
(** unit roundoff of float32 *)
Definition u32 : R := / IZR (2 ^ 24).

(** ** roundings *)
(** every float32 number is a multiple of the smallest one *)
Definition grid (x : R) : Prop := exists k : Z, x = IZR k * bpow radix2 (-149).
Lemma grid_F32 x : F32 x -> grid x.
Proof.
  intros H. apply FLT_format_generic in H; [|exact _]. destruct H as [[m e] E _ E3]. cbn [Fnum Fexp] in *. exists (m * 2 ^ (e + 149))%Z.
  rewrite E. unfold F2R. cbn [Fnum Fexp]. rewrite mult_IZR. replace (IZR (2 ^ (e + 149))) with (bpow radix2 (e + 149)) by (rewrite <- IZR_Zpower by lia; reflexivity).
  rewrite Rmult_assoc, <- bpow_plus. do 2 f_equal. lia.
Qed.
Lemma grid_plus x y : grid x -> grid y -> grid (x + y).
Proof. intros [a ->] [b ->]. exists (a + b)%Z. rewrite plus_IZR. ring. Qed.
Lemma grid_opp x : grid x -> grid (- x).
Proof. intros [a ->]. exists (- a)%Z. rewrite opp_IZR. ring. Qed.
Lemma grid_int z : grid (IZR z).
Proof.
  exists (z * 2 ^ 149)%Z. rewrite mult_IZR. replace (IZR (2 ^ 149)) with (bpow radix2 149) by (rewrite <- IZR_Zpower by lia; reflexivity).
  rewrite Rmult_assoc, <- bpow_plus. change (bpow radix2 (149 + -149)) with 1. ring.
Qed.
Lemma grid_emin x emin : (emin <= -149)%Z -> grid x -> exists k : Z, x = F2R (Float radix2 k emin).
Proof.
  intros H [k ->]. exists (k * 2 ^ (-149 - emin))%Z. unfold F2R. cbn [Fnum Fexp]. rewrite mult_IZR.
  replace (IZR (2 ^ (-149 - emin))) with (bpow radix2 (-149 - emin)) by (rewrite <- IZR_Zpower by lia; reflexivity).
  rewrite Rmult_assoc, <- bpow_plus. do 2 f_equal. lia.
Qed.
Lemma u32_pos : 0 < u32. Proof. unfold u32. apply Rinv_0_lt_compat, IZR_lt. lia. Qed.
Lemma acc_err r x : acc_round r -> grid x -> Rabs (r x - x) <= u32 * Rabs x.
Proof.
  intros (emin & p & He & Hp & ->) G. destruct (grid_emin x emin He G) as [k ->]. assert (P : Prec_gt_0 p) by (unfold Prec_gt_0; lia).
  eapply Rle_trans; [apply (relative_error_N_FLT_F2R_emin radix2 emin p P)|]. apply Rmult_le_compat_r; [apply Rabs_pos|].
  apply Rle_trans with (/ 2 * bpow radix2 (-23)); [|change (bpow radix2 (-23)) with (/ IZR (2 ^ 23)); unfold u32; change (2 ^ 24)%Z with (2 * 2 ^ 23)%Z; rewrite mult_IZR; right; field; apply IZR_neq; lia].
  apply Rmult_le_compat_l; [lra|]. apply bpow_le. lia.
Qed.
Lemma acc_grid r x : acc_round r -> grid x -> grid (r x).
Proof.
  intros (emin & p & He & Hp & ->) G. assert (P : Prec_gt_0 p) by (unfold Prec_gt_0; lia). set (e := cexp radix2 (FLT_exp emin p) x).
  destruct (Z_le_dec e (-149)) as [Le|Le].
  - rewrite round_generic; [exact G|exact _|]. destruct (grid_emin x e Le G) as [k E]. rewrite E. apply generic_format_F2R. intros _. rewrite <- E. fold e. lia.
  - unfold round, F2R. cbn [Fnum Fexp]. fold e. set (q := ZnearestE _). exists (q * 2 ^ (e + 149))%Z. rewrite mult_IZR.
    replace (IZR (2 ^ (e + 149))) with (bpow radix2 (e + 149)) by (rewrite <- IZR_Zpower by lia; reflexivity).
    rewrite Rmult_assoc, <- bpow_plus. do 2 f_equal. lia.
Qed.
Lemma fl32_acc : acc_round fl32. Proof. exists (-149)%Z, 24%Z. split; [lia|]. split; [lia|reflexivity]. Qed.
Lemma fl64_acc : acc_round fl64. Proof. exists (-1074)%Z, 53%Z. split; [lia|]. split; [lia|reflexivity]. Qed.
Lemma fl32_F32 x : F32 (fl32 x). Proof. apply generic_format_round; exact _. Qed.
Lemma fl32_id x : F32 x -> fl32 x = x. Proof. intros H. apply round_generic; [exact _|exact H]. Qed.
Lemma fl32_le x y : x <= y -> fl32 x <= fl32 y. Proof. intros H. apply round_le; [exact _|exact _|exact H]. Qed.
(** what [fl32] is: the nearest float32 number *)
Theorem fl32_nearest x : F32 (fl32 x) /\ forall y, F32 y -> Rabs (fl32 x - x) <= Rabs (y - x).
Proof. split; [apply fl32_F32|]. intros y Hy. destruct (round_N_pt radix2 (FLT_exp (-149) 24) (fun z => negb (Z.even z)) x) as [_ H]. apply H, Hy. Qed.
Lemma fl32_opp x : fl32 (- x) = - fl32 x. Proof. apply round_NE_opp. Qed.
Lemma acc_int r n : acc_round r -> (Z.abs n <= 2 ^ 24)%Z -> r (IZR n) = IZR n.
Proof.
  intros (emin & p & He & Hp & ->) H. assert (P : Prec_gt_0 p) by (unfold Prec_gt_0; lia). apply round_generic; [exact _|].
  destruct (Z.eq_dec (Z.abs n) (2 ^ 24)) as [E|E].
  - assert (B : generic_format radix2 (FLT_exp emin p) (IZR (2 ^ 24))) by (change (IZR (2 ^ 24)) with (bpow radix2 24); apply generic_format_bpow; unfold FLT_exp; lia).
    destruct (Z_le_dec 0 n); [replace n with (2 ^ 24)%Z by lia; exact B|]. replace n with (- 2 ^ 24)%Z by lia. rewrite opp_IZR. apply generic_format_opp, B.
  - apply generic_format_FLT. exists (Float radix2 n 0); cbn [Fnum Fexp]; [unfold F2R; cbn [Fnum Fexp]; change (bpow radix2 0) with 1; lra| |lia].
    apply Z.lt_le_trans with (radix2 ^ 24)%Z; [change (radix2 ^ 24)%Z with (2 ^ 24)%Z; lia|]. apply Zpower_le. exact Hp.
Qed.

(** ** sums in any order *)
Definition lsum (f : nat -> R) (l : list nat) : R := fold_right (fun j a => f j + a) 0 l.
Lemma lsum_app f l1 l2 : lsum f (l1 ++ l2) = lsum f l1 + lsum f l2.
Proof. unfold lsum. induction l1 as [|j l1 IH]; cbn [app fold_right]; [ring|]. rewrite IH. ring. Qed.
Lemma lsum_perm f l1 l2 : Permutation l1 l2 -> lsum f l1 = lsum f l2.
Proof. unfold lsum. induction 1; cbn [fold_right]; [reflexivity|rewrite IHPermutation; reflexivity|ring|congruence]. Qed.
Lemma lsum_seq f n : lsum f (seq 0 n) = Rsum n f.
Proof. induction n; [reflexivity|]. rewrite seq_S, lsum_app, IHn. cbn. ring. Qed.
Lemma lsum_abs f l : Rabs (lsum f l) <= lsum (fun j => Rabs (f j)) l.
Proof. unfold lsum. induction l as [|j l IH]; cbn [fold_right]; [rewrite Rabs_R0; lra|]. eapply Rle_trans; [apply Rabs_triang|]. lra. Qed.
Lemma lsum_abs_pos f l : 0 <= lsum (fun j => Rabs (f j)) l.
Proof. eapply Rle_trans; [apply Rabs_pos|apply lsum_abs]. Qed.
Lemma summed_len f l v : summed f l v -> (0 < List.length l)%nat.
Proof. induction 1 as [|l1 l2 l v1 v2 r _ _ I1 _ _ P]; [cbn; lia|]. apply Permutation_length in P. rewrite app_length in P. lia. Qed.
(** the error of a sum of float32 numbers, whatever the order of the additions *)
Theorem summed_error f l v : (forall j, In j l -> grid (f j)) -> summed f l v ->
  grid v /\ Rabs (v - lsum f l) <= ((1 + u32) ^ (List.length l - 1) - 1) * lsum (fun j => Rabs (f j)) l.
Proof.
  intros G Hs. induction Hs as [j|l1 l2 l v1 v2 r Hr H1 I1 H2 I2 P].
  - split; [apply G; left; reflexivity|]. cbn. rewrite Rabs_right; lra.
  - assert (G1 : forall j, In j l1 -> grid (f j)) by (intros j Hj; apply G; eapply Permutation_in; [exact P|]; apply in_or_app; auto).
    assert (G2 : forall j, In j l2 -> grid (f j)) by (intros j Hj; apply G; eapply Permutation_in; [exact P|]; apply in_or_app; auto).
    destruct (I1 G1) as [A1 B1]. destruct (I2 G2) as [A2 B2]. assert (GV := grid_plus _ _ A1 A2). split; [apply acc_grid; assumption|].
    assert (E := acc_err r _ Hr GV). assert (LP := Permutation_length P). rewrite app_length in LP. assert (N1 := summed_len _ _ _ H1). assert (N2 := summed_len _ _ _ H2).
    rewrite <- !(lsum_perm _ _ _ P), !lsum_app, <- LP.
    assert (S1 := lsum_abs f l1). assert (S2 := lsum_abs f l2). assert (P1 := lsum_abs_pos f l1). assert (P2 := lsum_abs_pos f l2).
    set (s1 := lsum f l1) in *. set (s2 := lsum f l2) in *. set (a1 := lsum (fun j => Rabs (f j)) l1) in *. set (a2 := lsum (fun j => Rabs (f j)) l2) in *.
    assert (U := u32_pos). assert (U1 : 1 <= 1 + u32) by lra. set (k := (List.length l1 + List.length l2 - 1)%nat).
    assert (Q1 : (1 + u32) * (1 + u32) ^ (List.length l1 - 1) <= (1 + u32) ^ k) by (rewrite tech_pow_Rmult; apply Rle_pow; [exact U1|unfold k; lia]).
    assert (Q2 : (1 + u32) * (1 + u32) ^ (List.length l2 - 1) <= (1 + u32) ^ k) by (rewrite tech_pow_Rmult; apply Rle_pow; [exact U1|unfold k; lia]).
    set (g1 := (1 + u32) ^ (List.length l1 - 1)) in *. set (g2 := (1 + u32) ^ (List.length l2 - 1)) in *. set (g := (1 + u32) ^ k) in *. set (u := u32) in *.
    assert (V1 : Rabs v1 <= g1 * a1). { replace v1 with (v1 - s1 + s1) by ring. eapply Rle_trans; [apply Rabs_triang|]. lra. }
    assert (V2 : Rabs v2 <= g2 * a2). { replace v2 with (v2 - s2 + s2) by ring. eapply Rle_trans; [apply Rabs_triang|]. lra. }
    assert (V : Rabs (v1 + v2) <= g1 * a1 + g2 * a2) by (eapply Rle_trans; [apply Rabs_triang|]; lra).
    replace (r (v1 + v2) - (s1 + s2)) with (r (v1 + v2) - (v1 + v2) + (v1 - s1 + (v2 - s2))) by ring.
    eapply Rle_trans; [apply Rabs_triang|]. assert (T2 := Rabs_triang (v1 - s1) (v2 - s2)).
    assert (M : u * Rabs (v1 + v2) <= u * (g1 * a1 + g2 * a2)) by (apply Rmult_le_compat_l; lra).
    assert (M1 : (1 + u) * g1 * a1 <= g * a1) by (apply Rmult_le_compat_r; assumption).
    assert (M2 : (1 + u) * g2 * a2 <= g * a2) by (apply Rmult_le_compat_r; assumption). clearbody s1 s2 a1 a2 g1 g2 g u k. nra.
Qed.
(** sums of integers are exact as long as the absolute values add up to at most 2^24 *)
Definition zsum (z : nat -> Z) (l : list nat) : Z := fold_right (fun j a => z j + a)%Z 0%Z l.
Lemma zsum_app f l1 l2 : zsum f (l1 ++ l2) = (zsum f l1 + zsum f l2)%Z.
Proof. unfold zsum. induction l1 as [|j l1 IH]; cbn [app fold_right]; [ring|]. rewrite IH. ring. Qed.
Lemma zsum_perm f l1 l2 : Permutation l1 l2 -> zsum f l1 = zsum f l2.
Proof. unfold zsum. induction 1; cbn [fold_right]; [reflexivity|rewrite IHPermutation; reflexivity|ring|congruence]. Qed.
Lemma zsum_abs f l : (Z.abs (zsum f l) <= zsum (fun j => Z.abs (f j)) l)%Z.
Proof. unfold zsum. induction l as [|j l IH]; cbn [fold_right]; lia. Qed.
Theorem summed_int f z l v : (forall j, In j l -> f j = IZR (z j)) -> summed f l v -> (zsum (fun j => Z.abs (z j)) l <= 2 ^ 24)%Z -> v = IZR (zsum z l).
Proof.
  intros F Hs. induction Hs as [j|l1 l2 l v1 v2 r Hr H1 I1 H2 I2 P]; intros B.
  - rewrite (F j) by (left; reflexivity). f_equal. cbn. lia.
  - assert (F1 : forall j, In j l1 -> f j = IZR (z j)) by (intros j Hj; apply F; eapply Permutation_in; [exact P|]; apply in_or_app; auto).
    assert (F2 : forall j, In j l2 -> f j = IZR (z j)) by (intros j Hj; apply F; eapply Permutation_in; [exact P|]; apply in_or_app; auto).
    rewrite <- (zsum_perm _ _ _ P), zsum_app in B. assert (A1 := zsum_abs z l1). assert (A2 := zsum_abs z l2).
    rewrite (I1 F1), (I2 F2) by lia. rewrite <- plus_IZR, <- (zsum_perm _ _ _ P), zsum_app. apply acc_int; [exact Hr|lia].
Qed.

(** ** cummin *)
Lemma cummin_le f t j : (j <= t)%nat -> cummin f t <= f j.
Proof.
  induction t as [|t IH]; intros H; cbn [cummin]; [replace j with 0%nat by lia; lra|].
  destruct (Nat.eq_dec j (S t)) as [->|N]; [apply Rmin_r|]. eapply Rle_trans; [apply Rmin_l|apply IH; lia].
Qed.
Lemma cummin_in f t : exists j, (j <= t)%nat /\ cummin f t = f j.
Proof.
  induction t as [|t IH]; cbn [cummin]; [exists 0%nat; auto|]. destruct IH as [j [Hj E]]. unfold Rmin. destruct (Rle_dec _ _); [exists j; split; [lia|exact E]|exists (S t); auto].
Qed.
Lemma cummin_at f t k : (k <= t)%nat -> (forall j, (j <= t)%nat -> f k <= f j) -> cummin f t = f k.
Proof. intros Hk H. apply Rle_antisym; [apply cummin_le, Hk|]. destruct (cummin_in f t) as [j [Hj ->]]. apply H, Hj. Qed.
Lemma cummin_ext f g t : (forall j, (j <= t)%nat -> f j = g j) -> cummin f t = cummin g t.
Proof. induction t as [|t IH]; intros H; cbn [cummin]; [apply H; lia|]. rewrite IH by (intros; apply H; lia). rewrite (H (S t)) by lia. reflexivity. Qed.
Lemma cummin_lip f g t e : (forall j, (j <= t)%nat -> Rabs (f j - g j) <= e) -> Rabs (cummin f t - cummin g t) <= e.
Proof.
  intros H. destruct (cummin_in f t) as [j [Hj Ej]], (cummin_in g t) as [k [Hk Ek]]. assert (A := cummin_le f t k Hk). assert (B := cummin_le g t j Hj).
  assert (X := Rabs_le_inv _ _ (H j Hj)). assert (Y := Rabs_le_inv _ _ (H k Hk)). apply Rabs_le. lra.
Qed.
Lemma Rmin_lip a b c e : Rabs (a - b) <= e -> Rabs (Rmin a c - Rmin b c) <= e.
Proof. intros H. apply Rabs_le_inv in H. apply Rabs_le. unfold Rmin. destruct (Rle_dec a c), (Rle_dec b c); lra. Qed.
Lemma ideal_cummin l d t : Rsum (S t) d - Rmin (cummin (fun j => Rsum (S j) d - l) t) l = ideal l d t.
Proof.
  set (P := fun j => Rsum (S j) d). assert (MR : forall a b c, a - Rmin b c = Rmax (a - b) (a - c)).
  { intros a b c. unfold Rmin, Rmax. destruct (Rle_dec b c), (Rle_dec (a - b) (a - c)); lra. }
  change (P t - Rmin (cummin (fun j => P j - l) t) l = ideal l d t). induction t as [|t IH].
  - cbn [cummin ideal]. rewrite MR. replace (P 0%nat - (P 0%nat - l)) with l by ring. f_equal. unfold P. cbn. ring.
  - cbn [cummin ideal]. rewrite <- IH. assert (E : P (S t) = P t + d (S t)) by reflexivity. rewrite E.
    set (a := d (S t)). set (c := cummin (fun j => P j - l) t). generalize (P t). intros s.
    clearbody c a. clear - c a l s. unfold Rmin, Rmax. destruct (Rle_dec c (s + a - l)), (Rle_dec c l); repeat match goal with |- context [Rle_dec ?a ?b] => destruct (Rle_dec a b) end; lra.
Qed.

(** ** the CPU output is one of the possible outputs *)
Lemma run64_summed f t : summed f (seq 0 (S t)) (run64 f t).
Proof.
  induction t as [|t IH]; [apply (sum_leaf f 0)|]. cbn [run64]. eapply sum_node; [apply fl64_acc|exact IH|apply sum_leaf|]. rewrite (seq_S (S t) 0). reflexivity.
Qed.
Theorem leaky32_cpu_possible m x : leaky32 m x (leaky32_cpu m x).
Proof.
  eexists. split; [|split; [reflexivity|split]].
  2:{ intros p t H. eexists. split; [apply run64_summed|]. instantiate (1 := mk (shape x) (fun i => fl32 (run64 (fun j => delta32 m (elt x (removelast i ++ [j]))) (last i 0%nat)))). cbn [elt]. rewrite removelast_last, last_last. reflexivity. }
  - reflexivity.
  - intros p t H. unfold leaky32_cpu. cbn [elt]. rewrite removelast_last, last_last. reflexivity.
Qed.

(** ** integer settings in "count" mode: exact, whatever the order of the additions *)
Theorem leaky32_exact thr D L m x r pre T : leaky_create thr (IZR D) (IZR L) "count" = Ok m -> shape x = pre ++ [T] ->
  (Z.of_nat T * Z.max 1 (Z.abs D) + Z.abs L <= 2 ^ 24)%Z -> leaky32 m x r ->
  shape r = shape x /\
  forall p t, inb p pre -> (t < T)%nat ->
    get r (p ++ [t]) = Some (ideal (IZR L) (fun j => if Rle_dec (fl32 thr) (elt x (p ++ [j])) then 1 else - IZR D) t).
Proof.
  intros Em Sx HT (raw & Sraw & Sr & Hraw & Hr). split; [exact Sr|]. intros p t Hp Ht.
  assert (IN : forall j, (j <= t)%nat -> inb (p ++ [j]) (shape x)) by (intros j Hj; rewrite Sx; apply inb_app; [exact Hp|cbn; split; [lia|exact I]]).
  rewrite get_inb by (rewrite Sr; apply IN; lia). f_equal. rewrite (Hr p t (IN t ltac:(lia))).
  unfold leaky_create in Em. cbn [string_dec] in Em. injection Em as <-.
  set (M := Z.max 1 (Z.abs D)) in *. set (z := fun j => if Rle_dec (fl32 thr) (elt x (p ++ [j])) then 1%Z else (- D)%Z).
  set (d := fun j => if Rle_dec (fl32 thr) (elt x (p ++ [j])) then 1 else - IZR D).
  assert (DZ : forall j, d j = IZR (z j)) by (intros j; unfold d, z; destruct (Rle_dec _ _); [reflexivity|rewrite opp_IZR; reflexivity]).
  assert (ZM : forall j, (Z.abs (z j) <= M)%Z) by (intros j; unfold z, M; destruct (Rle_dec _ _); lia).
  assert (M0 : (1 <= M)%Z) by (unfold M; lia).
  assert (TM : forall k, (k <= T)%nat -> (Z.of_nat k * M <= Z.of_nat T * M)%Z) by (intros k Hk; apply Z.mul_le_mono_nonneg_r; lia).
  assert (FD : fl32 (IZR D) = IZR D). { apply (acc_int fl32); [apply fl32_acc|]. destruct T; [lia|]. specialize (TM 1%nat ltac:(lia)). unfold M in *. lia. }
  assert (FL : fl32 (IZR L) = IZR L). { apply (acc_int fl32); [apply fl32_acc|]. lia. }
  assert (ZA : forall k, (zsum (fun j => Z.abs (z j)) (seq 0 k) <= Z.of_nat k * M)%Z).
  { induction k as [|k IH]; [cbn; lia|]. rewrite seq_S, zsum_app. unfold zsum at 2. cbn [fold_right]. specialize (ZM (0 + k)%nat). lia. }
  assert (ZB : forall k, (Z.abs (zsum z (seq 0 k)) <= Z.of_nat k * M)%Z) by (intros k; eapply Z.le_trans; [apply zsum_abs|apply ZA]).
  assert (ZS : forall k, Rsum k d = IZR (zsum z (seq 0 k))).
  { induction k as [|k IH]; [reflexivity|]. rewrite seq_S, zsum_app, plus_IZR, <- IH. unfold zsum. cbn [fold_right Rsum]. rewrite DZ. do 2 f_equal. cbn. lia. }
  assert (RAW : forall j, (j <= t)%nat -> elt raw (p ++ [j]) = Rsum (S j) d).
  { intros j Hj. destruct (Hraw p j (IN j Hj)) as (v & Hv & E). rewrite E. assert (T1 := TM (S j) ltac:(lia)). assert (ZB1 := ZB (S j)). assert (ZA1 := ZA (S j)).
    assert (V : v = IZR (zsum z (seq 0 (S j)))).
    { eapply summed_int; [|exact Hv|lia]. intros i _. unfold delta32. cbn [lk_threshold lk_count lk_decay]. rewrite FD. apply DZ. }
    rewrite V.
    rewrite ZS. apply (acc_int fl32); [apply fl32_acc|lia]. }
  unfold clip32. cbn [lk_lower]. rewrite FL, RAW by lia.
  rewrite (cummin_ext _ (fun j => Rsum (S j) d - IZR L)).
  2:{ intros j Hj. rewrite RAW by exact Hj. rewrite ZS, <- minus_IZR. apply (acc_int fl32); [apply fl32_acc|]. assert (T1 := TM (S j) ltac:(lia)). assert (ZB1 := ZB (S j)). lia. }
  rewrite ideal_cummin.
  assert (ID : forall k, (k <= t)%nat -> exists w, ideal (IZR L) d k = IZR w /\ (Z.abs w <= Z.of_nat (S k) * M + Z.abs L)%Z).
  { assert (MX : forall a b, Rmax (IZR a) (IZR b) = IZR (Z.max a b)).
    { intros a b. destruct (Z.le_gt_cases a b); [rewrite Z.max_r, Rmax_right by (try apply IZR_le; lia)|rewrite Z.max_l, Rmax_left by (try apply IZR_le; lia)]; reflexivity. }
    induction k as [|k IH]; intros Hk; cbn [ideal]; rewrite DZ.
    - rewrite <- minus_IZR, MX. eexists. split; [reflexivity|]. specialize (ZM 0%nat). lia.
    - destruct (IH ltac:(lia)) as (w & -> & Hw). rewrite <- plus_IZR, MX. eexists. split; [reflexivity|]. specialize (ZM (S k)). lia. }
  destruct (ID t ltac:(lia)) as (w & -> & Hw). apply (acc_int fl32); [apply fl32_acc|]. assert (T1 := TM (S t) ltac:(lia)). lia.
Qed.
(** the threshold is the float32 number nearest to the one given: a float32 sample that reaches the given threshold crosses, and for a float32 threshold that is all *)
Theorem leaky32_threshold thr v : F32 v -> (thr <= v -> fl32 thr <= v) /\ (fl32 thr <= v -> thr <= v \/ v = fl32 thr) /\ (F32 thr -> (fl32 thr <= v <-> thr <= v)).
Proof.
  intros H. split; [|split].
  - intros A. rewrite <- (fl32_id v H). apply fl32_le, A.
  - intros A. destruct (Rle_dec thr v); [left; assumption|right]. apply Rle_antisym; [|exact A]. rewrite <- (fl32_id v H). apply fl32_le. lra.
  - intros B. rewrite (fl32_id thr B). tauto.
Qed.

(** ** any settings: an error bound, whatever the order of the additions *)
Theorem leaky32_error m x r pre T p t : shape x = pre ++ [T] -> leaky32 m x r -> inb p pre -> (t < T)%nat -> (forall j, (j <= t)%nat -> F32 (elt x (p ++ [j]))) ->
  let d := fun j => delta32 m (elt x (p ++ [j])) in
  let l := fl32 (lk_lower m) in
  let A := Rsum (S t) (fun j => Rabs (d j)) in
  let E := ((1 + u32) ^ S t - 1) * A in
  exists v, get r (p ++ [t]) = Some v /\ Rabs (v - ideal l d t) <= (1 + u32) * (2 * E + u32 * (A + E + Rabs l)) + u32 * Rabs (ideal l d t).
Proof.
  intros Sx (raw & Sraw & Sr & Hraw & Hr) Hp Ht FX d l A E.
  assert (IN : forall j, (j <= t)%nat -> inb (p ++ [j]) (shape x)) by (intros j Hj; rewrite Sx; apply inb_app; [exact Hp|cbn; split; [lia|exact I]]).
  exists (elt r (p ++ [t])). split; [apply get_inb; rewrite Sr; apply IN; lia|]. rewrite (Hr p t (IN t ltac:(lia))).
  assert (U := u32_pos). assert (GD : forall j, (j <= t)%nat -> grid (d j)).
  { intros j Hj. unfold d, delta32. destruct (Rle_dec _ _); [destruct (lk_count m); [apply (grid_int 1)|apply grid_F32, FX, Hj]|apply grid_opp, grid_F32, fl32_F32]. }
  assert (GL : grid l) by (apply grid_F32, fl32_F32).
  assert (A0 : forall k, 0 <= Rsum k (fun j => Rabs (d j))) by (intros k; apply Rsum_nonneg; intros; apply Rabs_pos).
  assert (AM : forall j, (j <= t)%nat -> Rsum (S j) (fun j => Rabs (d j)) <= A).
  { intros j Hj. unfold A. clear - Hj. induction Hj as [|k Hk IH]; [lra|]. eapply Rle_trans; [exact IH|]. change (Rsum (S (S k)) (fun j0 => Rabs (d j0))) with (Rsum (S k) (fun j0 => Rabs (d j0)) + Rabs (d (S k))). assert (X := Rabs_pos (d (S k))). lra. }
  assert (E0 : 0 <= E). { unfold E. apply Rmult_le_pos; [|apply A0]. assert (1 <= (1 + u32) ^ S t) by (apply pow_R1_Rle; lra). lra. }
  assert (RAW : forall j, (j <= t)%nat -> grid (elt raw (p ++ [j])) /\ Rabs (elt raw (p ++ [j]) - Rsum (S j) d) <= E).
  { intros j Hj. destruct (Hraw p j (IN j Hj)) as (v & Hv & ->). 
    assert (GJ : forall i, In i (seq 0 (S j)) -> grid (d i)) by (intros i Hi; apply GD; apply in_seq in Hi; lia).
    destruct (summed_error d _ _ GJ Hv) as [G B].
    split; [apply grid_F32, fl32_F32|]. assert (R1 := acc_err fl32 v fl32_acc G). fold d in B. rewrite !lsum_seq, seq_length in B. replace (S j - 1)%nat with j in B by lia.
    assert (SA : Rabs (Rsum (S j) d) <= Rsum (S j) (fun j => Rabs (d j))) by (rewrite <- !lsum_seq; apply lsum_abs).
    assert (AJ := AM j Hj). assert (AJ0 := A0 (S j)). set (s := Rsum (S j) d) in *. set (a := Rsum (S j) (fun j => Rabs (d j))) in *.
    assert (G1 : 1 <= (1 + u32) ^ j) by (apply pow_R1_Rle; lra). assert (G2 : (1 + u32) * (1 + u32) ^ j <= (1 + u32) ^ S t) by (rewrite tech_pow_Rmult; apply Rle_pow; [lra|lia]).
    set (g := (1 + u32) ^ j) in *. set (h := (1 + u32) ^ S t) in *. unfold E.
    assert (V1 : Rabs v <= g * a). { replace v with (v - s + s) by ring. eapply Rle_trans; [apply Rabs_triang|]. lra. }
    replace (fl32 v - s) with (fl32 v - v + (v - s)) by ring. eapply Rle_trans; [apply Rabs_triang|].
    assert (X1 : u32 * Rabs v <= u32 * (g * a)) by (apply Rmult_le_compat_l; lra).
    assert (X2 : (h - 1) * a <= (h - 1) * A) by (apply Rmult_le_compat_l; [nra|exact AJ]).
    assert (X3 : (1 + u32) * g * a <= h * a) by (apply Rmult_le_compat_r; assumption). clearbody g h a s. nra. }
  set (E2 := E + u32 * (A + E + Rabs l)). assert (OFF : forall j, (j <= t)%nat -> Rabs (fl32 (elt raw (p ++ [j]) - l) - (Rsum (S j) d - l)) <= E2).
  { intros j Hj. destruct (RAW j Hj) as [G B]. set (v := elt raw (p ++ [j])) in *. assert (R1 := acc_err fl32 (v - l) fl32_acc (grid_plus _ _ G (grid_opp _ GL))).
    assert (SA : Rabs (Rsum (S j) d) <= A). { eapply Rle_trans; [|apply (AM j Hj)]. rewrite <- !lsum_seq. apply lsum_abs. }
    set (s := Rsum (S j) d) in *. replace (fl32 (v - l) - (s - l)) with (fl32 (v - l) - (v - l) + (v - s)) by ring. eapply Rle_trans; [apply Rabs_triang|].
    assert (V : Rabs (v - l) <= A + E + Rabs l). { replace (v - l) with (v - s + (s + - l)) by ring. eapply Rle_trans; [apply Rabs_triang|]. assert (X := Rabs_triang s (- l)). rewrite Rabs_Ropp in X. lra. }
    assert (X : u32 * Rabs (v - l) <= u32 * (A + E + Rabs l)) by (apply Rmult_le_compat_l; lra). unfold E2. lra. }
  unfold clip32. fold l. assert (CL := Rmin_lip _ _ l _ (cummin_lip _ _ t E2 OFF)). rewrite <- (ideal_cummin l d t).
  set (o' := Rmin (cummin (fun j => fl32 (elt raw (p ++ [j]) - l)) t) l) in *. set (o := Rmin (cummin (fun j => Rsum (S j) d - l) t) l) in *.
  assert (GO : grid o'). { unfold o'. destruct (cummin_in (fun j => fl32 (elt raw (p ++ [j]) - l)) t) as [k [_ ->]]. unfold Rmin. destruct (Rle_dec _ _); [apply grid_F32, fl32_F32|exact GL]. }
  destruct (RAW t ltac:(lia)) as [GT BT]. set (v := elt raw (p ++ [t])) in *. set (s := Rsum (S t) d) in *.
  assert (R1 := acc_err fl32 (v - o') fl32_acc (grid_plus _ _ GT (grid_opp _ GO))).
  assert (B1 : Rabs (v - o' - (s - o)) <= E + E2). { replace (v - o' - (s - o)) with ((v - s) + - (o' - o)) by ring. eapply Rle_trans; [apply Rabs_triang|]. rewrite Rabs_Ropp. lra. }
  assert (B2 : Rabs (v - o') <= Rabs (s - o) + (E + E2)). { replace (v - o') with ((s - o) + (v - o' - (s - o))) by ring. eapply Rle_trans; [apply Rabs_triang|]. lra. }
  replace (fl32 (v - o') - (s - o)) with (fl32 (v - o') - (v - o') + (v - o' - (s - o))) by ring. eapply Rle_trans; [apply Rabs_triang|].
  assert (X : u32 * Rabs (v - o') <= u32 * (Rabs (s - o) + (E + E2))) by (apply Rmult_le_compat_l; lra). unfold E2 in *. clearbody E A v o' s o. lra.
Qed.

(** ** beyond 2^24 samples the CPU kernel loses or multiplies events *)
(** n samples below the threshold, then one that crosses it, with decay 1 and lower bound 0 *)
Lemma cpu_late thr m x T n : leaky_create thr 1 0 "count" = Ok m -> shape x = [T] -> (n < T)%nat -> (0 < n)%nat -> (Z.of_nat n < 2 ^ 53)%Z ->
  (forall j, (j < n)%nat -> elt x [j] < fl32 thr) -> fl32 thr <= elt x [n] ->
  get (leaky32_cpu m x) [n] = Some (fl32 (fl32 (IZR (Z.of_nat n)) - fl32 (IZR (Z.of_nat n - 1)))) /\
  ideal 0 (fun j => if Rle_dec (fl32 thr) (elt x [j]) then 1 else - (1)) n = 1.
Proof.
  intros Em Sx Hn N0 NB Q EV. unfold leaky_create in Em. cbn [string_dec] in Em. injection Em as <-. set (m := mkleaky thr 1 0 true).
  assert (F0 : fl32 0 = 0) by apply (acc_int fl32 0 fl32_acc ltac:(lia)). assert (F1 : fl32 1 = 1) by apply (acc_int fl32 1 fl32_acc ltac:(lia)).
  assert (DQ : forall j, (j < n)%nat -> delta32 m (elt x [j]) = IZR (-1)).
  { intros j Hj. unfold delta32. cbn [lk_threshold lk_decay lk_count m]. specialize (Q j Hj). destruct (Rle_dec _ _); [lra|]. rewrite F1. lra. }
  assert (DE : delta32 m (elt x [n]) = IZR 1). { unfold delta32. cbn [lk_threshold lk_decay lk_count m]. destruct (Rle_dec _ _); [reflexivity|contradiction]. }
  set (d := fun j => delta32 m (elt x [j])) in *.
  assert (RQ : forall t, (t < n)%nat -> run64 d t = IZR (- Z.of_nat (S t))).
  { induction t as [|t IH]; intros Ht; cbn [run64]; [apply DQ; lia|]. rewrite IH by lia. unfold d. rewrite DQ by lia. rewrite <- plus_IZR. replace (- Z.of_nat (S t) + -1)%Z with (- Z.of_nat (S (S t)))%Z by lia.
    apply (fl_id (IZR (- Z.of_nat (S (S t))))), int_F64. lia. }
  assert (RE : run64 d n = IZR (- (Z.of_nat n - 1))).
  { destruct n as [|k]; [lia|]. cbn [run64]. rewrite RQ by lia. unfold d. rewrite DE, <- plus_IZR. replace (- Z.of_nat (S k) + 1)%Z with (- (Z.of_nat (S k) - 1))%Z by lia.
    apply (fl_id (IZR (- (Z.of_nat (S k) - 1)))), int_F64. lia. }
  split.
  - rewrite get_inb by (unfold leaky32_cpu; cbn; rewrite Sx; cbn; lia). f_equal. unfold leaky32_cpu. cbn [elt removelast last app]. fold d. unfold clip32. cbn [lk_lower m]. rewrite F0. cbn [elt removelast last app].
    assert (CM : cummin (fun j => fl32 (fl32 (run64 d j) - 0)) n = fl32 (IZR (- Z.of_nat n))).
    { rewrite (cummin_ext _ (fun j => fl32 (run64 d j))) by (intros j _; rewrite Rminus_0_r; apply fl32_id, fl32_F32).
      rewrite (cummin_at _ n (n - 1)%nat); [rewrite RQ by lia; do 3 f_equal; lia|lia|]. intros j Hj. apply fl32_le. rewrite RQ by lia. destruct (Nat.eq_dec j n) as [->|N]; [rewrite RE|rewrite RQ by lia]; apply IZR_le; lia. }
    rewrite CM, RE. rewrite !opp_IZR, !fl32_opp. rewrite Rmin_left.
    + f_equal. ring.
    + assert (X := fl32_le 0 (IZR (Z.of_nat n)) ltac:(apply IZR_le; lia)). rewrite F0 in X. lra.
  - set (e := fun j => if Rle_dec (fl32 thr) (elt x [j]) then 1 else - (1)).
    assert (EQ : forall j, (j < n)%nat -> e j = -1) by (intros j Hj; unfold e; specialize (Q j Hj); destruct (Rle_dec _ _); lra).
    assert (EE : e n = 1) by (unfold e; destruct (Rle_dec _ _); [reflexivity|contradiction]).
    assert (IQ : forall t, (t < n)%nat -> ideal 0 e t = 0).
    { induction t as [|t IH]; intros Ht; cbn [ideal]; rewrite EQ by lia; [rewrite Rmax_left; lra|]. rewrite IH by lia. rewrite Rmax_left; lra. }
    destruct n as [|k]; [lia|]. cbn [ideal]. rewrite IQ, EE by lia. rewrite Rmax_right; lra.
Qed.
Lemma fl32_int n : (0 <= n)%Z -> fl32 (IZR n) = IZR (f32_round n).
Proof. intros H. symmetry. apply (f32_round_ieee n H). Qed.
(** after 2^25 quiet samples an event is not seen; after 2^25 + 3 it counts four times *)
Theorem leaky32_lost_refuted thr m x T n : leaky_create thr 1 0 "count" = Ok m -> shape x = [T] -> (n < T)%nat -> Z.of_nat n = (2 ^ 25)%Z ->
  (forall j, (j < n)%nat -> elt x [j] < fl32 thr) -> fl32 thr <= elt x [n] ->
  get (leaky32_cpu m x) [n] = Some 0 /\ ideal 0 (fun j => if Rle_dec (fl32 thr) (elt x [j]) then 1 else - (1)) n = 1.
Proof.
  intros Em Sx Hn N Q EV. destruct (cpu_late thr m x T n Em Sx Hn ltac:(lia) ltac:(lia) Q EV) as [A B]. split; [|exact B]. rewrite A, N. f_equal.
  rewrite !fl32_int by lia. change (f32_round (2 ^ 25)) with (2 ^ 25)%Z. change (f32_round (2 ^ 25 - 1)) with (2 ^ 25)%Z. rewrite Rminus_diag_eq by reflexivity. apply (acc_int fl32 0 fl32_acc). lia.
Qed.
Theorem leaky32_multiplied_refuted thr m x T n : leaky_create thr 1 0 "count" = Ok m -> shape x = [T] -> (n < T)%nat -> Z.of_nat n = (2 ^ 25 + 3)%Z ->
  (forall j, (j < n)%nat -> elt x [j] < fl32 thr) -> fl32 thr <= elt x [n] ->
  get (leaky32_cpu m x) [n] = Some 4 /\ ideal 0 (fun j => if Rle_dec (fl32 thr) (elt x [j]) then 1 else - (1)) n = 1.
Proof.
  intros Em Sx Hn N Q EV. destruct (cpu_late thr m x T n Em Sx Hn ltac:(lia) ltac:(lia) Q EV) as [A B]. split; [|exact B]. rewrite A, N. f_equal.
  rewrite !fl32_int by lia. change (f32_round (2 ^ 25 + 3)) with (2 ^ 25 + 4)%Z. change (f32_round (2 ^ 25 + 3 - 1)) with (2 ^ 25)%Z. rewrite <- minus_IZR. apply (acc_int fl32 4 fl32_acc). lia.
Qed.
(** such inputs exist *)
Example late_ex k : exists T n x m, leaky_create 1 1 0 "count" = Ok m /\ shape x = [T] /\ (n < T)%nat /\ Z.of_nat n = (2 ^ 25 + Z.of_nat k)%Z /\
  (forall j, (j < n)%nat -> elt x [j] < fl32 1) /\ fl32 1 <= elt x [n].
Proof.
  set (n := Z.to_nat (2 ^ 25 + Z.of_nat k)). assert (N : Z.of_nat n = (2 ^ 25 + Z.of_nat k)%Z) by (unfold n; rewrite Z2Nat.id; lia). clearbody n.
  exists (S n), n, (mk [S n] (fun i => if (hd 0%nat i <? n)%nat then 0 else 1)), (mkleaky 1 1 0 true). assert (F1 : fl32 1 = 1) by apply (acc_int fl32 1 fl32_acc ltac:(lia)). rewrite F1.
  split; [reflexivity|]. split; [reflexivity|]. split; [lia|]. split; [exact N|]. split.
  - intros j Hj. cbn [elt hd]. destruct (Nat.ltb_spec j n); [lra|lia].
  - cbn [elt hd]. rewrite Nat.ltb_irrefl. lra.
Qed.
(** a case of the positive theorem: two events, one quiet sample *)
Example exact_ex : exists m r, leaky_create 1 1 0 "count" = Ok m /\ leaky32 m (mk [3%nat] (fun i => nth (hd 0%nat i) [2; 2; 0] 0)) r /\ get r [1%nat] = Some 2 /\ get r [2%nat] = Some 1.
Proof.
  exists (mkleaky 1 1 0 true). set (x := mk [3%nat] (fun i => nth (hd 0%nat i) [2; 2; 0] 0)). exists (leaky32_cpu (mkleaky 1 1 0 true) x). split; [reflexivity|]. split; [apply leaky32_cpu_possible|].
  assert (F1 : fl32 1 = 1) by apply (acc_int fl32 1 fl32_acc ltac:(lia)).
  destruct (leaky32_exact 1 1 0 _ x _ [] 3 eq_refl eq_refl ltac:(cbn; lia) (leaky32_cpu_possible (mkleaky 1 1 0 true) x)) as [_ G].
  assert (G1 := G [] 1%nat I ltac:(lia)). assert (G2 := G [] 2%nat I ltac:(lia)). cbn [app] in G1, G2. rewrite G1, G2. clear - F1. cbn [ideal x elt hd nth]. rewrite F1.
  repeat match goal with |- context [Rle_dec ?a ?b] => destruct (Rle_dec a b); try lra end. rewrite !(Rmax_right 0 (1 - 0)), !(Rmax_right 0 (1 - 0 + 1)), (Rmax_right 0 (1 - 0 + 1 + - (1))) by lra. split; f_equal; lra.
Qed.
