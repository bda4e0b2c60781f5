(** C83: frequency response of IIRFilter: a sinusoid comes out multiplied by |B|^2 / |A|^2 and in phase, away from the ends. *)
From Coquelicot Require Import Coquelicot.
From Verif Require Import Base Tensor Rutil Dft Iir_model Iir_props.
Local Open Scope R_scope.
(** ** specification *)
(** value of the polynomial with coefficients [k] at exp(-i om) *)
Definition at_freq (k : list R) (om : R) : Complex.C := Csum (List.length k) (fun j => Cmult (RtoC (nth j k 0)) (cis (- (om * INR j)))).
(** coefficients of the product of the (1 - p z) *)
Fixpoint pole_poly (ps : list Complex.C) (k : nat) : Complex.C :=
  match ps with
  | [] => if (k =? 0)%nat then RtoC 1 else RtoC 0
  | p :: ps' => Cminus (pole_poly ps' k) (if (k =? 0)%nat then RtoC 0 else Cmult p (pole_poly ps' (k - 1)))
  end.
(** [a] is a_0 times that product: the filter has the poles [ps] *)
Definition has_poles (a : list R) (ps : list Complex.C) : Prop := forall k, RtoC (nth k a 0) = Cmult (RtoC (nth 0 a 0)) (pole_poly ps k).

(** ** sums *)
Lemma Cmod_Csum n f : Cmod (Csum n f) <= Rsum n (fun i => Cmod (f i)).
Proof. induction n as [|n IH]; cbn [Csum Rsum]; [rewrite Cmod_R, Rabs_R0; lra|]. eapply Rle_trans; [apply Cmod_triangle|]. lra. Qed.
Lemma Rabs_Rsum n f : Rabs (Rsum n f) <= Rsum n (fun i => Rabs (f i)).
Proof. induction n as [|n IH]; cbn [Rsum]; [rewrite Rabs_R0; lra|]. eapply Rle_trans; [apply Rabs_triang|]. lra. Qed.
Lemma Csum_minus n f g : Csum n (fun i => Cminus (f i) (g i)) = Cminus (Csum n f) (Csum n g).
Proof. induction n as [|n IH]; cbn [Csum]; [ring|]. rewrite IH. ring. Qed.
Lemma geom_le rho n s : 0 <= rho < 1 -> Rsum n (fun i => rho ^ (s + i)) <= rho ^ s / (1 - rho).
Proof.
  intros H. assert (E : Rsum n (fun i => rho ^ (s + i)) = (rho ^ s - rho ^ (s + n)) / (1 - rho)).
  { induction n as [|n IH]; cbn [Rsum]; [rewrite Nat.add_0_r; field; lra|]. rewrite IH. replace (s + S n)%nat with (S (s + n)) by lia. cbn [pow]. field. lra. }
  rewrite E. apply Rmult_le_compat_r; [apply Rlt_le, Rinv_0_lt_compat; lra|]. pose proof (pow_le rho (s + n) ltac:(lra)). lra.
Qed.
Lemma Re_le_Cmod z : Rabs (Re z) <= Cmod z.
Proof. destruct z as [x y]. pose proof (Cmod_ge_0 (x, y)) as G. unfold Re. cbn [fst]. rewrite <- (Rabs_right (Cmod (x, y))) by lra. apply Rsqr_le_abs_0. pose proof (Cmod_sq (x, y)) as Q. cbn [Re Im fst snd] in Q. unfold Rsqr. pose proof (pow2_ge_0 y). nra. Qed.
Lemma pow_small c rho : 0 <= rho < 1 -> 0 <= c -> forall eps, 0 < eps -> exists N, forall m, (N <= m)%nat -> c * rho ^ m < eps.
Proof.
  intros Hr Hc eps He. assert (P : 0 < eps / (c + 1)) by (apply Rdiv_lt_0_compat; lra). destruct (pow_lt_1_zero rho ltac:(rewrite Rabs_right; lra) _ P) as [N HN]. exists N. intros m Hm. specialize (HN m Hm).
  assert (0 <= rho ^ m) by (apply pow_le; lra). rewrite Rabs_right in HN by lra. apply (Rmult_lt_compat_l (c + 1)) in HN; [|lra]. replace ((c + 1) * (eps / (c + 1))) with eps in HN by (field; lra). lra.
Qed.

Section Response.
Variables a b : list R.
Hypothesis Ha : nth 0 a 0 <> 0.
Let h := response a b.
Lemma past_sum k x t : Rsum (List.length k) (past k x t) = Rsum (S t) (fun j => nth j k 0 * x (t - j)%nat).
Proof.
  destruct (Nat.le_ge_cases (List.length k) (S t)) as [H|H].
  - replace (S t) with (List.length k + (S t - List.length k))%nat by lia. rewrite Rsum_app. rewrite (Rsum_0 (S t - List.length k)) by (intros i _; rewrite nth_overflow by lia; lra). rewrite Rplus_0_r. apply Rsum_ext. intros j Hj. unfold past. destruct (Nat.leb_spec j t); [reflexivity|lia].
  - replace (List.length k) with (S t + (List.length k - S t))%nat by lia. rewrite Rsum_app. rewrite (Rsum_0 (List.length k - S t)). { rewrite Rplus_0_r. apply Rsum_ext. intros j Hj. unfold past. destruct (Nat.leb_spec j t); [reflexivity|lia]. }
    intros i _. unfold past. destruct (Nat.leb_spec (S t + i) t); [lia|reflexivity].
Qed.
(** the impulse response divides the numerator by the denominator *)
Lemma response_eq t : Rsum (List.length a) (past a h t) = nth t b 0.
Proof.
  unfold h. change (response a b) with (lfilter a b unit_pulse) . rewrite lfilter_difference by exact Ha. rewrite past_sum. rewrite (Rsum_single _ t); [unfold unit_pulse; rewrite Nat.sub_diag; cbn; lra|lia|].
  intros i Hi Hn. unfold unit_pulse. destruct (Nat.eqb_spec (t - i) 0); [lia|lra].
Qed.

Section Freq.
Variable om : R.
Let e (j : nat) : Complex.C := cis (- (om * INR j)).
Lemma e_plus i j : e (i + j) = Cmult (e i) (e j). Proof. unfold e. rewrite <- cis_plus, plus_INR. f_equal. ring. Qed.
Lemma e_mod j : Cmod (e j) = 1. Proof. apply cis_mod. Qed.
Let hz (l : nat) : Complex.C := Cmult (RtoC (h l)) (e l).
Lemma partial_product v : Csum (List.length a) (fun j => Cmult (Cmult (RtoC (nth j a 0)) (e j)) (Csum (v - j) hz)) = Csum v (fun m => Cmult (RtoC (nth m b 0)) (e m)).
Proof.
  induction v as [|v IH]; [cbn [Csum]; apply Csum_0; intros j _; rewrite Nat.sub_0_l; cbn [Csum]; ring|].
  cbn [Csum]. rewrite <- IH. rewrite <- (response_eq v). rewrite <- Csum_RtoC, <- Csum_scal_r, <- Csum_plus. apply Csum_ext. intros j Hj. unfold past. destruct (Nat.leb_spec j v) as [H|H].
  - replace (S v - j)%nat with (S (v - j)) by lia. cbn [Csum]. unfold hz at 2. replace (e v) with (Cmult (e j) (e (v - j))) by (rewrite <- e_plus; f_equal; lia). rewrite RtoC_mult. ring.
  - replace (S v - j)%nat with 0%nat by lia. replace (v - j)%nat with 0%nat by lia. cbn [Csum]. ring.
Qed.
Variables K rho : R.
Hypothesis Hrho : 0 <= rho < 1.
Hypothesis Hdec : forall t, Rabs (h t) <= K * rho ^ t.
Let T := K / (1 - rho).
Lemma K_nonneg : 0 <= K. Proof. pose proof (Hdec 0) as H. cbn [pow] in H. pose proof (Rabs_pos (h 0)). lra. Qed.
Lemma T_nonneg : 0 <= T. Proof. unfold T. apply Rmult_le_pos; [apply K_nonneg|apply Rlt_le, Rinv_0_lt_compat; lra]. Qed.
Lemma abs_tail n s : Rsum n (fun i => Rabs (h (s + i))) <= T * rho ^ s.
Proof.
  apply Rle_trans with (Rsum n (fun i => K * rho ^ (s + i))); [apply Rsum_le; intros i _; apply Hdec|]. rewrite Rsum_scal. pose proof (geom_le rho n s Hrho) as G. pose proof K_nonneg. unfold T.
  apply Rle_trans with (K * (rho ^ s / (1 - rho))); [apply Rmult_le_compat_l; assumption|]. unfold Rdiv. lra.
Qed.
Lemma partial_tail n s : Cmod (Cminus (Csum (s + n) hz) (Csum s hz)) <= T * rho ^ s.
Proof.
  rewrite Csum_app. replace (Cminus (Cplus (Csum s hz) (Csum n (fun i => hz (s + i)%nat))) (Csum s hz)) with (Csum n (fun i => hz (s + i)%nat)) by ring. eapply Rle_trans; [apply Cmod_Csum|].
  eapply Rle_trans; [|apply (abs_tail n s)]. apply Rsum_le. intros i _. unfold hz. rewrite Cmod_mult, e_mod, Cmod_R. lra.
Qed.
Hypothesis HA : at_freq a om <> RtoC 0.
Let H := Cdiv (at_freq b om) (at_freq a om).
(** the partial sums of the response at exp(-i om) approach B/A geometrically *)
Lemma partial_limit s : Cmod (Cminus (Csum s hz) H) <= T * rho ^ s.
Proof.
  assert (PA : 0 < Cmod (at_freq a om)) by (apply Cmod_gt_0; exact HA).
  apply Rnot_lt_le. intros C. set (d := Cmod (Cminus (Csum s hz) H) - T * rho ^ s). assert (Pd : 0 < d) by (unfold d; lra).
  set (na := List.length a). set (S1 := Rsum na (fun j => Rabs (nth j a 0))). assert (PS : 0 <= S1) by (apply Rsum_nonneg; intros; apply Rabs_pos).
  destruct (pow_small (S1 * T) rho Hrho (Rmult_le_pos _ _ PS T_nonneg) (Cmod (at_freq a om) * d) (Rmult_lt_0_compat _ _ PA Pd)) as [N HN].
  set (v := (s + N + na + List.length b)%nat).
  assert (EB : Csum v (fun m => Cmult (RtoC (nth m b 0)) (e m)) = at_freq b om).
  { unfold v. replace (s + N + na + List.length b)%nat with (List.length b + (s + N + na))%nat by lia. rewrite Csum_app. rewrite (Csum_0 (s + N + na)). { rewrite Cplus_0_r. reflexivity. } intros i _. rewrite nth_overflow by lia. ring. }
  assert (D : Cmod (Cminus (Cmult (at_freq a om) (Csum v hz)) (at_freq b om)) <= S1 * T * rho ^ (N + s)).
  { rewrite <- EB, <- partial_product. unfold at_freq. fold e. rewrite <- Csum_scal_r, <- Csum_minus. eapply Rle_trans; [apply Cmod_Csum|]. rewrite Rmult_assoc. unfold S1. rewrite <- Rsum_scal_r. apply Rsum_le. intros j Hj. fold na in Hj.
    replace (Cminus (Cmult (Cmult (RtoC (nth j a 0)) (cis (- (om * INR j)))) (Csum v hz)) (Cmult (Cmult (RtoC (nth j a 0)) (e j)) (Csum (v - j) hz))) with (Cmult (Cmult (RtoC (nth j a 0)) (e j)) (Cminus (Csum v hz) (Csum (v - j) hz))) by (unfold e; ring).
    rewrite !Cmod_mult, e_mod, Cmod_R, Rmult_1_r. apply Rmult_le_compat_l; [apply Rabs_pos|]. pose proof (partial_tail j (v - j)) as PT. replace (v - j + j)%nat with v in PT by (unfold v; lia). eapply Rle_trans; [exact PT|].
    apply Rmult_le_compat_l; [apply T_nonneg|]. replace (v - j)%nat with ((N + s) + (v - j - (N + s)))%nat by (unfold v; lia). rewrite pow_add. assert (0 <= rho ^ (N + s)) by (apply pow_le; lra). set (m := (v - j - (N + s))%nat). assert (rho ^ m <= 1) by (rewrite <- (pow1 m); apply pow_incr; lra). nra. }
  specialize (HN (N + s)%nat ltac:(lia)).
  assert (F : Cmod (Cminus (Csum v hz) H) < d).
  { replace (Cminus (Csum v hz) H) with (Cdiv (Cminus (Cmult (at_freq a om) (Csum v hz)) (at_freq b om)) (at_freq a om)) by (unfold H; field; exact HA). rewrite Cmod_div by exact HA. apply Rmult_lt_reg_r with (Cmod (at_freq a om)); [exact PA|]. unfold Rdiv. rewrite Rmult_assoc, Rinv_l, Rmult_1_r by lra. lra. }
  pose proof (partial_tail (v - s) s) as G. replace (s + (v - s))%nat with v in G by (unfold v; lia).
  assert (Cmod (Cminus (Csum s hz) H) <= Cmod (Cminus (Csum v hz) (Csum s hz)) + Cmod (Cminus (Csum v hz) H)); [|unfold d in F; lra].
  replace (Cminus (Csum s hz) H) with (Cplus (Copp (Cminus (Csum v hz) (Csum s hz))) (Cminus (Csum v hz) H)) by ring. eapply Rle_trans; [apply Cmod_triangle|]. rewrite Cmod_opp. lra.
Qed.
Lemma H_mod : Cmod H <= T.
Proof. pose proof (partial_limit 0) as P. cbn [Csum pow] in P. replace (Cminus (RtoC 0) H) with (Copp H) in P by ring. rewrite Cmod_opp in P. lra. Qed.
(** one-way filtering of a sinusoid *)
Variable ph : R.
Let x (s : nat) : R := cos (om * INR s + ph).
Let E (s : nat) : Complex.C := cis (om * INR s + ph).
Lemma E_mod s : Cmod (E s) = 1. Proof. apply cis_mod. Qed.
Lemma one_way v : Rabs (lfilter a b x v - Re (Cmult H (E v))) <= T * rho ^ (S v).
Proof.
  assert (F : lfilter a b x v = Re (Cmult (Csum (S v) hz) (E v))).
  { rewrite lfilter_convolution. rewrite <- Csum_scal_r, Re_Csum. rewrite <- (Rsum_rev (S v)). apply Rsum_ext. intros i Hi. fold h. replace (v - (S v - 1 - i))%nat with i by lia. replace (S v - 1 - i)%nat with (v - i)%nat by lia.
    unfold hz. replace (Cmult (Cmult (RtoC (h i)) (e i)) (E v)) with (Cmult (RtoC (h i)) (E (v - i))). { rewrite Re_scal. reflexivity. }
    unfold E, e. rewrite <- Cmult_assoc, <- cis_plus. do 2 f_equal. rewrite minus_INR by lia. ring. }
  rewrite F. replace (Re (Cmult (Csum (S v) hz) (E v)) - Re (Cmult H (E v))) with (Re (Cmult (Cminus (Csum (S v) hz) H) (E v))).
  { eapply Rle_trans; [apply Re_le_Cmod|]. rewrite Cmod_mult, E_mod, Rmult_1_r. apply partial_limit. }
  replace (Cmult (Cminus (Csum (S v) hz) H) (E v)) with (Cplus (Cmult (Csum (S v) hz) (E v)) (Copp (Cmult H (E v)))) by ring. rewrite Re_plus. destruct (Cmult H (E v)) as [u w0]. cbn. ring.
Qed.
Lemma two_way n t : (t < n)%nat -> Rabs (filtfilt a b n x t - Cmod H ^ 2 * cos (om * INR t + ph)) <= T ^ 2 * (rho ^ S t + rho ^ (n - t)).
Proof.
  intros Ht. unfold filtfilt. rewrite (backward a b n (lfilter a b x) t Ht).
  assert (B : Rsum n (fun v => (if (t <=? v)%nat then response a b (v - t) else 0) * lfilter a b x v) = Rsum (n - t) (fun m => h m * lfilter a b x (t + m))).
  { replace n with (t + (n - t))%nat at 1 by lia. rewrite Rsum_app. rewrite (Rsum_0 t) by (intros i Hi; destruct (Nat.leb_spec t i); [lia|ring]). rewrite Rplus_0_l. apply Rsum_ext. intros i _. destruct (Nat.leb_spec t (t + i)); [|lia]. replace (t + i - t)%nat with i by lia. reflexivity. }
  rewrite B. set (N := (n - t)%nat).
  assert (M : Rsum N (fun m => h m * Re (Cmult H (E (t + m)))) = Re (Cmult (Cmult H (E t)) (Cconj (Csum N hz)))).
  { rewrite Cconj_Csum, <- Csum_scal, Re_Csum. apply Rsum_ext. intros m _. rewrite <- Re_scal. f_equal. unfold hz, e, E. rewrite Cconj_mult, Cconj_R, <- cis_opp. replace (om * INR (t + m) + ph) with ((om * INR t + ph) + - - (om * INR m)) by (rewrite plus_INR; ring). rewrite cis_plus. ring. }
  assert (G : Cmod H ^ 2 * cos (om * INR t + ph) = Re (Cmult (Cmult H (E t)) (Cconj H))).
  { replace (Cmult (Cmult H (E t)) (Cconj H)) with (Cmult (RtoC (Cmod H ^ 2)) (E t)) by (rewrite Cmod_sq_conj; ring). rewrite Re_scal. reflexivity. }
  rewrite G. replace (Rsum N (fun m => h m * lfilter a b x (t + m)) - Re (Cmult (Cmult H (E t)) (Cconj H)))
    with (Rsum N (fun m => h m * (lfilter a b x (t + m) - Re (Cmult H (E (t + m))))) + (Re (Cmult (Cmult H (E t)) (Cconj (Csum N hz))) - Re (Cmult (Cmult H (E t)) (Cconj H)))).
  2:{ rewrite (Rsum_ext N (fun m => h m * (lfilter a b x (t + m) - Re (Cmult H (E (t + m))))) (fun m => h m * lfilter a b x (t + m) - h m * Re (Cmult H (E (t + m))))) by (intros; ring). rewrite Rsum_minus, M. ring. }
  eapply Rle_trans; [apply Rabs_triang|]. assert (Q1 : Rabs (Rsum N (fun m => h m * (lfilter a b x (t + m) - Re (Cmult H (E (t + m)))))) <= T ^ 2 * rho ^ S t).
  { eapply Rle_trans; [apply Rabs_Rsum|]. apply Rle_trans with (Rsum N (fun m => Rabs (h (0 + m)) * (T * rho ^ S t))).
    - apply Rsum_le. intros m _. rewrite Rabs_mult. apply Rmult_le_compat_l; [apply Rabs_pos|]. eapply Rle_trans; [apply one_way|]. apply Rmult_le_compat_l; [apply T_nonneg|]. replace (S (t + m)) with (S t + m)%nat by lia. rewrite pow_add. assert (0 <= rho ^ S t) by (apply pow_le; lra). assert (rho ^ m <= 1) by (rewrite <- (pow1 m); apply pow_incr; lra). nra.
    - rewrite Rsum_scal_r. pose proof (abs_tail N 0) as A. cbn [pow] in A. rewrite Rmult_1_r in A. assert (0 <= T * rho ^ S t) by (apply Rmult_le_pos; [apply T_nonneg|apply pow_le; lra]). nra. }
  assert (Q2 : Rabs (Re (Cmult (Cmult H (E t)) (Cconj (Csum N hz))) - Re (Cmult (Cmult H (E t)) (Cconj H))) <= T ^ 2 * rho ^ N).
  { replace (Re (Cmult (Cmult H (E t)) (Cconj (Csum N hz))) - Re (Cmult (Cmult H (E t)) (Cconj H))) with (Re (Cmult (Cmult H (E t)) (Cconj (Cminus (Csum N hz) H)))).
    - eapply Rle_trans; [apply Re_le_Cmod|]. rewrite !Cmod_mult, E_mod, Cmod_conj, Rmult_1_r. pose proof (partial_limit N). pose proof H_mod. pose proof (Cmod_ge_0 H). pose proof (Cmod_ge_0 (Cminus (Csum N hz) H)). pose proof T_nonneg.
      apply Rle_trans with (T * (T * rho ^ N)); [apply Rmult_le_compat; assumption|]. right. ring.
    - replace (Cmult (Cmult H (E t)) (Cconj (Cminus (Csum N hz) H))) with (Cplus (Cmult (Cmult H (E t)) (Cconj (Csum N hz))) (Copp (Cmult (Cmult H (E t)) (Cconj H)))).
      + rewrite Re_plus. destruct (Cmult (Cmult H (E t)) (Cconj H)) as [u w0]. cbn. ring.
      + unfold Cminus. rewrite Cconj_plus. replace (Cconj (Copp H)) with (Copp (Cconj H)) by (destruct H; unfold Cconj, Copp; cbn; f_equal; ring). ring. }
  lra.
Qed.
End Freq.
End Response.

(** ** poles inside the unit circle make the response decay *)
Definition cv (c g : nat -> Complex.C) (t : nat) : Complex.C := Csum (S t) (fun j => Cmult (c j) (g (t - j)%nat)).
Lemma cv_pole p ps g t : cv (pole_poly (p :: ps)) g t = Cminus (cv (pole_poly ps) g t) (if (t =? 0)%nat then RtoC 0 else Cmult p (cv (pole_poly ps) g (t - 1))).
Proof.
  unfold cv. cbn [pole_poly]. rewrite (Csum_ext _ _ (fun j => Cminus (Cmult (pole_poly ps j) (g (t - j)%nat)) (Cmult (if (j =? 0)%nat then RtoC 0 else Cmult p (pole_poly ps (j - 1))) (g (t - j)%nat)))) by (intros; ring).
  rewrite Csum_minus. f_equal. destruct t as [|t]; [cbn [Csum Nat.eqb]; ring|]. rewrite Csum_S_l. cbn [Nat.eqb]. rewrite <- Csum_scal. rewrite Cmult_0_l, Cplus_0_l. replace (S t - 1)%nat with t by lia.
  apply Csum_ext. intros i _. replace (S i - 1)%nat with i by lia. replace (S t - S i)%nat with (t - i)%nat by lia. ring.
Qed.
Lemma one_pole p rho K (u g : nat -> Complex.C) : Cmod p < rho -> 0 <= K -> (forall t, u t = Cplus (g t) (if (t =? 0)%nat then RtoC 0 else Cmult p (u (t - 1)%nat))) -> (forall t, Cmod (g t) <= K * rho ^ t) ->
  forall t, Cmod (u t) <= K * rho / (rho - Cmod p) * rho ^ t.
Proof.
  intros Hp HK Hu Hg. pose proof (Cmod_ge_0 p) as P0. set (K' := K * rho / (rho - Cmod p)).
  assert (EK : K * rho + Cmod p * K' = K' * rho) by (unfold K'; field; lra). assert (PK' : 0 <= K') by (unfold K'; apply Rmult_le_pos; [nra|apply Rlt_le, Rinv_0_lt_compat; lra]).
  induction t as [|t IH]; rewrite Hu; cbn [Nat.eqb].
  - rewrite Cplus_0_r. eapply Rle_trans; [apply Hg|]. cbn [pow]. rewrite !Rmult_1_r. apply Rmult_le_reg_r with rho; [lra|]. nra.
  - replace (S t - 1)%nat with t by lia. eapply Rle_trans; [apply Cmod_triangle|]. rewrite Cmod_mult. specialize (Hg (S t)). cbn [pow] in *. assert (0 <= rho ^ t) by (apply pow_le; lra).
    apply Rle_trans with ((K * rho + Cmod p * K') * rho ^ t); [|rewrite EK; right; ring]. assert (Cmod p * Cmod (u t) <= Cmod p * (K' * rho ^ t)) by (apply Rmult_le_compat_l; assumption). lra.
Qed.
Lemma poles_decay rho ps : 0 < rho -> (forall p, In p ps -> Cmod p < rho) -> forall g K, 0 <= K -> (forall t, Cmod (cv (pole_poly ps) g t) <= K * rho ^ t) -> exists K', 0 <= K' /\ forall t, Cmod (g t) <= K' * rho ^ t.
Proof.
  intros Hr. induction ps as [|p ps IH]; intros HP g K HK H.
  - exists K. split; [exact HK|]. intros t. specialize (H t). replace (cv (pole_poly []) g t) with (g t) in H; [exact H|]. unfold cv. rewrite (Csum_single _ 0); [cbn; rewrite Nat.sub_0_r; ring|lia|]. intros i _ Hi. cbn [pole_poly]. destruct (Nat.eqb_spec i 0); [contradiction|ring].
  - assert (Hp : Cmod p < rho) by (apply HP; left; reflexivity). pose proof (Cmod_ge_0 p).
    apply (IH (fun q Hq => HP q (or_intror Hq)) g (K * rho / (rho - Cmod p))); [apply Rmult_le_pos; [nra|apply Rlt_le, Rinv_0_lt_compat; lra]|].
    apply (one_pole p rho K _ (cv (pole_poly (p :: ps)) g) Hp HK); [|exact H]. intros t. rewrite cv_pole. destruct (t =? 0)%nat; ring.
Qed.
Theorem poles_inside_stable a b ps rho : nth 0 a 0 <> 0 -> has_poles a ps -> 0 < rho -> (forall p, In p ps -> Cmod p < rho) -> exists K, forall t, Rabs (response a b t) <= K * rho ^ t.
Proof.
  intros Ha HP Hr Hps. set (a0 := nth 0 a 0) in *.
  assert (CV : forall t, cv (pole_poly ps) (fun s => RtoC (response a b s)) t = RtoC (nth t b 0 / a0)).
  { intros t. assert (A0 : RtoC a0 <> RtoC 0) by (intros E; apply RtoC_inj in E; contradiction). assert (E : Cmult (RtoC a0) (cv (pole_poly ps) (fun s => RtoC (response a b s)) t) = RtoC (nth t b 0)).
    { rewrite <- (response_eq a b Ha t), (past_sum a b), <- Csum_RtoC. unfold cv. rewrite <- Csum_scal. apply Csum_ext. intros j _. rewrite RtoC_mult, HP. fold a0. ring. }
    unfold Rdiv. rewrite RtoC_mult, RtoC_inv by exact Ha. rewrite <- E. field. exact A0. }
  set (K := Rsum (List.length b) (fun j => Rabs (nth j b 0 / a0) * / rho ^ j)). assert (IP : forall j, 0 < / rho ^ j) by (intros j; apply Rinv_0_lt_compat, pow_lt; exact Hr).
  assert (K0 : 0 <= K) by (apply Rsum_nonneg; intros j _; apply Rmult_le_pos; [apply Rabs_pos|apply Rlt_le, IP]).
  destruct (poles_decay rho ps Hr Hps (fun s => RtoC (response a b s)) K K0) as (K' & PK & HK').
  - intros t. rewrite CV, Cmod_R. destruct (Nat.lt_ge_cases t (List.length b)) as [L|L].
    + assert (T : Rabs (nth t b 0 / a0) * / rho ^ t <= K).
      { unfold K. replace (List.length b) with (t + S (List.length b - S t))%nat by lia. rewrite Rsum_app, Rsum_S_l, Nat.add_0_r. assert (N1 : 0 <= Rsum t (fun j => Rabs (nth j b 0 / a0) * / rho ^ j)) by (apply Rsum_nonneg; intros j _; apply Rmult_le_pos; [apply Rabs_pos|apply Rlt_le, IP]).
        assert (N2 : 0 <= Rsum (List.length b - S t) (fun i => Rabs (nth (t + S i) b 0 / a0) * / rho ^ (t + S i))) by (apply Rsum_nonneg; intros j _; apply Rmult_le_pos; [apply Rabs_pos|apply Rlt_le, IP]). lra. }
      apply (Rmult_le_compat_r (rho ^ t)) in T; [|apply pow_le; lra]. rewrite Rmult_assoc, Rinv_l, Rmult_1_r in T; [exact T|]. apply pow_nonzero. lra.
    + rewrite nth_overflow by exact L. unfold Rdiv. rewrite Rmult_0_l, Rabs_R0. apply Rmult_le_pos; [exact K0|apply pow_le; lra].
  - exists K'. intros t. specialize (HK' t). rewrite Cmod_R in HK'. exact HK'.
Qed.
Lemma pole_poly_0 ps : pole_poly ps 0 = RtoC 1. Proof. induction ps as [|p ps IH]; cbn [pole_poly Nat.eqb]; [reflexivity|]. rewrite IH. ring. Qed.
Lemma pole_poly_high ps : forall k, (List.length ps < k)%nat -> pole_poly ps k = RtoC 0.
Proof. induction ps as [|p ps IH]; intros k Hk; cbn [pole_poly]; cbn [List.length] in Hk; destruct (Nat.eqb_spec k 0); try lia; [reflexivity|]. rewrite !IH by lia. ring. Qed.
Lemma pole_poly_value om ps : forall n, (List.length ps < n)%nat -> Csum n (fun k => Cmult (pole_poly ps k) (cis (- (om * INR k)))) = fold_right (fun p z => Cmult (Cminus (RtoC 1) (Cmult p (cis (- om)))) z) (RtoC 1) ps.
Proof.
  induction ps as [|p ps IH]; intros n Hn; cbn [List.length] in Hn.
  - cbn [fold_right]. rewrite (Csum_single _ 0); [cbn [pole_poly Nat.eqb]; rewrite Rmult_0_r, Ropp_0, cis_0; ring|lia|]. intros i _ Hi. cbn [pole_poly]. destruct (Nat.eqb_spec i 0); [contradiction|ring].
  - cbn [fold_right pole_poly]. rewrite <- (IH n) by lia.
    rewrite (Csum_ext _ _ (fun k => Cminus (Cmult (pole_poly ps k) (cis (- (om * INR k)))) (Cmult (if (k =? 0)%nat then RtoC 0 else Cmult p (pole_poly ps (k - 1))) (cis (- (om * INR k)))))) by (intros; ring).
    rewrite Csum_minus. assert (E : Csum n (fun k => Cmult (if (k =? 0)%nat then RtoC 0 else Cmult p (pole_poly ps (k - 1))) (cis (- (om * INR k)))) = Cmult (Cmult p (cis (- om))) (Csum n (fun k => Cmult (pole_poly ps k) (cis (- (om * INR k)))))).
    { destruct n as [|n]; [lia|]. rewrite Csum_S_l. cbn [Nat.eqb]. rewrite Cmult_0_l, Cplus_0_l. cbn [Csum]. rewrite (pole_poly_high ps n) by lia. rewrite Cmult_0_l, Cplus_0_r. rewrite <- Csum_scal. apply Csum_ext. intros i _. replace (S i - 1)%nat with i by lia.
      replace (- (om * INR (S i))) with (- om + - (om * INR i)) by (rewrite S_INR; ring). rewrite cis_plus. ring. }
    rewrite E. ring.
Qed.
Lemma Cmult_zero (x y : Complex.C) : Cmult x y = RtoC 0 -> x = RtoC 0 \/ y = RtoC 0.
Proof. intros E. apply (f_equal Cmod) in E. rewrite Cmod_mult, Cmod_R, Rabs_R0 in E. apply Rmult_integral in E. destruct E as [E|E]; [left|right]; apply Cmod_eq_0; exact E. Qed.
Lemma poles_nonzero a ps om : nth 0 a 0 <> 0 -> has_poles a ps -> (forall p, In p ps -> Cmod p < 1) -> at_freq a om <> RtoC 0.
Proof.
  intros Ha HP Hps. assert (E : at_freq a om = Cmult (RtoC (nth 0 a 0)) (fold_right (fun p z => Cmult (Cminus (RtoC 1) (Cmult p (cis (- om)))) z) (RtoC 1) ps)).
  { rewrite <- (pole_poly_value om ps (List.length a + S (List.length ps))) by lia. rewrite <- Csum_scal. rewrite Csum_app. rewrite (Csum_0 (S (List.length ps))).
    - rewrite Cplus_0_r. unfold at_freq. apply Csum_ext. intros j _. rewrite HP. ring.
    - intros i _. rewrite Cmult_assoc, <- HP, nth_overflow by lia. ring. }
  rewrite E. intros Z. apply Cmult_zero in Z. destruct Z as [Z|Z]; [apply RtoC_inj in Z; contradiction|]. clear E HP. induction ps as [|p ps IH]; cbn [fold_right] in Z; [apply RtoC_inj in Z; lra|].
  apply Cmult_zero in Z. destruct Z as [Z|Z]; [|apply IH; [intros q Hq; apply Hps; right; exact Hq|exact Z]].
  assert (M : Cmod (Cmult p (cis (- om))) = 1). { replace (Cmult p (cis (- om))) with (RtoC 1). { rewrite Cmod_R. apply Rabs_R1. } replace (RtoC 1) with (Cplus (Cminus (RtoC 1) (Cmult p (cis (- om)))) (Cmult p (cis (- om)))) by ring. rewrite Z. ring. }
  rewrite Cmod_mult, cis_mod, Rmult_1_r in M. specialize (Hps p (or_introl eq_refl)). lra.
Qed.
(** ** theorems *)
(** given any geometric bound of the impulse response, explicitly *)
Theorem filtfilt_sinusoid a b K rho om ph n t : nth 0 a 0 <> 0 -> 0 <= rho < 1 -> (forall s, Rabs (response a b s) <= K * rho ^ s) -> at_freq a om <> RtoC 0 -> (t < n)%nat ->
  Rabs (filtfilt a b n (fun s => cos (om * INR s + ph)) t - (Cmod (at_freq b om) / Cmod (at_freq a om)) ^ 2 * cos (om * INR t + ph)) <= (K / (1 - rho)) ^ 2 * (rho ^ S t + rho ^ (n - t)).
Proof. intros Ha Hr HK HA Ht. rewrite <- Cmod_div by exact HA. apply two_way; assumption. Qed.
(** with all poles inside the circle of radius rho < 1: one constant for all frequencies, phases, lengths and samples *)
Theorem filtfilt_gain a b ps rho : nth 0 a 0 <> 0 -> has_poles a ps -> (forall p, In p ps -> Cmod p < rho) -> 0 < rho < 1 ->
  exists M, forall om ph n t, (t < n)%nat ->
    Rabs (filtfilt a b n (fun s => cos (om * INR s + ph)) t - (Cmod (at_freq b om) / Cmod (at_freq a om)) ^ 2 * cos (om * INR t + ph)) <= M * (rho ^ S t + rho ^ (n - t)).
Proof.
  intros Ha HP Hps Hr. destruct (poles_inside_stable a b ps rho Ha HP ltac:(lra) Hps) as [K HK]. exists ((K / (1 - rho)) ^ 2). intros om ph n t Ht. apply filtfilt_sinusoid; try assumption; [lra|].
  apply (poles_nonzero a ps); try assumption. intros p Hp. specialize (Hps p Hp). lra.
Qed.
(** the same for the module: a batch of sinusoids, each series filtered *)
Theorem iir_forward_gain a b ps rho : List.length a = List.length b -> nth 0 a 0 <> 0 -> has_poles a ps -> (forall p, In p ps -> Cmod p < rho) -> 0 < rho < 1 ->
  exists M, forall (B n : nat) (om ph : nat -> R), exists y, iir_forward a b (mk [B; n] (fun i => cos (om (nth 0 i 0%nat) * INR (nth 1 i 0%nat) + ph (nth 0 i 0%nat)))) = Ok y /\ shape y = [B; n] /\
    forall k t, (k < B)%nat -> (t < n)%nat -> Rabs (elt y [k; t] - (Cmod (at_freq b (om k)) / Cmod (at_freq a (om k))) ^ 2 * cos (om k * INR t + ph k)) <= M * (rho ^ S t + rho ^ (n - t)).
Proof.
  intros HL Ha HP Hps Hr. destruct (filtfilt_gain a b ps rho Ha HP Hps Hr) as [M HM]. exists M. intros B n om ph. unfold iir_forward. rewrite HL, Nat.eqb_refl. eexists. split; [reflexivity|]. split; [reflexivity|].
  intros k t Hk Ht. cbn [elt shape last removelast app nth]. apply HM. exact Ht.
Qed.
(** the one-pole smoother y[t] = y[t-1]/2 + (x[t] + x[t-1])/4: unit gain at zero frequency, none at the Nyquist frequency *)
Example iir_gain_ex : has_poles [1; - / 2] [RtoC (/ 2)] /\ Cmod (RtoC (/ 2)) < 6 / 10 /\
  (Cmod (at_freq [/ 4; / 4] 0) / Cmod (at_freq [1; - / 2] 0)) ^ 2 = 1 /\ (Cmod (at_freq [/ 4; / 4] PI) / Cmod (at_freq [1; - / 2] PI)) ^ 2 = 0.
Proof.
  split; [|split; [rewrite Cmod_R, Rabs_right; lra|]].
  - intros [|[|k]]; cbn [nth pole_poly Nat.eqb Nat.sub].
    + apply injective_projections; cbn; ring.
    + apply injective_projections; cbn; ring.
    + replace (match k with O | _ => 0 end) with 0 by (destruct k; reflexivity). apply injective_projections; cbn; ring.
  - unfold at_freq. cbn [List.length Csum nth INR]. rewrite !Rmult_0_l, Rmult_1_r, Rmult_0_r, Ropp_0, cis_0. rewrite cis_opp.
    assert (EP : Cconj (cis PI) = RtoC (-1)) by (unfold cis, Cconj; cbn [fst snd]; rewrite cos_PI, sin_PI, Ropp_0; reflexivity). rewrite EP.
    assert (E1 : forall x y : R, Cplus (Cplus (RtoC 0) (Cmult (RtoC x) (RtoC 1))) (Cmult (RtoC y) (RtoC 1)) = RtoC (x + y)) by (intros; apply injective_projections; cbn; ring).
    assert (E2 : forall x y : R, Cplus (Cplus (RtoC 0) (Cmult (RtoC x) (RtoC 1))) (Cmult (RtoC y) (RtoC (-1))) = RtoC (x - y)) by (intros; apply injective_projections; cbn; ring).
    rewrite !E1, !E2, !Cmod_R. replace (/ 4 + / 4) with (/ 2) by lra. replace (1 + - / 2) with (/ 2) by lra. replace (/ 4 - / 4) with 0 by lra. rewrite Rabs_R0. split; [field; apply Rabs_no_R0; lra|unfold Rdiv; ring].
Qed.
