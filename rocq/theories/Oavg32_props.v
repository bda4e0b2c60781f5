(** C108: the OnlineAverager in float32 arithmetic: rounding errors do not pile up over the stream. *)
From Coq Require Import Reals ZArith Lra Lia List.
From Flocq Require Import Core Relative.
From Verif Require Import Base Tensor Slicing_model Slicing_proofs Slicing_proofs2 Slicing_props Rutil Streaming_model Oavg_props Trans_model Leak32_model Leak32_props Oavg32_model.
Local Open Scope nat_scope.

(** with exact arithmetic the parametrised model is the model of C15 *)
Theorem oa_run_g_exact m us : forall q st, oa_run_g (fun v => v / INR (oa_n m))%R Rdiv Rplus (fun _ _ b f => Rsum b f) q m us st = oa_run m us st.
Proof.
  induction us as [|x us IH]; intros q st; [reflexivity|]. cbn [oa_run_g oa_run]. change (oa_forward_g _ _ _ _ m x st) with (oa_forward m x st).
  destruct (oa_forward m x st) as [[o st']|e]; [|reflexivity]. cbn [bind]. rewrite IH. reflexivity.
Qed.

(** ** one call, for any arithmetic *)
Lemma forward_g_ok dn dv pl sm u b n c off m x L st : 0 < u -> 0 < b -> 0 < n -> 0 < c -> oa_create u b n c off = Ok m ->
  let o := match off with Some k => k | None => 0 end in
  shape x = [b; c; L] -> n * u + o <= L -> off <> Some 0 -> shape st = [c; oa_state_size u n] ->
  exists out st', oa_forward_g dn dv pl sm m x (Some st) = Ok (out, st') /\ shape out = [c; b * u] /\ shape st' = [c; oa_state_size u n] /\
  exists S : nat -> nat -> nat -> R, 
  (forall l t k, l < c -> t < b * u + oa_state_size u n -> k < b -> S l t k =
     if covers u n k t then pl (dv (if t <? oa_state_size u n then elt st [l; t] else 0%R) (wsum u b n t)) (dn (elt x [k; l; (L - o - n * u + (t - k * u))%nat])) else 0%R) /\
  (forall l t, l < c -> t < b * u -> elt out [l; t] = sm [l; t] b (S l t)) /\
  (forall l t, l < c -> t < oa_state_size u n -> elt st' [l; t] = sm [l; b * u + t] b (S l (b * u + t))).
Proof.
  intros Hu Hb Hn Hc Hm o Hx HL Hoff Hst. destruct (oa_create_inv u b n c off m Hu Hb Hn Hc Hm) as [w [Em [Sw Vw]]].
  set (T := b * u + oa_state_size u n) in *. assert (T_eq := T_eq u b n c off m Hu Hb Hn Hc Hm). fold T in T_eq.
  unfold oa_forward_g. rewrite Em. cbn [oa_n oa_u oa_off oa_b oa_blank oa_idx oa_weights].
  destruct (slice_x u b n c off m Hu Hb Hn Hc Hm L HL Hoff) as [lo [hi [E0 [Elo Ehi]]]]. fold o in Elo, Ehi. rewrite E0.
  rewrite Hx. cbn [length]. rewrite Nat.eqb_refl. cbn [negb].
  unfold slice_last. rewrite Hx. cbn [shape last removelast app]. rewrite Elo, Ehi.
  match goal with |- context [bzip_inplace pl _ ?z] => set (xx := z) end.
  assert (Sxx : shape xx = [b; c; n * u]) by (unfold xx; cbn [shape]; do 3 f_equal; lia).
  assert (Vxx : forall k l j, elt xx [k; l; j] = dn (elt x [k; l; (L - o - n * u + j)%nat])).
  { intros. unfold xx. cbn [elt removelast last app]. rewrite Nat2Z.id, (Nat.add_comm j). reflexivity. }
  replace (Z.to_nat (Z.of_nat (L - o) - Z.of_nat (L - o - n * u))) with (n * u) by lia.
  set (sp := pad_right _ st).
  assert (Ssp : shape sp = [c; T]) by (unfold sp, pad_right; rewrite Hst; cbn [shape]; unfold T; do 2 f_equal; lia).
  assert (Vsp : forall l t, elt sp [l; t] = if t <? oa_state_size u n then elt st [l; t] else 0%R).
  { intros. unfold sp, pad_right. rewrite Hst. reflexivity. }
  destruct (unfold_windows_correct 0%R sp [c] T (n * u) u true Ssp) as [y [tl [Ey [Sy [Vy _]]]]];
    [cbn; lia|constructor; [exact Hc|constructor]|nia|exact Hu|rewrite T_eq; apply Nat.le_add_l|].
  rewrite Ey. cbn [bind].
  assert (Enw : (T - n * u) / u + 1 = b).
  { rewrite T_eq, Nat.add_sub, Nat.div_mul by (clear -Hu; lia). clear -Hb; lia. }
  rewrite Enw in *. clear Enw.
  assert (Vy' : forall k l j, k < b -> l < c -> j < n * u -> elt y [k; l; j] = elt sp [l; k * u + j]).
  { intros k l j Hk Hl Hj. specialize (Vy k [l] j Hk ltac:(cbn; lia) Hj). cbn [app] in Vy.
    assert (Ht : k * u + j < T) by (rewrite T_eq; nia).
    rewrite get_inb in Vy by (rewrite Sy; cbn; lia). rewrite get_inb in Vy by (rewrite Ssp; cbn; lia). congruence. }
  destruct (bzip3 u b n c off Hu Hb Hn Hc dv y w b c (n * u) Sy Sw) as [y1 [E1 [S1 V1]]]. rewrite E1. cbn [bind].
  destruct (bzip3 u b n c off Hu Hb Hn Hc pl y1 xx b c (n * u) S1 Sxx) as [y2 [E2 [S2 V2]]]. rewrite E2. cbn [bind].
  destruct (scatter_idx u b n c off m Hu Hb Hn Hc Hm y2 S2) as [r [Er [Sr Vr]]]. fold T in Er, Sr, Vr. rewrite Er. cbn [bind].
  set (new := sum0_g sm r). set (F := fun l t k => elt r [k; l; t]).
  assert (Snew : shape new = [c; T]) by (unfold new, sum0_g; rewrite Sr; reflexivity).
  assert (Vnew : forall l t, elt new [l; t] = sm [l; t] b (F l t)) by (intros; unfold new, sum0_g; rewrite Sr; reflexivity).
  assert (VF : forall l t k, l < c -> t < T -> k < b -> F l t k =
     if covers u n k t then pl (dv (if t <? oa_state_size u n then elt st [l; t] else 0%R) (wsum u b n t)) (dn (elt x [k; l; (L - o - n * u + (t - k * u))%nat])) else 0%R).
  { intros l t k Hl Ht Hk. unfold F. rewrite Vr by assumption. destruct (covers u n k t) eqn:Ec; [|reflexivity].
    unfold covers in Ec. assert (Hj : t - k * u < n * u) by lia.
    rewrite V2, V1, Vxx, Vy', Vw, Vsp by assumption. replace (k * u + (t - k * u)) with t by lia. reflexivity. }
  destruct (Nat.eqb_spec n 1) as [En|En].
  - assert (EZ : oa_state_size u n = 0) by (unfold oa_state_size; rewrite En; lia).
    exists new. eexists. split; [reflexivity|]. split; [rewrite Snew; unfold T; rewrite EZ; do 2 f_equal; lia|].
    split; [reflexivity|]. exists F. split; [exact VF|]. split; [intros; apply Vnew|]. intros l t _ Ht. lia.
  - unfold split2_last. rewrite Snew. cbn [last removelast app].
    match goal with |- context [if ?B then Err RuntimeError else _] => replace B with false end.
    2:{ symmetry. unfold T, oa_state_size. clear. rewrite !Bool.orb_false_iff. rewrite Bool.negb_false_iff. rewrite !Z.ltb_ge, Z.eqb_eq, Nat2Z.inj_add, !Nat2Z.inj_mul. repeat split; try reflexivity; apply Z.mul_nonneg_nonneg; lia. }
    rewrite <- !Nat2Z.inj_mul, !Nat2Z.id. do 2 eexists. split; [reflexivity|]. cbn [shape]. split; [reflexivity|]. split; [reflexivity|].
    exists F. split; [exact VF|]. split; intros l t Hl Ht; cbn [elt removelast last app]; [apply Vnew|]. rewrite (Nat.add_comm t). apply Vnew.
Qed.

(** ** rounding errors *)
Local Open Scope R_scope.
Definition eta32 : R := bpow radix2 (-150).
Lemma eta32_pos : 0 < eta32. Proof. apply bpow_gt_0. Qed.
Lemma fl32_err z : Rabs (fl32 z - z) <= u32 * Rabs z + eta32.
Proof.
  destruct (error_N_FLT radix2 (-149) 24 eq_refl (fun x => negb (Z.even x)) z) as (eps & eta & H1 & H2 & _ & E).
  replace (fl32 z) with (z * (1 + eps) + eta) by (symmetry; exact E). replace (z * (1 + eps) + eta - z) with (eps * z + eta) by ring.
  eapply Rle_trans; [apply Rabs_triang|]. rewrite Rabs_mult. apply Rplus_le_compat.
  - apply Rmult_le_compat_r; [apply Rabs_pos|]. replace u32 with (/ 2 * bpow radix2 (-24 + 1)); [exact H1|].
    change (bpow radix2 (-24 + 1)) with (/ IZR (2 ^ 23)). unfold u32. change (2 ^ 24)%Z with (2 * 2 ^ 23)%Z. rewrite mult_IZR. field. apply IZR_neq. lia.
  - eapply Rle_trans; [exact H2|]. right. unfold eta32. change (-149)%Z with (1 + -150)%Z. rewrite bpow_plus. change (bpow radix2 1) with 2. field.
Qed.
Lemma recip_err n : (0 < n)%nat -> (Z.of_nat n <= 2 ^ 24)%Z -> Rabs (fl32 (/ INR n) - / INR n) <= u32 * (/ INR n).
Proof.
  intros Hn Hb. assert (P : 0 < INR n) by (apply lt_0_INR; lia). assert (PI : 0 < / INR n) by (apply Rinv_0_lt_compat, P).
  destruct (relative_error_N_FLT_ex radix2 (-149) 24 eq_refl (fun z => negb (Z.even z)) (/ INR n)) as (e & E1 & E2).
  - rewrite Rabs_right by lra. apply Rle_trans with (bpow radix2 (-24)); [apply bpow_le; lia|]. change (bpow radix2 (-24)) with (/ IZR (2 ^ 24)). apply Rinv_le_contravar; [exact P|]. rewrite INR_IZR_INZ. apply IZR_le, Hb.
  - replace (fl32 (/ INR n)) with (/ INR n * (1 + e)) by (symmetry; exact E2). replace (/ INR n * (1 + e) - / INR n) with (e * / INR n) by ring. rewrite Rabs_mult, (Rabs_right (/ INR n)) by lra.
    apply Rmult_le_compat_r; [lra|]. replace u32 with (/ 2 * bpow radix2 (-24 + 1)); [exact E1|].
    change (bpow radix2 (-24 + 1)) with (/ IZR (2 ^ 23)). unfold u32. change (2 ^ 24)%Z with (2 * 2 ^ 23)%Z. rewrite mult_IZR. field. apply IZR_neq. lia.
Qed.
Lemma dn_err n dn v : (0 < n)%nat -> (Z.of_nat n <= 2 ^ 24)%Z -> (dn v = fl32 (v / INR n) \/ dn v = fl32 (v * fl32 (/ INR n))) ->
  F32 (dn v) /\ Rabs (dn v - v / INR n) <= ((1 + u32) ^ 2 - 1) * (Rabs v / INR n) + eta32.
Proof.
  intros Hn Hb H. assert (U := u32_pos). assert (P : 0 < INR n) by (apply lt_0_INR; lia). assert (PI : 0 < / INR n) by (apply Rinv_0_lt_compat, P).
  assert (AV : Rabs (v / INR n) = Rabs v / INR n) by (unfold Rdiv; rewrite Rabs_mult, (Rabs_right (/ INR n)) by lra; reflexivity).
  assert (A0 : 0 <= Rabs v / INR n) by (rewrite <- AV; apply Rabs_pos).
  split; [destruct H as [->| ->]; apply fl32_F32|]. destruct H as [->| ->].
  - eapply Rle_trans; [apply fl32_err|]. rewrite AV. nra.
  - assert (R1 := recip_err n Hn Hb). set (r := fl32 (/ INR n)) in *. assert (E := fl32_err (v * r)).
    assert (D : Rabs (v * r - v / INR n) <= u32 * (Rabs v / INR n)).
    { replace (v * r - v / INR n) with (v * (r - / INR n)) by (unfold Rdiv; ring). rewrite Rabs_mult. unfold Rdiv. apply Rle_trans with (Rabs v * (u32 * / INR n)); [apply Rmult_le_compat_l; [apply Rabs_pos|exact R1]|right; ring]. }
    assert (B : Rabs (v * r) <= (1 + u32) * (Rabs v / INR n)).
    { replace (v * r) with (v / INR n + (v * r - v / INR n)) by ring. eapply Rle_trans; [apply Rabs_triang|]. rewrite AV. lra. }
    replace (fl32 (v * r) - v / INR n) with (fl32 (v * r) - v * r + (v * r - v / INR n)) by ring. eapply Rle_trans; [apply Rabs_triang|].
    assert (M : u32 * Rabs (v * r) <= u32 * ((1 + u32) * (Rabs v / INR n))) by (apply Rmult_le_compat_l; lra). set (a := Rabs v / INR n) in *. nra.
Qed.
(** one term of the sum over the batch: the share of the old state plus the new value *)
Lemma term_err n dn dv pl s w v : (0 < n)%nat -> (Z.of_nat n <= 2 ^ 24)%Z -> 0 < w -> (dn v = fl32 (v / INR n) \/ dn v = fl32 (v * fl32 (/ INR n))) ->
  dv s w = fl32 (s / w) -> (forall a c, pl a c = fl32 (a + c)) ->
  F32 (pl (dv s w) (dn v)) /\ Rabs (pl (dv s w) (dn v) - (s / w + v / INR n)) <= ((1 + u32) ^ 3 - 1) * (Rabs s / w + Rabs v / INR n) + 2 * eta32 * (1 + u32).
Proof.
  intros Hn Hb Hw H1 H2 H3. rewrite H2, H3. assert (U := u32_pos). split; [apply fl32_F32|]. destruct (dn_err n dn v Hn Hb H1) as [F E1].
  assert (P : 0 < INR n) by (apply lt_0_INR; lia). assert (PI : 0 < / INR n) by (apply Rinv_0_lt_compat, P). assert (PW : 0 < / w) by (apply Rinv_0_lt_compat, Hw).
  assert (AV : Rabs (v / INR n) = Rabs v / INR n) by (unfold Rdiv; rewrite Rabs_mult, (Rabs_right (/ INR n)) by lra; reflexivity).
  assert (AS : Rabs (s / w) = Rabs s / w) by (unfold Rdiv; rewrite Rabs_mult, (Rabs_right (/ w)) by lra; reflexivity).
  assert (V0 : 0 <= Rabs v / INR n) by (rewrite <- AV; apply Rabs_pos). assert (S0 : 0 <= Rabs s / w) by (rewrite <- AS; apply Rabs_pos).
  assert (E2 := fl32_err (s / w)). rewrite AS in E2. set (x := dn v) in *. set (y := fl32 (s / w)) in *.
  assert (G : grid (y + x)) by (apply grid_plus; apply grid_F32; [apply fl32_F32|exact F]). assert (E3 := acc_err fl32 _ fl32_acc G).
  assert (D : Rabs (y + x - (s / w + v / INR n)) <= ((1 + u32) ^ 2 - 1) * (Rabs s / w + Rabs v / INR n) + 2 * eta32).
  { replace (y + x - (s / w + v / INR n)) with ((y - s / w) + (x - v / INR n)) by ring. eapply Rle_trans; [apply Rabs_triang|]. set (a := Rabs s / w) in *. set (c := Rabs v / INR n) in *. nra. }
  assert (B : Rabs (y + x) <= (1 + u32) ^ 2 * (Rabs s / w + Rabs v / INR n) + 2 * eta32).
  { replace (y + x) with ((s / w + v / INR n) + (y + x - (s / w + v / INR n))) by ring. eapply Rle_trans; [apply Rabs_triang|]. assert (T := Rabs_triang (s / w) (v / INR n)). rewrite AS, AV in T. lra. }
  replace (fl32 (y + x) - (s / w + v / INR n)) with (fl32 (y + x) - (y + x) + (y + x - (s / w + v / INR n))) by ring. eapply Rle_trans; [apply Rabs_triang|].
  assert (M : u32 * Rabs (y + x) <= u32 * ((1 + u32) ^ 2 * (Rabs s / w + Rabs v / INR n) + 2 * eta32)) by (apply Rmult_le_compat_l; lra).
  set (a := Rabs s / w + Rabs v / INR n) in *. replace ((1 + u32) ^ 3) with ((1 + u32) * (1 + u32) ^ 2) by ring. nra.
Qed.
Lemma batch_err b f y a cc v : (0 < b)%nat -> 0 <= cc -> (forall k, (k < b)%nat -> grid (f k) /\ Rabs (y k) <= a k /\ Rabs (f k - y k) <= ((1 + u32) ^ 3 - 1) * a k + cc) ->
  summed f (seq 0 b) v -> Rabs (fl32 v - Rsum b y) <= ((1 + u32) ^ (b + 3) - 1) * Rsum b a + INR b * cc * (1 + u32) ^ b.
Proof.
  intros Hb Hc H Hs. assert (U := u32_pos). assert (GJ : forall i, In i (seq 0 b) -> grid (f i)) by (intros i Hi; apply in_seq in Hi; apply H; lia).
  destruct (summed_error f _ _ GJ Hs) as [G E]. rewrite !lsum_seq, seq_length in E. assert (E1 := acc_err fl32 v fl32_acc G).
  assert (SA : Rabs (Rsum b f) <= Rsum b (fun k => Rabs (f k))) by (rewrite <- !lsum_seq; apply lsum_abs).
  assert (A0 : 0 <= Rsum b a) by (apply Rsum_nonneg; intros k Hk; eapply Rle_trans; [apply Rabs_pos|apply H, Hk]).
  assert (FA : Rsum b (fun k => Rabs (f k)) <= (1 + u32) ^ 3 * Rsum b a + INR b * cc).
  { rewrite <- Rsum_scal. replace (INR b * cc) with (Rsum b (fun _ => cc)) by (rewrite Rsum_const; ring). rewrite <- Rsum_plus. apply Rsum_le. intros k Hk. destruct (H k Hk) as (_ & Y & D).
    replace (f k) with (y k + (f k - y k)) by ring. eapply Rle_trans; [apply Rabs_triang|]. lra. }
  assert (FY : Rabs (Rsum b f - Rsum b y) <= ((1 + u32) ^ 3 - 1) * Rsum b a + INR b * cc).
  { rewrite <- Rsum_minus. apply Rle_trans with (Rsum b (fun k => Rabs (f k - y k))); [rewrite <- !lsum_seq; apply (lsum_abs (fun k => f k - y k))|].
    rewrite <- Rsum_scal. replace (INR b * cc) with (Rsum b (fun _ => cc)) by (rewrite Rsum_const; ring). rewrite <- Rsum_plus. apply Rsum_le. intros k Hk. apply H, Hk. }
  assert (GB : (1 + u32) ^ b = (1 + u32) * (1 + u32) ^ (b - 1)) by (destruct b; [lia|]; cbn [pow Nat.sub]; rewrite Nat.sub_0_r; reflexivity).
  assert (G1 : 1 <= (1 + u32) ^ (b - 1)) by (apply pow_R1_Rle; lra).
  rewrite pow_add. set (g := (1 + u32) ^ (b - 1)) in *. set (sf := Rsum b (fun k => Rabs (f k))) in *. set (s := Rsum b f) in *.
  assert (V1 : Rabs v <= g * sf). { replace v with (v - s + s) by ring. eapply Rle_trans; [apply Rabs_triang|]. lra. }
  assert (D : Rabs (fl32 v - s) <= ((1 + u32) ^ b - 1) * sf).
  { replace (fl32 v - s) with (fl32 v - v + (v - s)) by ring. eapply Rle_trans; [apply Rabs_triang|]. assert (M : u32 * Rabs v <= u32 * (g * sf)) by (apply Rmult_le_compat_l; lra). rewrite GB. nra. }
  assert (G2 : 1 <= (1 + u32) ^ b) by (apply pow_R1_Rle; lra). set (h := (1 + u32) ^ b) in *. set (g3 := (1 + u32) ^ 3) in *. set (A := Rsum b a) in *. set (bc := INR b * cc) in *.
  replace (fl32 v - Rsum b y) with (fl32 v - s + (s - Rsum b y)) by ring. eapply Rle_trans; [apply Rabs_triang|].
  assert (M : (h - 1) * sf <= (h - 1) * (g3 * A + bc)) by (apply Rmult_le_compat_l; lra). clearbody h g3 A bc s sf. nra.
Qed.
(** the error bound after K calls that touched a sample whose contributions add up to A in absolute value *)
Definition oa_bound (b K : nat) (A : R) : R := (1 + u32) ^ ((b + 3) * K) * (A + 2 * INR b * INR K * eta32) - A.
Lemma oa_bound_pos b K A : 0 <= A -> 0 <= oa_bound b K A.
Proof.
  intros HA. unfold oa_bound. assert (U := u32_pos). assert (E := eta32_pos). assert (G : 1 <= (1 + u32) ^ ((b + 3) * K)) by (apply pow_R1_Rle; lra).
  assert (P : 0 <= 2 * INR b * INR K * eta32) by (repeat apply Rmult_le_pos; try apply pos_INR; lra). nra.
Qed.
Lemma oa_bound_mono b K K' A : (K <= K')%nat -> 0 <= A -> oa_bound b K A <= oa_bound b K' A.
Proof.
  intros H HA. unfold oa_bound. assert (U := u32_pos). assert (E := eta32_pos). assert (G : (1 + u32) ^ ((b + 3) * K) <= (1 + u32) ^ ((b + 3) * K')) by (apply Rle_pow; [lra|nia]).
  assert (G1 : 1 <= (1 + u32) ^ ((b + 3) * K)) by (apply pow_R1_Rle; lra).
  assert (P : 0 <= 2 * INR b * INR K * eta32) by (repeat apply Rmult_le_pos; try apply pos_INR; lra).
  assert (Q : 2 * INR b * INR K * eta32 <= 2 * INR b * INR K' * eta32). { apply Rmult_le_compat_r; [lra|]. apply Rmult_le_compat_l; [assert (X := pos_INR b); lra|]. apply le_INR, H. }
  apply Rplus_le_compat_r. apply Rmult_le_compat; lra.
Qed.
Lemma oa_bound_step b j s S0 A X Xa r : (0 < b)%nat -> 0 <= A -> 0 <= Xa -> Rabs S0 <= A -> Rabs (s - S0) <= oa_bound b j A ->
  Rabs (r - (s + X)) <= ((1 + u32) ^ (b + 3) - 1) * (Rabs s + Xa) + INR b * (2 * eta32 * (1 + u32)) * (1 + u32) ^ b -> Rabs (r - (S0 + X)) <= oa_bound b (S j) (A + Xa).
Proof.
  intros Hb HA HX H0 Hs Hr. assert (U := u32_pos). assert (E := eta32_pos). unfold oa_bound in *. assert (B0 := pos_INR b). assert (J0 := pos_INR j).
  replace ((b + 3) * S j)%nat with ((b + 3) + (b + 3) * j)%nat by lia. rewrite pow_add, S_INR.
  assert (G1 : 1 <= (1 + u32) ^ ((b + 3) * j)) by (apply pow_R1_Rle; lra). assert (G2 : 1 <= (1 + u32) ^ (b + 3)) by (apply pow_R1_Rle; lra).
  assert (G3 : (1 + u32) * (1 + u32) ^ b <= (1 + u32) ^ (b + 3)) by (rewrite tech_pow_Rmult; apply Rle_pow; [lra|lia]).
  set (gj := (1 + u32) ^ ((b + 3) * j)) in *. set (g := (1 + u32) ^ (b + 3)) in *. set (gb := (1 + u32) ^ b) in *.
  set (c := 2 * INR b * eta32) in *. assert (C0 : 0 <= c) by (unfold c; repeat apply Rmult_le_pos; lra).
  replace (2 * INR b * INR j * eta32) with (c * INR j) in * by (unfold c; ring). replace (2 * INR b * (INR j + 1) * eta32) with (c * INR j + c) by (unfold c; ring).
  assert (Hr2 : INR b * (2 * eta32 * (1 + u32)) * gb <= c * g). { replace (INR b * (2 * eta32 * (1 + u32)) * gb) with (c * ((1 + u32) * gb)) by (unfold c; ring). apply Rmult_le_compat_l; assumption. }
  set (M := gj * (A + c * INR j)) in *. assert (SM : Rabs s <= M). { replace s with (S0 + (s - S0)) by ring. eapply Rle_trans; [apply Rabs_triang|]. lra. }
  assert (M1 : (g - 1) * (Rabs s + Xa) <= (g - 1) * (M + Xa)) by (apply Rmult_le_compat_l; lra).
  replace (r - (S0 + X)) with (r - (s + X) + (s - S0)) by ring. eapply Rle_trans; [apply Rabs_triang|].
  replace (g * gj * (A + Xa + (c * INR j + c))) with (g * M + g * gj * (Xa + c)) by (unfold M; ring).
  assert (M2 : g * (Xa + c) <= g * gj * (Xa + c)). { apply Rmult_le_compat_r; [lra|]. replace g with (g * 1) at 1 by ring. apply Rmult_le_compat_l; lra. }
  clearbody M gj g gb c. nra.
Qed.

(** ** averages *)
Local Open Scope nat_scope.
Lemma average_step u n b q pred l t : 0 < u -> 0 < b ->
  average u n ((q + 1) * b) pred l (q * (b * u) + t) =
  (average u n (q * b) pred l (q * (b * u) + t)%nat + Rsum b (fun k => if covers u n k t then pred (q * b + k)%nat l (t - k * u)%nat / INR n else 0))%R.
Proof.
  intros Hu Hb. unfold average. replace ((q + 1) * b) with (q * b + b) by lia. rewrite Rsum_app, Rmult_plus_distr_l. f_equal. rewrite <- Rsum_scal. apply Rsum_ext. intros k Hk.
  assert (CS : covers u n (q * b + k) (q * (b * u) + t) = covers u n k t).
  { unfold covers. replace ((q * b + k) * u) with (q * (b * u) + k * u) by lia. destruct (Nat.leb_spec (k * u) t), (Nat.leb_spec (q * (b * u) + k * u) (q * (b * u) + t)); cbn; lia. }
  rewrite CS. destruct (covers u n k t) eqn:Ec; [|lra]. replace (q * (b * u) + t - (q * b + k) * u) with (t - k * u) by nia. lra.
Qed.
Lemma average_past u n b q pred l t : 0 < u -> oa_state_size u n <= t -> average u n (q * b) pred l (q * (b * u) + t) = 0%R.
Proof.
  intros Hu Ht. unfold average. rewrite Rsum_0; [lra|]. intros p Hp. unfold covers. unfold oa_state_size in Ht.
  assert (p + 1 <= q * b) by lia. replace (_ && _)%bool with false; [reflexivity|]. symmetry. assert (p * u + n * u <= q * (b * u) + t) by nia. apply Bool.andb_false_iff. right. lia.
Qed.
Lemma average_future u n b q k pred l t : 0 < u -> t < b * u -> average u n ((q + 1) * b + k) pred l (q * (b * u) + t) = average u n ((q + 1) * b) pred l (q * (b * u) + t).
Proof.
  intros Hu Ht. unfold average. rewrite Rsum_app. rewrite (Rsum_0 k); [f_equal; lra|]. intros i Hi. unfold covers. replace (_ && _)%bool with false; [reflexivity|]. symmetry. apply Bool.andb_false_iff. left.
  assert (q * (b * u) + t < ((q + 1) * b + i) * u) by nia. lia.
Qed.
Lemma average_abs u n P pred l t : 0 < n -> (Rabs (average u n P pred l t) <= average u n P (fun p c j => Rabs (pred p c j)) l t /\ 0 <= average u n P (fun p c j => Rabs (pred p c j)) l t)%R.
Proof.
  intros Hn. unfold average. assert (PI : (0 < / INR n)%R) by (apply Rinv_0_lt_compat, lt_0_INR; lia). split.
  - rewrite Rabs_mult, (Rabs_right (/ INR n)) by lra. apply Rmult_le_compat_l; [lra|]. rewrite <- !lsum_seq. eapply Rle_trans; [apply lsum_abs|]. rewrite !lsum_seq. apply Rsum_le. intros p _. destruct (covers u n p t); [lra|rewrite Rabs_R0; lra].
  - apply Rmult_le_pos; [lra|]. apply Rsum_nonneg. intros p _. destruct (covers u n p t); [apply Rabs_pos|lra].
Qed.

(** ** the stream *)
(** calls that have touched the sample at offset t of the state *)
Definition touched (u b n t : nat) : nat := (oa_state_size u n - t + b * u - 1) / (b * u).
Lemma touched_step u b n t : 0 < u -> 0 < b -> t < oa_state_size u n -> touched u b n t = S (touched u b n (b * u + t)).
Proof.
  intros Hu Hb Ht. unfold touched. set (s := oa_state_size u n) in *. assert (P : 0 < b * u) by nia. set (w := b * u) in *. clearbody s w.
  destruct (Nat.le_gt_cases (w + t) s) as [H|H].
  - replace (s - t + w - 1) with (s - (w + t) + w - 1 + 1 * w) by lia. rewrite Nat.div_add by lia. lia.
  - replace (s - (w + t) + w - 1) with (w - 1) by lia. rewrite (Nat.div_small (w - 1)) by lia.
    replace (s - t + w - 1) with (s - t - 1 + 1 * w) by lia. rewrite Nat.div_add, Nat.div_small by lia. lia.
Qed.
Lemma touched_max u b n t : 0 < u -> 0 < b -> touched u b n t <= (n + b - 2) / b.
Proof.
  intros Hu Hb. unfold touched, oa_state_size. set (k := (n + b - 2) / b). assert (P : 0 < b * u) by nia.
  assert (D := Nat.div_mod (n + b - 2) b ltac:(lia)). assert (M := Nat.mod_upper_bound (n + b - 2) b ltac:(lia)). fold k in D.
  assert (C : n - 1 <= b * k) by lia. assert (C2 : (n - 1) * u <= b * u * k) by nia. enough (H : ((n - 1) * u - t + b * u - 1) / (b * u) < S k) by lia.
  apply Nat.div_lt_upper_bound; [lia|]. nia.
Qed.

Section Run32.
Variables (u b n c : nat) (off : option nat) (m : oavg).
Hypothesis Hu : 0 < u. Hypothesis Hb : 0 < b. Hypothesis Hn : 0 < n. Hypothesis Hc : 0 < c.
Hypothesis Hn24 : (Z.of_nat n <= 2 ^ 24)%Z.
Hypothesis Hm : oa_create u b n c off = Ok m.
Hypothesis Hoff : off <> Some 0.
Variables (dn : R -> R) (dv pl : R -> R -> R) (sm : nat -> list nat -> nat -> (nat -> R) -> R).
Hypothesis HA : oa_arith32 n dn dv pl sm.
Let o := match off with Some k => k | None => 0 end.

Lemma wsum_gt0 t : t < b * u + oa_state_size u n -> (0 < wsum u b n t)%R.
Proof using All.
  intros Ht. assert (N := wsum_pos u b n c off m Hu Hb Hn Hc Hm t Ht). assert (P : (0 <= wsum u b n t)%R) by (unfold wsum; apply Rsum_nonneg; intros k _; destruct (covers u n k t); lra). lra.
Qed.

Lemma step32 q x L st pred : shape x = [b; c; L] -> n * u + o <= L -> shape st = [c; oa_state_size u n] ->
  (forall k l j, k < b -> pred (q * b + k) l j = elt x [k; l; L - o - n * u + j]) ->
  let av := fun P => average u n P pred in let aa := fun P => average u n P (fun p c j => Rabs (pred p c j)) in
  (forall l t, l < c -> t < oa_state_size u n -> F32 (elt st [l; t]) /\
     (Rabs (elt st [l; t] - av (q * b)%nat l (q * (b * u) + t)%nat) <= oa_bound b (touched u b n t) (aa (q * b)%nat l (q * (b * u) + t)%nat))%R) ->
  exists out st', oa_forward_g dn dv pl (sm q) m x (Some st) = Ok (out, st') /\ shape out = [c; b * u] /\ shape st' = [c; oa_state_size u n] /\
   (forall l t, l < c -> t < b * u -> F32 (elt out [l; t]) /\
     (Rabs (elt out [l; t] - av ((q + 1) * b)%nat l (q * (b * u) + t)%nat) <= oa_bound b (S (touched u b n t)) (aa ((q + 1) * b)%nat l (q * (b * u) + t)%nat))%R) /\
   (forall l t, l < c -> t < oa_state_size u n -> F32 (elt st' [l; t]) /\
     (Rabs (elt st' [l; t] - av ((q + 1) * b)%nat l ((q + 1) * (b * u) + t)%nat) <= oa_bound b (touched u b n t) (aa ((q + 1) * b)%nat l ((q + 1) * (b * u) + t)%nat))%R).
Proof using All.
  intros Hx HL Hst Hp av aa Inv. destruct HA as (A1 & A2 & A3 & A4).
  destruct (forward_g_ok dn dv pl (sm q) u b n c off m x L st Hu Hb Hn Hc Hm Hx HL Hoff Hst) as (out & st' & E & So & Ss & F & VF & Vo & Vs). fold o in VF.
  exists out, st'. split; [exact E|]. split; [exact So|]. split; [exact Ss|].
  assert (KEY : forall l t, l < c -> t < b * u + oa_state_size u n ->
     F32 (sm q [l; t] b (F l t)) /\ (Rabs (sm q [l; t] b (F l t) - av ((q + 1) * b)%nat l (q * (b * u) + t)%nat) <= oa_bound b (S (touched u b n t)) (aa ((q + 1) * b)%nat l (q * (b * u) + t)%nat))%R).
  { intros l t Hl Ht. destruct (A4 q [l; t] b (F l t) Hb) as (v & Hv & ->). split; [apply fl32_F32|].
    set (s := if t <? oa_state_size u n then elt st [l; t] else 0%R). assert (W := wsum_gt0 t Ht). set (w := wsum u b n t) in *.
    set (xv := fun k => elt x [k; l; L - o - n * u + (t - k * u)]).
    assert (PI : (0 < / INR n)%R) by (apply Rinv_0_lt_compat, lt_0_INR; lia).
    set (y := fun k => if covers u n k t then (s / w + xv k / INR n)%R else 0%R). set (a := fun k => if covers u n k t then (Rabs s / w + Rabs (xv k) / INR n)%R else 0%R).
    assert (BE := batch_err b (F l t) y a (2 * eta32 * (1 + u32))%R v Hb).
    assert (C0 : (0 <= 2 * eta32 * (1 + u32))%R) by (assert (X := eta32_pos); assert (X' := u32_pos); nra). specialize (BE C0).
    assert (PT : forall k, k < b -> grid (F l t k) /\ (Rabs (y k) <= a k)%R /\ (Rabs (F l t k - y k) <= ((1 + u32) ^ 3 - 1) * a k + 2 * eta32 * (1 + u32))%R).
    { intros k Hk. rewrite (VF l t k Hl Ht Hk). unfold y, a. destruct (covers u n k t) eqn:Ec.
      - fold s. fold w. fold (xv k). destruct (term_err n dn dv pl s w (xv k) Hn Hn24 W (A1 _) (A2 _ _) A3) as [TF TE]. split; [apply grid_F32, TF|]. split; [|exact TE].
        eapply Rle_trans; [apply Rabs_triang|]. assert (PW : (0 < / w)%R) by (apply Rinv_0_lt_compat, W). unfold Rdiv. rewrite !Rabs_mult, (Rabs_right (/ w)), (Rabs_right (/ INR n)) by lra. lra.
      - split; [apply (grid_int 0)|]. rewrite Rminus_0_r, Rabs_R0. split; lra. }
    specialize (BE PT Hv).
    assert (SY : Rsum b y = (s + Rsum b (fun k => if covers u n k t then xv k / INR n else 0))%R).
    { rewrite (Rsum_ext _ _ (fun k => (if covers u n k t then 1 else 0) * (s / w) + (if covers u n k t then xv k / INR n else 0))%R) by (intros k Hk; unfold y; destruct (covers u n k t); lra).
      rewrite Rsum_plus, Rsum_scal_r. change (Rsum b (fun k => if covers u n k t then 1%R else 0%R)) with w. f_equal. field. lra. }
    assert (SAb : Rsum b a = (Rabs s + Rsum b (fun k => if covers u n k t then Rabs (xv k) / INR n else 0))%R).
    { rewrite (Rsum_ext _ _ (fun k => (if covers u n k t then 1 else 0) * (Rabs s / w) + (if covers u n k t then Rabs (xv k) / INR n else 0))%R) by (intros k Hk; unfold a; destruct (covers u n k t); lra).
      rewrite Rsum_plus, Rsum_scal_r. change (Rsum b (fun k => if covers u n k t then 1%R else 0%R)) with w. f_equal. field. lra. }
    rewrite SY, SAb in BE. unfold av, aa. rewrite !average_step by assumption.
    rewrite (Rsum_ext b (fun k => if covers u n k t then (pred (q * b + k)%nat l (t - k * u)%nat / INR n)%R else 0%R) (fun k => if covers u n k t then (xv k / INR n)%R else 0%R)).
    2:{ intros k Hk. rewrite Hp by exact Hk. reflexivity. }
    rewrite (Rsum_ext b (fun k => if covers u n k t then (Rabs (pred (q * b + k)%nat l (t - k * u)%nat) / INR n)%R else 0%R) (fun k => if covers u n k t then (Rabs (xv k) / INR n)%R else 0%R)).
    2:{ intros k Hk. rewrite Hp by exact Hk. reflexivity. }
    destruct (average_abs u n (q * b) pred l (q * (b * u) + t) Hn) as [AB AP].
    eapply oa_bound_step; [exact Hb|exact AP| |exact AB| |exact BE].
    - apply Rsum_nonneg. intros k Hk. destruct (covers u n k t); [|lra]. apply Rmult_le_pos; [apply Rabs_pos|lra].
    - unfold s. destruct (Nat.ltb_spec t (oa_state_size u n)) as [Hs|Hs]; [apply Inv; assumption|]. rewrite !average_past by assumption. rewrite Rminus_0_r, Rabs_R0. apply oa_bound_pos. lra. }
  split.
  - intros l t Hl Ht. rewrite Vo by assumption. apply KEY; [exact Hl|lia].
  - intros l t Hl Ht. rewrite Vs by assumption. destruct (KEY l (b * u + t) Hl ltac:(lia)) as [K1 K2]. split; [exact K1|]. rewrite (touched_step u b n t Hu Hb Ht).
    replace ((q + 1) * (b * u) + t) with (q * (b * u) + (b * u + t)) by lia. exact K2.
Qed.

Definition batch32 (x : tensor R) : Prop := exists L, shape x = [b; c; L] /\ n * u + o <= L.
Lemma run32 us0 : forall us pre st, us0 = pre ++ us -> Forall batch32 us ->
  let q := length pre in let pred := prediction us0 b u n o in
  let av := fun P => average u n P pred in let aa := fun P => average u n P (fun p c j => Rabs (pred p c j)) in
  shape st = [c; oa_state_size u n] ->
  (forall l t, l < c -> t < oa_state_size u n -> F32 (elt st [l; t]) /\
     (Rabs (elt st [l; t] - av (q * b)%nat l (q * (b * u) + t)%nat) <= oa_bound b (touched u b n t) (aa (q * b)%nat l (q * (b * u) + t)%nat))%R) ->
  exists outs st', oa_run_g dn dv pl sm q m us (Some st) = Ok (outs, Some st') /\ length outs = length us /\ shape st' = [c; oa_state_size u n] /\
   (forall i out, nth_error outs i = Some out -> shape out = [c; b * u] /\ forall l t, l < c -> t < b * u ->
     (Rabs (elt out [l; t] - av (length us0 * b)%nat l ((q + i) * (b * u) + t)%nat) <= oa_bound b (S (touched u b n t)) (aa (length us0 * b)%nat l ((q + i) * (b * u) + t)%nat))%R) /\
   (forall l t, l < c -> t < oa_state_size u n ->
     (Rabs (elt st' [l; t] - av (length us0 * b)%nat l (length us0 * (b * u) + t)%nat) <= oa_bound b (touched u b n t) (aa (length us0 * b)%nat l (length us0 * (b * u) + t)%nat))%R).
Proof using All.
  induction us as [|x us IH]; intros pre st Hus HF q pred av aa Hst Inv.
  - exists [], st. split; [reflexivity|]. split; [reflexivity|]. split; [exact Hst|]. split; [intros [|i]; discriminate|].
    intros l t Hl Ht. assert (EL : length us0 = q) by (rewrite Hus, app_nil_r; reflexivity). rewrite EL. apply Inv; assumption.
  - inversion HF as [|? ? [L [Hx HL]] HF']; subst.
    assert (Hp : forall k l j, k < b -> pred (q * b + k) l j = elt x [k; l; L - o - n * u + j]).
    { intros k l j Hk. unfold pred, prediction. rewrite (Nat.add_comm (q * b)), Nat.div_add, Nat.div_small, Nat.mod_add, Nat.mod_small by lia.
      cbn [plus]. rewrite nth_error_app2 by lia. unfold q. rewrite Nat.sub_diag. cbn [nth_error]. rewrite Hx. reflexivity. }
    destruct (step32 q x L st pred Hx HL Hst Hp Inv) as (out & st1 & E1 & So & Ss & Vo & Vs).
    destruct (IH (pre ++ [x]) st1) as (outs & st' & E' & L' & S' & V' & W').
    + rewrite <- app_assoc. reflexivity.
    + exact HF'.
    + exact Ss.
    + rewrite app_length. cbn [length]. fold q. fold pred. exact Vs.
    + assert (EQ : length (pre ++ [x]) = S q) by (rewrite app_length; cbn [length]; fold q; lia). rewrite EQ in E', V'. fold pred in V', W'.
      exists (out :: outs), st'. cbn [oa_run_g]. rewrite E1. cbn [bind]. rewrite E'. cbn [bind]. split; [reflexivity|].
      split; [cbn; congruence|]. split; [exact S'|]. split; [|exact W'].
      intros [|i] out' Ho; cbn in Ho.
      * injection Ho as <-. split; [exact So|]. intros l t Hl Ht. rewrite Nat.add_0_r. unfold av, aa.
        replace (length (pre ++ x :: us) * b) with ((q + 1) * b + length us * b) by (rewrite app_length; cbn [length]; fold q; lia).
        rewrite !average_future by assumption. apply Vo; assumption.
      * destruct (V' i out' Ho) as [Sh V]. split; [exact Sh|]. intros l t Hl Ht. replace (q + S i) with (S q + i) by lia. apply V; assumption.
Qed.
End Run32.

(** ** C108 *)
Theorem online_averager_float32 u b n c off m us dn dv pl sm :
  oa_create u b n c off = Ok m -> 0 < u -> 0 < b -> 0 < n -> 0 < c -> off <> Some 0 -> us <> [] -> (Z.of_nat n <= 2 ^ 24)%Z -> (Z.of_nat b <= 2 ^ 24)%Z ->
  oa_arith32 n dn dv pl sm ->
  let o := match off with Some k => k | None => 0 end in
  Forall (good_batch u b n c off) us ->
  let pred := prediction us b u n o in
  let K := (n + b - 2) / b + 1 in
  exists outs st, oa_run_g dn dv pl sm 0 m us None = Ok (outs, Some st) /\ length outs = length us /\
    forall i out, nth_error outs i = Some out -> shape out = [c; b * u] /\
      forall l t, l < c -> t < b * u -> 
        let exact := average u n (length us * b) pred l (i * (b * u) + t)%nat in
        let size := average u n (length us * b) (fun p c j => Rabs (pred p c j)) l (i * (b * u) + t)%nat in
        exists v, get out [l; t] = Some v /\
        (Rabs (v - exact) <= ((1 + u32) ^ ((b + 3) * K) - 1) * size + (1 + u32) ^ ((b + 3) * K) * (2 * INR b * INR K * eta32))%R.
Proof.
  intros Hm Hu Hb Hn Hc Hoff Hne Hn24 Hb24 HA o HF pred K.
  destruct (oa_create_inv u b n c off m Hu Hb Hn Hc Hm) as [w [Em _]].
  destruct (run32 u b n c off m Hu Hb Hn Hc Hn24 Hm Hoff dn dv pl sm HA us us [] (oa_init m)) as (outs & st & E & L & S & V & _).
  - reflexivity.
  - exact HF.
  - rewrite Em. reflexivity.
  - intros l t _ _. rewrite Em. cbn [oa_init elt length]. unfold average. cbn [Nat.mul Rsum]. split; [apply generic_format_0|]. rewrite !Rmult_0_r, Rminus_0_r, Rabs_R0. apply oa_bound_pos. lra.
  - exists outs, st. split; [destruct us as [|x us]; [congruence|]; cbn [oa_run_g length] in *; exact E|]. split; [exact L|].
    intros i out Ho. destruct (V i out Ho) as [So Vo]. split; [exact So|]. intros l t Hl Ht exact size. exists (elt out [l; t]). split; [apply get_inb; rewrite So; cbn; lia|].
    specialize (Vo l t Hl Ht). cbn [length Nat.add] in Vo. fold o in Vo. fold pred in Vo. fold exact in Vo. fold size in Vo. eapply Rle_trans; [exact Vo|].
    destruct (average_abs u n (length us * b) pred l (i * (b * u) + t) Hn) as [_ AP]. fold size in AP. eapply Rle_trans; [apply (oa_bound_mono b _ K); [|exact AP]|].
    + assert (T := touched_max u b n t Hu Hb). unfold K. lia.
    + unfold oa_bound. lra.
Qed.
(** a readable form of the factors *)
Theorem rounding_factor k : (Z.of_nat k <= 2 ^ 23)%Z -> ((1 + u32) ^ k <= 1 + 2 * INR k * u32 /\ (1 + u32) ^ k <= 2)%R.
Proof.
  intros H. assert (U := u32_pos). assert (B : forall j, (Z.of_nat j <= 2 ^ 23)%Z -> (2 * INR j * u32 <= 1)%R).
  { intros j Hj. rewrite INR_IZR_INZ. apply IZR_le in Hj. unfold u32. apply Rmult_le_reg_r with (IZR (2 ^ 24)); [apply IZR_lt; lia|]. rewrite Rmult_assoc, Rinv_l, Rmult_1_l, Rmult_1_r by (apply IZR_neq; lia).
    change (2 ^ 24)%Z with (2 * 2 ^ 23)%Z. rewrite mult_IZR. lra. }
  assert (G : ((1 + u32) ^ k <= 1 + 2 * INR k * u32)%R).
  { induction k as [|k IH]; [cbn; lra|]. assert (I := IH ltac:(lia)). assert (B1 := B k ltac:(lia)). rewrite S_INR. cbn [pow].
    assert (K0 := pos_INR k). assert (M : ((1 + u32) * (1 + u32) ^ k <= (1 + u32) * (1 + 2 * INR k * u32))%R) by (apply Rmult_le_compat_l; lra). nra. }
  split; [exact G|]. specialize (B k H). lra.
Qed.
(** hence, for (batch_size + 3) * (ceil((num_updates - 1) / batch_size) + 1) <= 2^23 *)
Theorem online_averager_float32_simple u b n c off m us dn dv pl sm :
  oa_create u b n c off = Ok m -> 0 < u -> 0 < b -> 0 < n -> 0 < c -> off <> Some 0 -> us <> [] -> (Z.of_nat n <= 2 ^ 24)%Z -> (Z.of_nat b <= 2 ^ 24)%Z ->
  oa_arith32 n dn dv pl sm ->
  let o := match off with Some k => k | None => 0 end in
  Forall (good_batch u b n c off) us ->
  let pred := prediction us b u n o in
  let K := (n + b - 2) / b + 1 in
  (Z.of_nat ((b + 3) * K) <= 2 ^ 23)%Z ->
  exists outs st, oa_run_g dn dv pl sm 0 m us None = Ok (outs, Some st) /\ length outs = length us /\
    forall i out, nth_error outs i = Some out -> shape out = [c; b * u] /\
      forall l t, l < c -> t < b * u ->
        exists v, get out [l; t] = Some v /\
        (Rabs (v - average u n (length us * b) pred l (i * (b * u) + t)%nat) <=
           2 * INR ((b + 3) * K) * u32 * average u n (length us * b) (fun p c j => Rabs (pred p c j)) l (i * (b * u) + t)%nat + 4 * INR b * INR K * eta32)%R.
Proof.
  intros Hm Hu Hb Hn Hc Hoff Hne Hn24 Hb24 HA o HF pred K HK.
  destruct (online_averager_float32 u b n c off m us dn dv pl sm Hm Hu Hb Hn Hc Hoff Hne Hn24 Hb24 HA HF) as (outs & st & E & L & V).
  exists outs, st. split; [exact E|]. split; [exact L|]. intros i out Ho. destruct (V i out Ho) as [So Vo]. split; [exact So|]. intros l t Hl Ht. destruct (Vo l t Hl Ht) as (v & G & B). exists v. split; [exact G|].
  eapply Rle_trans; [exact B|]. fold o. fold pred. fold K. destruct (rounding_factor _ HK) as [R1 R2]. destruct (average_abs u n (length us * b) pred l (i * (b * u) + t) Hn) as [_ AP].
  set (A := average u n (length us * b) (fun p c j => Rabs (pred p c j)) l (i * (b * u) + t)) in *. set (g := ((1 + u32) ^ ((b + 3) * K))%R) in *. assert (ET := eta32_pos).
  assert (P : (0 <= 2 * INR b * INR K * eta32)%R) by (repeat apply Rmult_le_pos; try apply pos_INR; lra). apply Rplus_le_compat.
  - apply Rmult_le_compat_r; [exact AP|lra].
  - replace (4 * INR b * INR K * eta32)%R with (2 * (2 * INR b * INR K * eta32))%R by ring. apply Rmult_le_compat_r; assumption.
Qed.
(** such arithmetics exist: the CPU's division and double-precision running sum *)
Example arith32_ex n : oa_arith32 n (fun v => fl32 (v / INR n)) (fun a w => fl32 (a / w)) (fun a c => fl32 (a + c)) (fun _ _ b f => fl32 (run64 f (b - 1))).
Proof.
  split; [intros v; left; reflexivity|]. split; [reflexivity|]. split; [reflexivity|]. intros q i b f Hb. eexists. split; [|reflexivity]. replace b with (S (b - 1)) at 1 by lia. apply run64_summed.
Qed.
(** the hypotheses hold for instance for one update of 2 samples, 3 updates, batches of 2 *)
Example averager32_ex : exists m, oa_create 2 2 3 1 None = Ok m /\ Forall (good_batch 2 2 3 1 None) [mk [2; 1; 6] (fun _ => 1%R)] /\ (Z.of_nat ((2 + 3) * ((3 + 2 - 2) / 2 + 1)) <= 2 ^ 23)%Z.
Proof.
  destruct (oa_create 2 2 3 1 None) as [m|e] eqn:E; [|vm_compute in E; discriminate]. exists m. split; [reflexivity|]. split; [|vm_compute; discriminate].
  apply List.Forall_cons; [|apply List.Forall_nil]. exists 6. split; [reflexivity|cbn; lia].
Qed.
