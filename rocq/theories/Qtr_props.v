(** Property C47: the Q-transform for one Q: frequencies, tiles, interpolation. *)
From Coq Require Import String Sorted.
From Verif Require Import Base Tensor Rutil Slicing_model Autoenc_model Norm_model Norm_props Dft Gw_model Gw_props Snr_props Spectral_model Spectral_props Trans_model Decim_props Whiten_props Qt_model Qt_props Qt2_props.
From Coquelicot Require Import Complex.
Local Open Scope R_scope.

(** ** torch.unique *)
Lemma uinsert_in x y l : In y (uinsert x l) <-> y = x \/ In y l.
Proof.
  induction l as [|a l IH]; cbn; [intuition|]. destruct (Req_EM_T x a) as [->|]; cbn; [intuition|].
  destruct (Rlt_dec x a); cbn; [intuition|]. rewrite IH. intuition.
Qed.
Lemma unique_in y l : In y (unique l) <-> In y l.
Proof. induction l as [|a l IH]; cbn; [tauto|]. rewrite uinsert_in, IH. intuition. Qed.
Lemma uinsert_sorted x l : StronglySorted Rlt l -> StronglySorted Rlt (uinsert x l).
Proof.
  induction 1 as [|a l SS IH HF]; cbn; [repeat constructor|]. destruct (Req_EM_T x a); [constructor; assumption|].
  destruct (Rlt_dec x a).
  - constructor; [constructor; assumption|]. constructor; [assumption|]. eapply Forall_impl; [|exact HF]. intros; lra.
  - constructor; [assumption|]. apply Forall_forall. intros y Hy. apply uinsert_in in Hy. rewrite Forall_forall in HF.
    destruct Hy as [->|Hy]; [lra|apply HF; assumption].
Qed.
Lemma unique_sorted l : StronglySorted Rlt (unique l).
Proof. induction l; cbn; [constructor|apply uinsert_sorted; assumption]. Qed.

(** ** the frequencies *)
(** the i-th of n geometric midpoints of [lo, hi] *)
Definition geo_mid (lo hi : R) (n i : nat) : R := lo * Rpower (hi / lo) ((INR i + / 2) / INR n).
(** v is x rounded down to a multiple of 1/dur *)
Definition on_grid_below (dur x v : R) : Prop := exists k : Z, v = IZR k / dur /\ IZR k / dur <= x < (IZR k + 1) / dur.
(** the cumulative mismatch between lo and hi, and the mismatch allowed per step *)
Definition cum_mismatch (q lo hi : R) : R := ln (hi / lo) * sqrt (2 + q ^ 2) / 2.
Definition step_mismatch (mm : R) : R := 2 * sqrt (mm / 3).
(** the number of steps: the least positive number of equal steps each no larger than allowed *)
Definition least_steps (total step : R) (n : nat) : Prop :=
  (0 < n)%nat /\ total <= INR n * step /\ (forall n', (0 < n')%nat -> total <= INR n' * step -> (n <= n')%nat).
Lemma ceil_steps total step : 0 < step -> least_steps total step (Z.to_nat (Z.max 1 (rceil (total / step)))).
Proof.
  intros Hs. destruct (rceil_spec (total / step)) as [C1 C2]. set (z := rceil (total / step)) in *.
  assert (E : total = total / step * step) by (field; lra).
  split; [lia|]. split.
  - rewrite INR_IZR_INZ, Z2Nat.id by lia. rewrite E. apply Rmult_le_compat_r; [lra|].
    apply Rle_trans with (IZR z); [assumption|]. apply IZR_le. lia.
  - intros n' H' L. rewrite INR_IZR_INZ in L. assert (total / step <= IZR (Z.of_nat n')).
    { apply (Rmult_le_reg_r step); [assumption|]. rewrite <- E. assumption. }
    assert (z < Z.of_nat n' + 1)%Z by (apply lt_IZR; rewrite plus_IZR; lra). lia.
Qed.
Lemma floor_to_grid dur x : 0 < dur -> on_grid_below dur x (floor_to (1 / dur) x).
Proof.
  intros Hd. unfold floor_to, on_grid_below. exists (Int_part (x / (1 / dur))). destruct (base_Int_part (x / (1 / dur))) as [A B].
  assert (E : x / (1 / dur) = x * dur) by (field; lra). rewrite E in *. set (k := IZR (Int_part (x * dur))) in *.
  split; [field; lra|]. split.
  - apply (Rmult_le_reg_r dur); [assumption|]. replace (k / dur * dur) with k by (field; lra). lra.
  - apply (Rmult_lt_reg_r dur); [assumption|]. replace ((k + 1) / dur * dur) with (k + 1) by (field; lra). lra.
Qed.
Lemma sqrt2q_pos q : 0 < sqrt (2 + q ^ 2). Proof. apply sqrt_lt_R0. nra. Qed.
Lemma freq_cand_geo q dur mm lo hi n i : 0 < lo -> 0 < hi -> n = Z.to_nat (nfreq q mm lo hi) ->
  freq_cand q dur mm lo hi i = floor_to (1 / dur) (geo_mid lo hi n i).
Proof.
  intros Hl Hh ->. unfold freq_cand, geo_mid. f_equal. f_equal. unfold Rpower. rewrite ln_exp. f_equal.
  assert (HN : (1 <= nfreq q mm lo hi)%Z) by (unfold nfreq; lia). rewrite (INR_IZR_INZ (Z.to_nat _)), Z2Nat.id by lia.
  apply IZR_le in HN. unfold fcum_mismatch. pose proof (sqrt2q_pos q). field. lra.
Qed.
(** the frequencies of a transform: strictly increasing; exactly the geometric midpoints of the range, cut into the least
    number of steps that meets the mismatch, each rounded down to the frequency grid of the data *)
Theorem qtr_frequencies q dur mm lo hi : 0 < dur -> 0 < mm -> 0 < lo -> 0 < hi ->
  exists n fs, get_freqs q dur mm lo hi = Ok fs /\ least_steps (cum_mismatch q lo hi) (step_mismatch mm) n /\
    StronglySorted Rlt fs /\ fs <> [] /\ (List.length fs <= n)%nat /\
    (forall f, In f fs <-> exists i, (i < n)%nat /\ on_grid_below dur (geo_mid lo hi n i) f).
Proof.
  intros Hd Hm Hl Hh. unfold get_freqs. assert (Hr : 0 < hi / lo) by (apply Rdiv_lt_0_compat; assumption).
  destruct (Rle_dec (hi / lo) 0) as [?|_]; [lra|]. set (n := Z.to_nat (nfreq q mm lo hi)).
  assert (LS : least_steps (cum_mismatch q lo hi) (step_mismatch mm) n).
  { unfold n, nfreq. apply ceil_steps. unfold deltam. assert (0 < sqrt (mm / 3)) by (apply sqrt_lt_R0; lra). lra. }
  exists n. eexists. split; [reflexivity|]. split; [exact LS|]. split; [apply unique_sorted|].
  assert (IN : forall f, In f (unique (map (freq_cand q dur mm lo hi) (seq 0 n))) <-> exists i, (i < n)%nat /\ on_grid_below dur (geo_mid lo hi n i) f).
  { intros f. rewrite unique_in, in_map_iff. split.
    - intros [i [<- Hi]]. apply in_seq in Hi. exists i. split; [lia|]. rewrite (freq_cand_geo q dur mm lo hi n i Hl Hh eq_refl). apply floor_to_grid. assumption.
    - intros [i [Hi G]]. exists i. split; [|apply in_seq; lia]. rewrite (freq_cand_geo q dur mm lo hi n i Hl Hh eq_refl).
      destruct G as [k [-> B]]. destruct (floor_to_grid dur (geo_mid lo hi n i) Hd) as [k' [-> B']].
      assert (Q : forall a b, IZR a / dur <= geo_mid lo hi n i < (IZR a + 1) / dur -> IZR b / dur <= geo_mid lo hi n i < (IZR b + 1) / dur -> (a < b + 1)%Z).
      { intros a b [A1 A2] [B1 B2]. apply lt_IZR. rewrite plus_IZR. apply (Rmult_lt_reg_r (/ dur)); [apply Rinv_0_lt_compat; assumption|]. unfold Rdiv in *. lra. }
      assert (k = k') by (pose proof (Q k k' B B'); pose proof (Q k' k B' B); lia). subst; reflexivity. }
  split; [|split; [|exact IN]].
  - destruct LS as [Hn _]. intros E. rewrite E in IN. destruct (IN (floor_to (1 / dur) (geo_mid lo hi n 0))) as [_ IN2].
    apply IN2. exists 0%nat. split; [assumption|apply floor_to_grid; assumption].
  - assert (U : forall l : list R, (List.length (unique l) <= List.length l)%nat).
    { induction l as [|a l IH]; cbn; [lia|]. assert (V : forall x m, (List.length (uinsert x m) <= S (List.length m))%nat).
      { intros x m. induction m as [|b m IHm]; cbn; [lia|]. destruct (Req_EM_T x b); cbn; [lia|]. destruct (Rlt_dec x b); cbn; lia. }
      specialize (V a (unique l)). fold (unique l). lia. }
    etransitivity; [apply U|]. rewrite map_length, seq_length. reflexivity.
Qed.
(** all frequencies lie between lo - 1/dur and hi, and the midpoints between lo and hi *)
Lemma geo_mid_bounds lo hi n i : 0 < lo -> lo <= hi -> (i < n)%nat -> lo <= geo_mid lo hi n i <= hi.
Proof.
  intros Hl Hh Hi. unfold geo_mid. assert (Hn : 0 < INR n) by (apply INR_pos; lia). pose proof (pos_INR i).
  assert (INR i + 1 <= INR n) by (rewrite <- S_INR; apply le_INR; lia).
  set (u := (INR i + / 2) / INR n). assert (Hu : 0 <= u <= 1).
  { unfold u. split; [apply Rmult_le_pos; [lra|apply Rlt_le, Rinv_0_lt_compat; assumption]|].
    apply (Rmult_le_reg_r (INR n)); [assumption|]. unfold Rdiv. rewrite Rmult_assoc, Rinv_l by lra. lra. }
  assert (Hr : 1 <= hi / lo) by (apply (Rmult_le_reg_r lo); [assumption|]; unfold Rdiv; rewrite Rmult_assoc, Rinv_l by lra; lra).
  assert (L0 : 0 <= ln (hi / lo)) by (rewrite <- ln_1; destruct Hr as [Hr| <-]; [apply Rlt_le, ln_increasing; lra|lra]).
  assert (E1 : 1 <= Rpower (hi / lo) u).
  { unfold Rpower. rewrite <- exp_0. assert (0 <= u * ln (hi / lo)) by (apply Rmult_le_pos; lra).
    destruct H1 as [H1| <-]; [apply Rlt_le, exp_increasing; assumption|lra]. }
  assert (E2 : Rpower (hi / lo) u <= hi / lo).
  { unfold Rpower. rewrite <- (exp_ln (hi / lo)) at 2 by lra. assert (u * ln (hi / lo) <= ln (hi / lo)) by nra.
    destruct H1 as [H1| ->]; [apply Rlt_le, exp_increasing; assumption|lra]. }
  split; [nra|]. replace hi with (lo * (hi / lo)) at 2 by (field; lra). apply Rmult_le_compat_l; lra.
Qed.
Theorem qtr_frequency_range q dur mm lo hi fs f : 0 < dur -> 0 < mm -> 0 < lo -> lo <= hi -> get_freqs q dur mm lo hi = Ok fs ->
  In f fs -> lo - 1 / dur < f <= hi /\ exists k : Z, f * dur = IZR k.
Proof.
  intros Hd Hm Hl Hh E Hf. destruct (qtr_frequencies q dur mm lo hi Hd Hm Hl ltac:(lra)) as [n [fs' [E' [_ [_ [_ [_ IN]]]]]]].
  rewrite E in E'. injection E' as <-. apply IN in Hf. destruct Hf as [i [Hi [k [-> [B1 B2]]]]].
  pose proof (geo_mid_bounds lo hi n i Hl Hh Hi). split; [|exists k; field; lra].
  replace ((IZR k + 1) / dur) with (IZR k / dur + 1 / dur) in B2 by (field; lra). lra.
Qed.

(** ** construction *)
(** the default limits, and the meaning of the largest allowed q *)
Definition default_lo (q dur : R) : R := 50 * q / (2 * PI * dur).
Definition default_hi (q sr : R) : R := sr / 2 / (1 + sqrt 11 / q).
Theorem max_q_meaning q dur sr : 0 < q -> 0 < dur -> 0 < sr -> (q < max_q dur sr <-> default_lo q dur < default_hi q sr).
Proof.
  intros Hq Hd Hs. unfold max_q, default_lo, default_hi. pose proof PI_RGT_0 as HP. pose proof sqrt11_pos as H11.
  replace (sr / 2 / (1 + sqrt 11 / q)) with (sr * q / (2 * (q + sqrt 11))) by (field; lra).
  assert (A : 0 < 2 * PI * dur) by (apply Rmult_lt_0_compat; lra). assert (B : 0 < 2 * (q + sqrt 11)) by lra.
  assert (K : 50 * q / (2 * PI * dur) < sr * q / (2 * (q + sqrt 11)) <-> 50 * q * (2 * (q + sqrt 11)) < sr * q * (2 * PI * dur)).
  { split; intros L.
    - apply (Rmult_lt_compat_r (2 * PI * dur * (2 * (q + sqrt 11)))) in L; [|apply Rmult_lt_0_compat; assumption].
      replace (50 * q / (2 * PI * dur) * (2 * PI * dur * (2 * (q + sqrt 11)))) with (50 * q * (2 * (q + sqrt 11))) in L by (field; lra).
      replace (sr * q / (2 * (q + sqrt 11)) * (2 * PI * dur * (2 * (q + sqrt 11)))) with (sr * q * (2 * PI * dur)) in L by (field; lra). assumption.
    - apply (Rmult_lt_reg_r (2 * PI * dur * (2 * (q + sqrt 11)))); [apply Rmult_lt_0_compat; assumption|].
      replace (50 * q / (2 * PI * dur) * (2 * PI * dur * (2 * (q + sqrt 11)))) with (50 * q * (2 * (q + sqrt 11))) by (field; lra).
      replace (sr * q / (2 * (q + sqrt 11)) * (2 * PI * dur * (2 * (q + sqrt 11)))) with (sr * q * (2 * PI * dur)) by (field; lra). assumption. }
  rewrite K. clear K A B. set (p := PI * dur * sr). replace (sr * q * (2 * PI * dur)) with (2 * q * p) by (unfold p; ring).
  replace (50 * q * (2 * (q + sqrt 11))) with (2 * q * (50 * (q + sqrt 11))) by ring.
  split; intros L; [apply Rmult_lt_compat_l; lra|]. apply Rmult_lt_reg_l in L; lra.
Qed.
Definition known_method (s : string) : option imethod :=
  if string_dec s "bilinear" then Some Bilinear else if string_dec s "bicubic" then Some Bicubic else if string_dec s "spline" then Some Spline else None.
(** the limits in force: a non-positive lower limit and an infinite upper limit are replaced by the defaults *)
Definition resolved_lo (q dur : R) (fr : option frange_arg) : R :=
  match fr with None => default_lo q dur | Some (lo, _) => if Rle_dec lo 0 then default_lo q dur else lo end.
Definition resolved_hi (q sr : R) (fr : option frange_arg) : R :=
  match fr with None | Some (_, None) => default_hi q sr | Some (_, Some hi) => hi end.
Theorem qtr_construction dur sr q fr mm method : 0 < dur -> 0 < sr -> 0 < q -> 0 < mm ->
  (max_q dur sr <= q -> qtr_create dur sr q fr mm method = Err ValueError) /\
  (known_method method = None -> qtr_create dur sr q fr mm method = Err ValueError) /\
  (resolved_hi q sr fr <= 0 -> qtr_create dur sr q fr mm method = Err ValueError) /\
  (q < max_q dur sr -> forall im, known_method method = Some im -> 0 < resolved_hi q sr fr ->
     exists fs, get_freqs q dur mm (resolved_lo q dur fr) (resolved_hi q sr fr) = Ok fs /\ fs <> [] /\
       qtr_create dur sr q fr mm method = Ok (mkqtr q (resolved_lo q dur fr, resolved_hi q sr fr) fs (map (fun f => mkqt q f dur sr mm) fs) im)).
Proof.
  intros Hd Hs Hq Hm.
  assert (U : qtr_create dur sr q fr mm method = if Rle_dec (max_q dur sr) q then Err ValueError else
     let* m := match known_method method with Some im => Ok im | None => Err ValueError end in
     let* freqs := get_freqs q dur mm (resolved_lo q dur fr) (resolved_hi q sr fr) in
     Ok (mkqtr q (resolved_lo q dur fr, resolved_hi q sr fr) freqs (map (fun f => mkqt q f dur sr mm) freqs) m)).
  { assert (PM : parse_method method = match known_method method with Some im => Ok im | None => Err ValueError end).
    { unfold parse_method, known_method. repeat destruct (string_dec _ _); reflexivity. }
    assert (DD : sr / 2 / (1 + 1 / qprime q) = default_hi q sr).
    { unfold default_hi, qprime. f_equal. f_equal. pose proof sqrt11_pos. field. lra. }
    unfold qtr_create. rewrite PM, DD. destruct fr as [[l [h|]]|]; cbn [fst snd resolved_lo resolved_hi]; try reflexivity.
    destruct (Rle_dec 0 0) as [_|]; [reflexivity|lra]. }
  rewrite U. clear U.
  assert (HL : 0 < resolved_lo q dur fr).
  { assert (0 < default_lo q dur) by (unfold default_lo; pose proof PI_RGT_0; apply Rdiv_lt_0_compat; [lra|apply Rmult_lt_0_compat; lra]).
    unfold resolved_lo. destruct fr as [[l h]|]; [destruct (Rle_dec l 0); lra|assumption]. }
  repeat split.
  - intros H. destruct (Rle_dec (max_q dur sr) q); [reflexivity|contradiction].
  - intros ->. destruct (Rle_dec _ _); reflexivity.
  - intros H. destruct (Rle_dec (max_q dur sr) q); [reflexivity|]. destruct (known_method method); cbn [bind]; [|reflexivity].
    unfold get_freqs. destruct (Rle_dec _ 0) as [|N]; [reflexivity|]. exfalso. apply N.
    assert (0 < / resolved_lo q dur fr) by (apply Rinv_0_lt_compat; assumption). unfold Rdiv. nra.
  - intros H im -> HH. destruct (Rle_dec (max_q dur sr) q) as [?|_]; [lra|]. cbn [bind].
    destruct (qtr_frequencies q dur mm _ _ Hd Hm HL HH) as [n [fs [E [_ [_ [NE _]]]]]]. exists fs. rewrite E. cbn [bind]. auto.
Qed.
(** the limits are written back into the caller's list: building a second transform from the same list gives it the
    first one's limits, not its own defaults *)
Theorem qtr_shared_frange dur sr q1 q2 mm method m1 : 0 < dur -> 0 < sr -> 0 < q1 -> q1 <> q2 -> 0 < q2 -> 0 < mm ->
  qtr_create dur sr q1 (Some (0, None)) mm method = Ok m1 -> q2 < max_q dur sr ->
  exists m2 m2', qtr_create dur sr q2 (Some (fst (tr_frange m1), Some (snd (tr_frange m1)))) mm method = Ok m2 /\
    qtr_create dur sr q2 (Some (0, None)) mm method = Ok m2' /\ tr_frange m2 = tr_frange m1 /\ tr_frange m2 <> tr_frange m2'.
Proof.
  intros Hd Hs H1 Hne H2 Hm E1 L2.
  destruct (qtr_construction dur sr q1 (Some (0, None)) mm method Hd Hs H1 Hm) as [A1 [A2 [A3 A4]]].
  assert (L1 : q1 < max_q dur sr) by (destruct (Rlt_dec q1 (max_q dur sr)); [assumption|rewrite A1 in E1 by lra; discriminate]).
  destruct (known_method method) as [im|] eqn:K; [|rewrite A2 in E1 by reflexivity; discriminate].
  assert (R0 : forall q, resolved_lo q dur (Some (0, None)) = default_lo q dur) by (intros q; unfold resolved_lo; destruct (Rle_dec 0 0); [reflexivity|lra]).
  assert (Hhi : forall q, 0 < q -> 0 < default_hi q sr).
  { intros q Hq. unfold default_hi. pose proof sqrt11_pos. assert (0 < sqrt 11 / q) by (apply Rdiv_lt_0_compat; assumption).
    apply Rdiv_lt_0_compat; lra. }
  assert (Hlo : forall q, 0 < q -> 0 < default_lo q dur).
  { intros q Hq. unfold default_lo. pose proof PI_RGT_0. apply Rdiv_lt_0_compat; [lra|apply Rmult_lt_0_compat; lra]. }
  destruct (A4 L1 im eq_refl (Hhi q1 H1)) as [fs1 [G1 [_ C1]]]. rewrite C1 in E1. injection E1 as <-. cbn [tr_frange fst snd resolved_hi]. destruct (Rle_dec 0 0) as [_|?]; [|lra].
  destruct (qtr_construction dur sr q2 (Some (default_lo q1 dur, Some (default_hi q1 sr))) mm method Hd Hs H2 Hm) as [_ [_ [_ B4]]].
  destruct (B4 L2 im K (Hhi q1 H1)) as [fs2 [_ [_ C2]]].
  destruct (qtr_construction dur sr q2 (Some (0, None)) mm method Hd Hs H2 Hm) as [_ [_ [_ D4]]].
  destruct (D4 L2 im K (Hhi q2 H2)) as [fs3 [_ [_ C3]]].
  eexists. eexists. split; [exact C2|]. split; [exact C3|]. cbn [tr_frange]. rewrite R0. unfold resolved_lo, resolved_hi.
  destruct (Rle_dec (default_lo q1 dur) 0) as [L|_]; [pose proof (Hlo q1 H1); lra|]. split; [reflexivity|].
  intros E. injection E as E _. apply Hne. unfold default_lo in E. pose proof PI_RGT_0.
  assert (50 * q1 = 50 * q2); [|lra]. apply (Rmult_eq_reg_r (/ (2 * PI * dur))); [exact E|]. apply Rinv_neq_0_compat. apply Rgt_not_eq. apply Rmult_lt_0_compat; lra.
Qed.
