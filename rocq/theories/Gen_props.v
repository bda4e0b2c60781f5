(** Property C58, part 2: the conditioned spectrum, the time series and the batch. *)
From Coq Require Import Reals Lra ZArith Lia.
From Coquelicot Require Import Coquelicot.
From Verif Require Import Base Tensor Rutil Dft Gw_model Gw_props Conv_model Conv_props Wave_model Wave_props Bounds_props Qt_model Qt_props Qt2_props Iir_model Iir_props Gen_model Gen_row.
Local Open Scope R_scope.

Lemma leR_spec x y : leR x y = true <-> x <= y.
Proof. unfold leR. destruct (Rle_dec x y); split; intros; congruence || lra. Qed.
Lemma ltR_spec x y : ltR x y = true <-> x < y.
Proof. unfold ltR. destruct (Rlt_dec x y); split; intros; congruence || lra. Qed.
Lemma fold_Rmax l x : x <= fold_left Rmax l x /\ (forall y, In y l -> y <= fold_left Rmax l x) /\ In (fold_left Rmax l x) (x :: l).
Proof.
  revert x. induction l as [|a l IH]; intros x; cbn [fold_left]; [split; [lra|split; [intros y []|left; reflexivity]]|].
  destruct (IH (Rmax x a)) as (A & B & C0). pose proof (Rmax_l x a). pose proof (Rmax_r x a). split; [lra|]. split.
  - intros y [<-|Hy]; [lra|apply B, Hy].
  - destruct C0 as [E|E]; [rewrite <- E; unfold Rmax; destruct (Rle_dec x a); [right; left|left]; reflexivity|right; right; exact E].
Qed.
Lemma fold_Rmin l x : fold_left Rmin l x <= x /\ (forall y, In y l -> fold_left Rmin l x <= y) /\ In (fold_left Rmin l x) (x :: l).
Proof.
  revert x. induction l as [|a l IH]; intros x; cbn [fold_left]; [split; [lra|split; [intros y []|left; reflexivity]]|].
  destruct (IH (Rmin x a)) as (A & B & C0). pose proof (Rmin_l x a). pose proof (Rmin_r x a). split; [lra|]. split.
  - intros y [<-|Hy]; [lra|apply B, Hy].
  - destruct C0 as [E|E]; [rewrite <- E; unfold Rmin; destruct (Rle_dec x a); [left|right; left]; reflexivity|right; right; exact E].
Qed.
Lemma lmax_spec l : l <> [] -> exists m, lmax l = Ok m /\ In m l /\ forall y, In y l -> y <= m.
Proof. destruct l as [|x l]; intros H; [contradiction|]. destruct (fold_Rmax l x) as (A & B & C0). eexists. split; [reflexivity|]. split; [exact C0|]. intros y [<-|Hy]; [exact A|apply B, Hy]. Qed.
Lemma lmin_spec l : l <> [] -> exists m, lmin l = Ok m /\ In m l /\ forall y, In y l -> m <= y.
Proof. destruct l as [|x l]; intros H; [contradiction|]. destruct (fold_Rmin l x) as (A & B & C0). eexists. split; [reflexivity|]. split; [exact C0|]. intros y [<-|Hy]; [exact A|apply B, Hy]. Qed.
Lemma fold_Zmax l x : (x <= fold_left Z.max l x)%Z /\ (forall y, In y l -> (y <= fold_left Z.max l x)%Z) /\ In (fold_left Z.max l x) (x :: l).
Proof.
  revert x. induction l as [|a l IH]; intros x; cbn [fold_left]; [split; [lia|split; [intros y []|left; reflexivity]]|].
  destruct (IH (Z.max x a)) as (A & B & C0). split; [lia|]. split.
  - intros y [<-|Hy]; [lia|apply B, Hy].
  - destruct C0 as [E|E]; [rewrite <- E; destruct (Z.max_spec x a) as [[_ ->]|[_ ->]]; [right; left|left]; reflexivity|right; right; exact E].
Qed.
(** position of index k among the selected ones *)
Lemma filter_rank (P : nat -> bool) n k : (k < n)%nat -> P k = true -> nth_error (filter P (seq 0 n)) (List.length (filter P (seq 0 k))) = Some k.
Proof.
  intros Hk HP. replace n with (k + S (n - k - 1))%nat by lia. rewrite seq_app, filter_app. rewrite nth_error_app2 by lia. rewrite Nat.sub_diag. cbn [seq filter Nat.add]. rewrite HP. reflexivity.
Qed.

(** ** the grid *)
Section Batch.
Variables (g : gen) (rs : list row).
Hypothesis Hg : good_gen g.
Hypothesis Hne : rs <> [].
Hypothesis Hrs : forall r, In r rs -> good_row r.
Let Hs : 2 <= g_sr g. Proof. apply Hg. Qed.
Let Hf : 0 < g_fmin g. Proof. apply Hg. Qed.
Let Hn : g_fmin g <= g_sr g / 2. Proof. apply Hg. Qed.

(** the frequency resolution is sample_rate / L for a power of two L that is at least as long as every signal of the batch and at most twice the longest *)
Theorem resolution : exists p : nat, delta_f g rs = Ok (g_sr g / INR (2 ^ p)) /\
  (forall r, In r rs -> (rround (row_time g r * g_sr g) <= Z.of_nat (2 ^ p))%Z) /\
  (exists r, In r rs /\ row_chirplen g r = INR (2 ^ p) /\ (Z.of_nat (2 ^ p) < 2 * rround (row_time g r * g_sr g))%Z).
Proof.
  unfold delta_f. destruct (lmax_spec (map (row_chirplen g) rs)) as (m & E & I & U); [destruct rs; [contradiction|discriminate]|]. rewrite E. cbn [bind].
  apply in_map_iff in I as (r0 & E0 & I0). destruct (chirplen_spec g r0 (Hrs r0 I0) Hf Hs Hn) as (p & Ep & Lp & _). exists p.
  rewrite <- E0, Ep. split; [|split].
  - f_equal. field. split; [apply not_0_INR, Nat.pow_nonzero; lia|lra].
  - intros r Hr. destruct (chirplen_spec g r (Hrs r Hr) Hf Hs Hn) as (p' & Ep' & Lp' & _). specialize (U (row_chirplen g r) (in_map _ _ _ Hr)). rewrite <- E0, Ep, Ep' in U. apply INR_le in U. lia.
  - exists r0. split; [exact I0|]. split; [exact Ep|lia].
Qed.

Variable L : nat.
Hypothesis HL : forall r, In r rs -> (rround (row_time g r * g_sr g) <= Z.of_nat L)%Z.
Hypothesis HP2 : exists p, L = (2 ^ p)%nat.
Let df := g_sr g / INR L.
Let n := num_freqs g df.
Lemma long_enough r : In r rs -> row_time g r * g_sr g - / 2 <= INR L.
Proof. intros Hr. specialize (HL r Hr). pose proof (rround_near (row_time g r * g_sr g)). apply IZR_le in HL. rewrite <- INR_IZR_INZ in HL. lra. Qed.
Lemma cycles6 r : In r rs -> 6 * (g_sr g / row_fmin g r) - / 2 < INR L /\ 2 <= g_sr g / row_fmin g r.
Proof.
  intros Hr. pose proof (long_enough r Hr) as K. pose proof (row_time_long g r (Hrs r Hr) Hf) as T. destruct (fmin_range g r (Hrs r Hr) Hf) as (F0 & _ & F2). split.
  - apply (Rmult_lt_compat_r (g_sr g)) in T; [|lra]. replace (6 / row_fmin g r * g_sr g) with (6 * (g_sr g / row_fmin g r)) in T by (field; lra). lra.
  - apply Rmult_le_reg_r with (row_fmin g r); [exact F0|]. replace (g_sr g / row_fmin g r * row_fmin g r) with (g_sr g) by (field; lra). lra.
Qed.
Lemma L16 : (16 <= L)%nat.
Proof.
  destruct rs as [|r rs'] eqn:E; [contradiction|]. rewrite <- E in *. assert (I : In r rs) by (rewrite E; left; reflexivity). destruct (cycles6 r I) as [A B]. destruct HP2 as [p Ep].
  assert (11 < L)%nat. { apply INR_lt. replace (INR 11) with 11 by (cbn; lra). lra. }
  destruct (le_lt_dec 4 p) as [G|G]; [rewrite Ep; change 16%nat with (2 ^ 4)%nat; apply Nat.pow_le_mono_r; lia|]. assert (2 ^ p <= 2 ^ 3)%nat by (apply Nat.pow_le_mono_r; lia). cbn in H0. lia.
Qed.
Lemma L_nz : INR L <> 0.
Proof. apply not_0_INR. pose proof L16. lia. Qed.
Lemma df_pos : 0 < df.
Proof. unfold df. apply Rdiv_lt_0_compat; [lra|]. apply lt_0_INR. pose proof L16. lia. Qed.
Lemma inv_df : / df = INR L / g_sr g.
Proof. unfold df. field. pose proof L_nz. repeat split; solve [assumption|lra]. Qed.
Theorem taper_nonempty r : In r rs -> (rround (row_fstart g r / df) < rround (row_fmin g r / df))%Z.
Proof.
  intros Hr. apply taper_gap; try assumption; [apply Hrs, Hr|apply df_pos|]. rewrite inv_df. apply Rmult_le_reg_r with (g_sr g); [lra|].
  replace (INR L / g_sr g * g_sr g) with (INR L) by (field; lra). rewrite Rmult_minus_distr_r. replace (/ (2 * g_sr g) * g_sr g) with (/ 2) by (field; lra). apply long_enough, Hr.
Qed.
(** the number of samples never exceeds L and is enough for both tapers *)
Lemma nyq_range : IZR (nyquist g) <= g_sr g / 2 < IZR (nyquist g) + 1 /\ (1 <= nyquist g)%Z.
Proof.
  unfold nyquist. destruct (rtrunc_spec (g_sr g / 2)) as [A _]. specialize (A ltac:(lra)). split; [exact A|]. apply le_IZR. destruct A as [_ A].
  destruct (Z_le_gt_dec 1 (rtrunc (g_sr g / 2))) as [G|G]; [apply IZR_le, G|]. assert (IZR (rtrunc (g_sr g / 2)) <= 0) by (apply IZR_le; lia). lra.
Qed.
Lemma samples_range : IZR (nyquist g) * INR L / g_sr g - 1 < INR (n - 1) <= IZR (nyquist g) * INR L / g_sr g /\ (2 * (n - 1) <= L)%nat /\ (6 <= 2 * (n - 1))%nat /\ INR L / 2 - 2 < INR (2 * (n - 1)).
Proof.
  destruct nyq_range as ([N1 N2] & N3). pose proof L16 as HL16. assert (LP : 16 <= INR L) by (replace 16 with (INR 16) by (cbn; lra); apply le_INR, HL16).
  apply IZR_le in N3. set (y := IZR (nyquist g) / df). assert (Ey : y = IZR (nyquist g) * INR L / g_sr g) by (unfold y, Rdiv at 1; rewrite inv_df; unfold Rdiv; ring).
  assert (Y0 : 0 <= y) by (rewrite Ey; apply Rdiv_le_0_compat; [apply Rmult_le_pos; lra|lra]).
  destruct (rtrunc_floor y Y0) as (m & Em & Hm). assert (En : (n - 1)%nat = m) by (unfold n, num_freqs; fold y; rewrite Em, Nat2Z.id; lia). rewrite En, <- Ey.
  assert (Q : y <= INR L / 2). { rewrite Ey. apply Rmult_le_reg_r with (g_sr g); [lra|]. unfold Rdiv. rewrite Rmult_assoc, Rinv_l, Rmult_1_r by lra. nra. }
  assert (Q2 : INR L / 4 <= y). { rewrite Ey. apply Rmult_le_reg_r with (g_sr g); [lra|]. unfold Rdiv. rewrite (Rmult_assoc _ (/ g_sr g)), Rinv_l, Rmult_1_r by lra. nra. }
  split; [lra|]. assert (D : INR (2 * m) = 2 * INR m) by (rewrite mult_INR; cbn [INR]; ring). split; [apply INR_le; lra|]. split; [|lra].
  assert (3 <= m)%nat; [|lia]. destruct (le_lt_dec 3 m) as [|G]; [assumption|]. assert (INR m <= 2) by (replace 2 with (INR 2) by (cbn; lra); apply le_INR; lia). lra.
Qed.
Theorem enough_samples : (ntaper_start g <= Z.of_nat (2 * (n - 1)))%Z /\ (max_ntaper g rs <= Z.of_nat (2 * (n - 1)))%Z.
Proof.
  destruct samples_range as (_ & _ & A & B).
  assert (K : forall z r, In r rs -> IZR z - / 2 <= g_sr g / row_fmin g r -> (Z.max z 4 <= Z.of_nat (2 * (n - 1)))%Z).
  { intros z r Hr Hz. destruct (cycles6 r Hr) as [C1 C2]. assert (z <= Z.of_nat (2 * (n - 1)))%Z; [|lia]. apply le_IZR. rewrite <- INR_IZR_INZ. lra. }
  assert (D : forall r x, In r rs -> row_fmin g r <= x -> IZR (rround (g_sr g / x)) - / 2 <= g_sr g / row_fmin g r).
  { intros r x Hr Hx. destruct (fmin_range g r (Hrs r Hr) Hf) as (F0 & _). pose proof (rround_near (g_sr g / x)) as [R1 _]. eapply Rle_trans; [exact R1|]. unfold Rdiv. apply Rmult_le_compat_l; [lra|]. apply Rinv_le_contravar; lra. }
  split.
  - destruct rs as [|r rs'] eqn:E; [contradiction|]. rewrite <- E in *. assert (I : In r rs) by (rewrite E; left; reflexivity). apply (K _ r I), D; [exact I|apply fmin_range; [apply Hrs, I|exact Hf]].
  - unfold max_ntaper. destruct (fold_Zmax (map (ntaper_end g) rs) 4) as (_ & _ & [E|I]); [rewrite <- E; lia|]. apply in_map_iff in I as (r & E & I). rewrite <- E. apply (K _ r I), D; [exact I|apply fmin_range; [apply Hrs, I|exact Hf]].
Qed.
(** the frequencies: the k-th is 2 nyquist / sample_rate times the k-th frequency of a 2(n-1)-sample series *)
Theorem grid_frequency k : freq g n k = 2 * IZR (nyquist g) / g_sr g * rfftfreq (2 * (n - 1)) (g_sr g) k.
Proof.
  destruct samples_range as (_ & _ & A & _). unfold freq, rfftfreq. rewrite mult_INR. replace (INR 2) with 2 by (cbn; lra). assert (INR (n - 1) <> 0) by (apply not_0_INR; lia). field. repeat split; solve [assumption|lra].
Qed.
(** even sample rates: L samples, and the frequencies are those of the transform *)
Section Even.
Variable q : nat.
Hypothesis Hq : g_sr g = 2 * INR q.
Lemma nyq_even : nyquist g = Z.of_nat q.
Proof. unfold nyquist. rewrite Hq. replace (2 * INR q / 2) with (IZR (Z.of_nat q)) by (rewrite <- INR_IZR_INZ; field). apply rtrunc_IZR. Qed.
Lemma L_even : exists h, L = (2 * h)%nat /\ (0 < h)%nat.
Proof. destruct HP2 as [p Ep]. pose proof L16. destruct p as [|p]; [cbn in Ep; lia|]. exists (2 ^ p)%nat. rewrite Ep. cbn [Nat.pow]. pose proof (Nat.pow_nonzero 2 p). lia. Qed.
Theorem even_samples : (2 * (n - 1))%nat = L /\ (n = L / 2 + 1)%nat.
Proof.
  destruct L_even as (h & Eh & Hh). assert (En : n = (h + 1)%nat).
  { unfold n, num_freqs. unfold Rdiv. rewrite inv_df, nyq_even, Hq, <- INR_IZR_INZ, Eh, mult_INR. replace (INR 2) with 2 by (cbn; lra).
    replace (INR q * (2 * INR h / (2 * INR q))) with (IZR (Z.of_nat h)) by (rewrite <- INR_IZR_INZ; field; assert (0 < INR q) by lra; lra). rewrite rtrunc_IZR, Nat2Z.id. reflexivity. }
  split; [lia|]. rewrite En, Eh. f_equal. rewrite Nat.mul_comm, Nat.div_mul by lia. reflexivity.
Qed.
Theorem even_frequency k : freq g n k = rfftfreq L (g_sr g) k /\ freq g n k = INR k * df.
Proof.
  assert (E : freq g n k = rfftfreq L (g_sr g) k).
  { rewrite grid_frequency, (proj1 even_samples), nyq_even, Hq, <- INR_IZR_INZ. unfold rfftfreq. field. pose proof L_nz. assert (0 < INR q) by lra. repeat split; solve [assumption|lra]. }
  split; [exact E|]. rewrite E. reflexivity.
Qed.
End Even.
(** only even integer sample rates give the frequencies of the transform: otherwise every frequency is too low by the factor 2 nyquist / sample_rate *)
Theorem grid_exact_iff : (forall k, freq g n k = rfftfreq (2 * (n - 1)) (g_sr g) k) <-> exists q : nat, g_sr g = 2 * INR q.
Proof.
  split.
  - intros H. specialize (H 1%nat). rewrite grid_frequency in H. destruct samples_range as (_ & _ & A & _). destruct nyq_range as ([_ _] & N3). exists (Z.to_nat (nyquist g)). rewrite INR_IZR_INZ, Z2Nat.id by lia.
    assert (RP : 0 < rfftfreq (2 * (n - 1)) (g_sr g) 1). { unfold rfftfreq. apply Rmult_lt_0_compat; [cbn; lra|]. apply Rdiv_lt_0_compat; [lra|]. apply lt_0_INR. lia. }
    assert (E : 2 * IZR (nyquist g) / g_sr g = 1) by (apply Rmult_eq_reg_r with (rfftfreq (2 * (n - 1)) (g_sr g) 1); lra). replace (g_sr g) with (g_sr g * (2 * IZR (nyquist g) / g_sr g)) by (rewrite E; ring). field. lra.
  - intros [q Hq] k. rewrite (proj1 (even_samples q Hq)). apply (even_frequency q Hq).
Qed.

(** ** the spectrum *)
(** the taper of one row: nothing below fstart, a raised cosine, then 1 *)
Definition taper (r : row) (k : nat) : R :=
  if Rlt_dec (INR k * df) (row_fstart g r) then 0
  else if (Z.of_nat k <=? rround (row_fmin g r / df))%Z then window (rround (row_fstart g r / df)) (rround (row_fmin g r / df)) k else 1.
Lemma window_range k0 k1 k : 0 <= window k0 k1 k <= 1.
Proof. clear. unfold window. match goal with |- context [cos ?x] => pose proof (COS_bound x) end. lra. Qed.
Lemma window_mono k0 k1 k k' : (k0 < k1)%Z -> (k0 <= Z.of_nat k)%Z -> (k <= k')%nat -> (Z.of_nat k' <= k1)%Z -> window k0 k1 k <= window k0 k1 k'.
Proof.
  intros H0 H1 H2 H3. clear - H0 H1 H2 H3. unfold window. assert (D : 0 < IZR k1 - IZR k0) by (apply IZR_lt in H0; lra). apply IZR_le in H1, H3. rewrite <- INR_IZR_INZ in H1, H3. apply le_INR in H2. pose proof PI_RGT_0.
  assert (E : cos (PI * (INR k' - IZR k0) / (IZR k1 - IZR k0)) <= cos (PI * (INR k - IZR k0) / (IZR k1 - IZR k0))); [|lra].
  assert (B : forall y, IZR k0 <= y <= IZR k1 -> 0 <= PI * (y - IZR k0) / (IZR k1 - IZR k0) <= PI).
  { intros y Hy. split; [apply Rdiv_le_0_compat; [apply Rmult_le_pos; lra|exact D]|]. apply Rmult_le_reg_r with (IZR k1 - IZR k0); [exact D|]. unfold Rdiv. rewrite Rmult_assoc, Rinv_l by lra. nra. }
  destruct (B (INR k)) as [B1 B2]; [lra|]. destruct (B (INR k')) as [B3 B4]; [lra|]. apply cos_decr_1; try assumption. unfold Rdiv. apply Rmult_le_compat_r; [apply Rlt_le, Rinv_0_lt_compat, D|]. apply Rmult_le_compat_l; lra.
Qed.
Lemma window_end k0 k1 k : (k0 < k1)%Z -> Z.of_nat k = k1 -> window k0 k1 k = 1.
Proof.
  intros H E. clear - H E. unfold window. rewrite INR_IZR_INZ, E. assert (D : IZR k1 - IZR k0 <> 0) by (apply IZR_lt in H; lra). replace (PI * (IZR k1 - IZR k0) / (IZR k1 - IZR k0)) with PI by (field; exact D). rewrite cos_PI. lra.
Qed.
Lemma above_k0 r k : In r rs -> row_fstart g r <= INR k * df -> (rround (row_fstart g r / df) <= Z.of_nat k)%Z.
Proof.
  intros Hr H. pose proof df_pos. rewrite <- (rround_IZR (Z.of_nat k)). apply rround_mono. rewrite <- INR_IZR_INZ. apply Rmult_le_reg_r with df; [assumption|]. unfold Rdiv. rewrite Rmult_assoc, Rinv_l by lra. lra.
Qed.
Theorem taper_spec r : In r rs -> (forall k, 0 <= taper r k <= 1) /\ (forall k k', (k <= k')%nat -> taper r k <= taper r k') /\
  (forall k, INR k * df < row_fstart g r -> taper r k = 0) /\ (forall k, row_fmin g r + df / 2 <= INR k * df -> taper r k = 1).
Proof.
  intros Hr. pose proof (taper_nonempty r Hr) as Hk. pose proof df_pos as Hd. set (k0 := rround (row_fstart g r / df)) in *. set (k1 := rround (row_fmin g r / df)) in *.
  assert (Rg : forall k, 0 <= taper r k <= 1).
  { intros k. unfold taper. fold k0 k1. destruct (Rlt_dec _ _); [lra|]. destruct (_ <=? k1)%Z; [apply window_range|lra]. }
  split; [exact Rg|]. split; [|split].
  - intros k k' L1. unfold taper. fold k0 k1. pose proof (le_INR _ _ L1) as L2. destruct (Rlt_dec (INR k * df) _) as [A|A].
    + destruct (Rlt_dec _ _); [lra|]. destruct (_ <=? k1)%Z; [apply window_range|lra].
    + destruct (Rlt_dec (INR k' * df) _) as [B|B]; [nra|]. destruct (Z.of_nat k <=? k1)%Z eqn:E1, (Z.of_nat k' <=? k1)%Z eqn:E2.
      * apply Z.leb_le in E1, E2. apply window_mono; try assumption. apply above_k0; [exact Hr|lra].
      * apply window_range.
      * apply Z.leb_gt in E1. apply Z.leb_le in E2. lia.
      * lra.
  - intros k Hl. unfold taper. destruct (Rlt_dec _ _); [reflexivity|lra].
  - intros k Hl. destruct (fstart_range g r (Hrs r Hr) Hf) as [_ F]. unfold taper. fold k0 k1. destruct (Rlt_dec _ _); [lra|]. destruct (_ <=? k1)%Z eqn:E; [|reflexivity]. apply Z.leb_le in E. apply window_end; [exact Hk|].
    assert (k1 <= Z.of_nat k)%Z; [|lia]. pose proof (rround_near (row_fmin g r / df)) as [_ K]. fold k1 in K. pose proof (rround_near (row_fmin g r / df)) as [K' _]. fold k1 in K'. apply le_IZR. rewrite <- INR_IZR_INZ.
    assert (row_fmin g r / df + / 2 <= INR k). { apply Rmult_le_reg_r with df; [assumption|]. rewrite Rmult_plus_distr_r. unfold Rdiv. rewrite Rmult_assoc, Rinv_l by lra. lra. } lra.
Qed.
(** every bin of the conditioned spectrum is the taper times the approximant's value there; the last bin is 0 *)
Theorem cond_entry_spec q r lo ap k : g_sr g = 2 * INR q -> In r rs -> lo <= row_fstart g r -> (k < n)%nat ->
  cond_entry g df n lo r (map ap (map (freq g n) (requested g n lo))) k = if (k =? n - 1)%nat then RtoC 0 else Cmult (RtoC (taper r k)) (ap (INR k * df)).
Proof.
  intros Hq Hr Hlo Hk. unfold cond_entry. destruct (k =? n - 1)%nat; [reflexivity|]. rewrite (proj2 (even_frequency q Hq k)). unfold taper, ltR. destruct (Rlt_dec _ _) as [A|A]; [ring|].
  assert (V : leR lo (INR k * df) = true) by (apply leR_spec; lra). rewrite V.
  assert (W : nth (List.length (filter (fun j => leR lo (freq g n j)) (seq 0 k))) (map ap (map (freq g n) (requested g n lo))) (RtoC 0) = ap (INR k * df)).
  { apply nth_error_nth. rewrite !nth_error_map. unfold requested. rewrite (filter_rank (fun j => leR lo (freq g n j)) n k Hk); [cbn [option_map]; rewrite (proj2 (even_frequency q Hq k)); reflexivity|]. rewrite (proj2 (even_frequency q Hq k)). exact V. }
  rewrite W. assert (K0 : (rround (row_fstart g r / df) <=? Z.of_nat k)%Z = true) by (apply Z.leb_le, above_k0; [exact Hr|lra]). rewrite K0. cbn [andb]. destruct (Z.of_nat k <=? rround (row_fmin g r / df))%Z; ring.
Qed.

(** ** the time series *)
Lemma phase_even q k : g_sr g = 2 * INR q -> cis (2 * PI * df * tshift g * INR k) = w L (rround (g_rpad g * g_sr g) * Z.of_nat k).
Proof. intros Hq. unfold w, tshift, df. f_equal. rewrite mult_IZR, <- INR_IZR_INZ. field. pose proof L_nz. repeat split; solve [assumption|lra]. Qed.
Theorem time_shift q lo r vals t : g_sr g = 2 * INR q ->
  irfft L (spec_entry g df n lo r vals) t = croll L (- rround (g_rpad g * g_sr g)) (irfft L (cond_entry g df n lo r vals)) t.
Proof.
  intros Hq. unfold croll, irfft. f_equal. apply Rsum_ext. intros k Hk. do 2 f_equal. unfold spec_entry. rewrite (phase_even q k Hq), <- Cmult_assoc, <- w_plus. f_equal.
  set (z := rround _). pose proof L16. rewrite Z2Nat.id by (apply Z.mod_pos_bound; lia). rewrite <- (w_modulo L (Z.of_nat k * _)), <- (w_modulo L (z * _ + _)) by lia. f_equal.
  rewrite Z.mul_mod_idemp_r by lia. f_equal. ring.
Qed.
(** tapering at both ends only depends on the row itself *)
Definition end_gain (r : row) (j : Z) : R := if (j <? ntaper_end g r)%Z then 1 / 2 - 1 / 2 * cos (PI * IZR j / IZR (ntaper_end g r)) else 1.
Definition start_gain (t : Z) : R := if (t <? ntaper_start g)%Z then 1 / 2 - 1 / 2 * cos (PI * IZR t / IZR (ntaper_start g)) else 1.
Theorem stage2_spec N r x t : In r rs -> (t < N)%nat -> stage2 g rs N r x t = start_gain (Z.of_nat t) * end_gain r (Z.of_nat N - Z.of_nat t) * x t.
Proof.
  intros Hr Ht. clear - Hr Ht. unfold stage2, start_gain, end_gain, w_start, w_end. rewrite !INR_IZR_INZ. set (mx := max_ntaper g rs).
  assert (Hm : (ntaper_end g r <= mx)%Z) by (apply (fold_Zmax (map (ntaper_end g) rs) 4), in_map, Hr).
  destruct (Z.of_nat t <? ntaper_start g)%Z; destruct (Z.leb_spec (Z.of_nat N - mx + 1) (Z.of_nat t)) as [A|A].
  - replace (mx - 1 - Z.of_nat (Z.to_nat (Z.of_nat t - (Z.of_nat N - mx + 1))))%Z with (Z.of_nat N - Z.of_nat t)%Z by lia. ring.
  - destruct (Z.ltb_spec (Z.of_nat N - Z.of_nat t) (ntaper_end g r)); [lia|ring].
  - replace (mx - 1 - Z.of_nat (Z.to_nat (Z.of_nat t - (Z.of_nat N - mx + 1))))%Z with (Z.of_nat N - Z.of_nat t)%Z by lia. ring.
  - destruct (Z.ltb_spec (Z.of_nat N - Z.of_nat t) (ntaper_end g r)); [lia|ring].
Qed.
Theorem gains r : (forall t, 0 <= start_gain t <= 1) /\ (forall j, 0 <= end_gain r j <= 1) /\ start_gain 0 = 0 /\ end_gain r 0 = 0 /\
  (forall t, (ntaper_start g <= t)%Z -> start_gain t = 1) /\ (forall j, (ntaper_end g r <= j)%Z -> end_gain r j = 1) /\ (4 <= ntaper_start g)%Z /\ (4 <= ntaper_end g r)%Z.
Proof.
  clear. assert (Z0 : forall y, 1 / 2 - 1 / 2 * cos (PI * 0 / y) = 0) by (intros y; unfold Rdiv at 3; rewrite Rmult_0_r, Rmult_0_l, cos_0; lra).
  assert (N4 : (4 <= ntaper_start g)%Z) by (unfold ntaper_start; lia). assert (E4 : (4 <= ntaper_end g r)%Z) by (unfold ntaper_end; lia).
  split; [|split; [|split; [|split; [|split; [|split; [|split; assumption]]]]]].
  - intros t. unfold start_gain. destruct (_ <? _)%Z; [|lra]. match goal with |- context [cos ?x] => pose proof (COS_bound x) end. lra.
  - intros t. unfold end_gain. destruct (_ <? _)%Z; [|lra]. match goal with |- context [cos ?x] => pose proof (COS_bound x) end. lra.
  - unfold start_gain. destruct (Z.ltb_spec 0 (ntaper_start g)); [apply Z0|lia].
  - unfold end_gain. destruct (Z.ltb_spec 0 (ntaper_end g r)); [apply Z0|lia].
  - intros t H. unfold start_gain. destruct (Z.ltb_spec t (ntaper_start g)); [lia|reflexivity].
  - intros t H. unfold end_gain. destruct (Z.ltb_spec t (ntaper_end g r)); [lia|reflexivity].
Qed.
End Batch.
