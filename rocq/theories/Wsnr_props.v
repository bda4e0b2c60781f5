(** Property C93: the energy of a whitened signal is its squared signal-to-noise ratio. *)
From Coq Require Import String.
From Verif Require Import Base Tensor Rutil Bcast Slicing_model Streaming_model Norm_model Gw_model Gw_props Dft Snr_props Spectral_model Spectral_props Psd_props Whiten_props Tone_props.
From Coquelicot Require Import Complex.
Local Open Scope R_scope.

Lemma rfft_dc0 n x : rfft n x 0 = RtoC (Rsum n x).
Proof. unfold rfft, dft. rewrite <- Csum_RtoC. apply Csum_ext. intros t _. change (Z.of_nat 0) with 0%Z. rewrite Z.mul_0_l. change (- 0)%Z with 0%Z. rewrite w_0. ring. Qed.
Lemma rfft_const n d k : (0 < k < n)%nat -> rfft n (fun _ => d) k = RtoC 0.
Proof.
  intros H. unfold rfft, dft. rewrite Csum_scal.
  rewrite (Csum_ext n _ (fun t => w n (Z.of_nat t * - Z.of_nat k))) by (intros; f_equal; lia). rewrite w_sum by lia. replace (- Z.of_nat k =? 0)%Z with false by lia. ring.
Qed.
Lemma rfft_demeaned n x k : (0 < n)%nat -> (k < n)%nat -> rfft n (fun t => x t - Rsum n x / INR n) k = if (k =? 0)%nat then RtoC 0 else rfft n x k.
Proof.
  intros Hn Hk. destruct (Nat.eqb_spec k 0) as [->|N].
  - rewrite rfft_dc0. f_equal. rewrite Rsum_minus, Rsum_const. field. apply not_0_INR. lia.
  - rewrite (rfft_ext n _ (fun t => x t + (- (Rsum n x / INR n)))) by (intros; ring). rewrite rfft_plus, rfft_const by lia. ring.
Qed.
(** ** the energy of a filtered series *)
Lemma filtered_energy N sr H x : (2 <= N)%nat -> 0 < sr ->
  Rsum N (fun t => filtered N sr H x t ^ 2) = / (INR N * sr) * Rsum (rbins N) (fun k => if (k =? 0)%nat then 0 else hw N k * (H k ^ 2 * Cmod (rfft N x k) ^ 2)).
Proof.
  intros HN Hsr. assert (PN : 0 < INR N) by (apply lt_0_INR; lia). assert (PS : 0 < sqrt sr) by (apply sqrt_lt_R0, Hsr).
  set (Y := fun k => Cmult (RtoC (H k)) (rfft N (fun t => x t - Rsum N x / INR N) k)).
  rewrite (Rsum_ext N _ (fun t => / sr * irfft N Y t ^ 2)).
  2:{ intros t _. unfold filtered. fold Y. rewrite <- (sqrt_sqrt sr) at 2 by lra. field. lra. }
  rewrite Rsum_scal. assert (E := rfft_parseval N (irfft N Y) ltac:(lia)).
  replace (Rsum N (fun t => irfft N Y t ^ 2)) with (/ INR N * Rsum (rbins N) (fun k => hw N k * Cmod (rfft N (irfft N Y) k) ^ 2)) by (rewrite E; field; lra).
  rewrite (Rsum_ext (rbins N) (fun k => hw N k * Cmod (rfft N (irfft N Y) k) ^ 2) (fun k => if (k =? 0)%nat then 0 else hw N k * (H k ^ 2 * Cmod (rfft N x k) ^ 2))).
  - rewrite <- Rmult_assoc. f_equal. field. lra.
  - intros k Hk. assert (KN : (k < N)%nat) by (unfold rbins in Hk; pose proof (Nat.div_lt N 2 ltac:(lia) ltac:(lia)); lia).
    assert (C : Cmod (rfft N (irfft N Y) k) = Cmod (Y k)).
    { rewrite rfft_irfft by (try exact Hk; lia). destruct (Nat.eqb_spec k 0) as [->|K0]; cbn [orb].
      - unfold Y. rewrite rfft_demeaned by lia. cbn [Nat.eqb]. rewrite Cmult_0_r. reflexivity.
      - destruct (Nat.eqb_spec (2 * k) N) as [E2|]; [|reflexivity]. unfold Y. rewrite rfft_demeaned by lia. replace (k =? 0)%nat with false by lia.
        assert (HI := rfft_herm N x k ltac:(lia)). replace (N - k)%nat with k in HI by lia. assert (I0 : Im (rfft N x k) = 0). { apply (f_equal Im) in HI. unfold Cconj in HI. cbn [Im snd] in HI. unfold Im in *. cbn [snd] in HI. lra. }
        f_equal. destruct (rfft N x k) as [a b]. unfold Im in I0. cbn [snd] in I0. subst b. unfold Cmult, RtoC, Re. cbn [fst snd]. f_equal; ring. }
    rewrite C. unfold Y. rewrite rfft_demeaned by lia. destruct (Nat.eqb_spec k 0) as [->|K0]; [rewrite Cmult_0_r, Cmod_0; ring|].
    rewrite Cmod_mult, Cmod_R, Rpow_mult_distr, pow2_abs. reflexivity.
Qed.
(** what the SNR counts and whitening does not: the mean, and half of the Nyquist bin *)
Definition edge_terms (N : nat) (sr : R) (x P : nat -> R) : R :=
  4 / (INR N * sr) * (Rsum N x ^ 2 / P 0%nat + if Nat.even N then / 2 * (Cmod (rfft N x (N / 2)) ^ 2 / P (N / 2)%nat) else 0).
Lemma energy_snr N sr H x P : (2 <= N)%nat -> 0 < sr -> (forall k, (k < rbins N)%nat -> H k ^ 2 = 2 / P k) ->
  Rsum N (fun t => filtered N sr H x t ^ 2) = snr_sq N sr x P (fun _ => 1) - edge_terms N sr x P.
Proof.
  intros HN Hsr HH. assert (PN : 0 < INR N) by (apply lt_0_INR; lia). rewrite filtered_energy by assumption. unfold snr_sq, edge_terms. replace (Rsum N x ^ 2) with (Cmod (rfft N x 0) ^ 2) by (rewrite rfft_dc0, Cmod_R, pow2_abs; reflexivity).
  assert (HB : (1 <= N / 2 < rbins N)%nat) by (unfold rbins; split; [apply Nat.div_le_lower_bound; lia|rewrite Nat.add_1_r; apply Nat.lt_succ_diag_r]).
  set (a := fun k => Cmod (rfft N x k) ^ 2 / P k).
  rewrite (Rsum_ext (rbins N) (fun k => 1 * ((Cmod (rfft N x k) / sr) ^ 2 / P k)) (fun k => / (sr * sr) * a k)).
  2:{ intros k _. unfold a, Rdiv. rewrite Rpow_mult_distr, pow_inv. replace (sr * sr) with (sr ^ 2) by ring. ring. }
  rewrite Rsum_scal. fold (a 0%nat). fold (a (N / 2)%nat).
  rewrite (Rsum_ext (rbins N) _ (fun k => 4 * a k + (- ((if (k =? 0)%nat then 4 * a 0%nat else 0) + (if (k =? N / 2)%nat then (if Nat.even N then 2 * a (N / 2)%nat else 0) else 0))))).
  - rewrite Rsum_plus, Rsum_scal. rewrite (Rsum_ext (rbins N) (fun k => - _) (fun k => (-1) * ((if (k =? 0)%nat then 4 * a 0%nat else 0) + (if (k =? N / 2)%nat then (if Nat.even N then 2 * a (N / 2)%nat else 0) else 0)))) by (intros; ring).
    rewrite Rsum_scal, Rsum_plus. rewrite (Rsum_single (rbins N) 0 (fun i => if (i =? 0)%nat then 4 * a 0%nat else 0)) by (try lia; intros i Hi Hn; replace (i =? 0)%nat with false by lia; reflexivity).
    rewrite (Rsum_single (rbins N) (N / 2) (fun i => if (i =? N / 2)%nat then if Nat.even N then 2 * a (N / 2)%nat else 0 else 0)) by (try lia; intros i Hi Hn; replace (i =? N / 2)%nat with false by (symmetry; apply Nat.eqb_neq; exact Hn); reflexivity).
    rewrite !Nat.eqb_refl. destruct (Nat.even N); field; lra.
  - intros k Hk. rewrite HH by exact Hk. unfold hw, a. destruct (Nat.eqb_spec k 0) as [->|K0]; cbn [orb].
    + replace (0 =? N / 2)%nat with false by (symmetry; apply Nat.eqb_neq; lia). ring.
    + destruct (Nat.eqb_spec k (N / 2)) as [->|K2].
      * destruct (Nat.even N) eqn:EV.
        -- apply Nat.even_spec in EV. destruct EV as [m Em]. assert (N / 2 = m)%nat by (rewrite Em, (Nat.mul_comm 2 m); apply Nat.div_mul; lia). replace (2 * (N / 2) =? N)%nat with true by (symmetry; apply Nat.eqb_eq; lia). unfold Rdiv. ring.
        -- replace (2 * (N / 2) =? N)%nat with false; [unfold Rdiv; ring|]. symmetry. apply Nat.eqb_neq. intros E. assert (Nat.even N = true) by (apply Nat.even_spec; exists (N / 2)%nat; lia). congruence.
      * replace (2 * k =? N)%nat with false; [unfold Rdiv; ring|]. symmetry. apply Nat.eqb_neq. intros E. apply K2. rewrite <- E, (Nat.mul_comm 2 k), Nat.div_mul by lia. reflexivity.
Qed.

Lemma edge_nonneg N sr x P : (2 <= N)%nat -> 0 < sr -> (forall k, (k < rbins N)%nat -> 0 < P k) -> 0 <= edge_terms N sr x P.
Proof.
  intros HN Hsr HP. assert (PN : 0 < INR N) by (apply lt_0_INR; lia). assert (HB : (N / 2 < rbins N)%nat) by (unfold rbins; rewrite Nat.add_1_r; apply Nat.lt_succ_diag_r).
  unfold edge_terms. apply Rmult_le_pos; [apply Rlt_le, Rdiv_lt_0_compat; nra|].
  assert (A : forall v k, (k < rbins N)%nat -> 0 <= v ^ 2 / P k) by (intros v k Hk; apply Rmult_le_pos; [apply pow2_ge_0|apply Rlt_le, Rinv_0_lt_compat, HP, Hk]).
  apply Rplus_le_le_0_compat; [apply A; lia|]. destruct (Nat.even N); [|lra]. apply Rmult_le_pos; [lra|apply A, HB].
Qed.
Lemma edge_0 N sr x P : Rsum N x = 0 -> (Nat.even N = true -> rfft N x (N / 2) = RtoC 0) -> edge_terms N sr x P = 0.
Proof. intros Hm Hn. unfold edge_terms. rewrite Hm. destruct (Nat.even N); [rewrite Hn by reflexivity; rewrite Cmod_0|]; unfold Rdiv; ring. Qed.

(** the row of a PSD tensor that series (b, c) sees when its leading axes may have size 1 *)
Definition psd_row (pb pi : nat) (P : tensor R) (b c k : nat) : R := elt P [if (pb =? 1)%nat then 0%nat else b; if (pi =? 1)%nat then 0%nat else c; k].

(** The spectrum [whiten] really divides by is the truncated one, q.  If P = 2 q (finite and positive), the energy of the
    whitened series is the squared SNR of the original one against P, less the share of the mean and half that of the
    Nyquist bin. *)
Theorem whitened_energy fmax X psd B ch N pb pi fd sr pad wl W hp lp :
  shape X = [B; ch; N] -> shape psd = [pb; pi; rbins N] -> (pb = 1 \/ pb = B)%nat -> (pi = 1 \/ pi = ch)%nat -> 0 < sr ->
  fd_ok fd sr pad wl W -> (1 <= pad)%nat -> (2 * pad < N)%nat ->
  match hp with Some f => 0 <= f | None => True end -> match lp with Some f => 0 <= f | None => True end ->
  exists q y, truncate_inverse_power_spectrum psd fd sr hp lp = Ok q /\ whiten fmax X psd fd sr hp lp false = Ok y /\
    shape q = [pb; pi; rbins N] /\ shape y = [B; ch; N] /\
    forall P, shape P = [pb; pi; rbins N] -> (forall i, inb i (shape P) -> 0 < elt P i /\ elt q i = Fin (elt P i / 2)) ->
    exists rho, compute_ifo_snr X P sr NoCut NoCut = Ok rho /\ shape rho = [B; ch] /\
      forall b c, (b < B)%nat -> (c < ch)%nat -> 0 <= elt rho [b; c] /\
        Rsum N (fun t => elt y [b; c; t] ^ 2) = elt rho [b; c] ^ 2 - edge_terms N sr (fun t => elt X [b; c; t]) (psd_row pb pi P b c).
Proof.
  intros SX Sp Hpb Hpi Hsr Hfd Hpad HN Hhp Hlp. destruct (fd_ok_pad _ _ _ _ _ Hfd) as [Epad [Ewin Hwl]].
  assert (D : (2 * pad <= (rbins N - 1) * 2)%nat).
  { unfold rbins. pose proof (Nat.div_mod N 2 ltac:(lia)). pose proof (Nat.mod_upper_bound N 2 ltac:(lia)). lia. }
  destruct (truncate_spec psd pb pi (rbins N) pad wl W fd sr hp lp Sp ltac:(lia) Hsr Hfd Hpad D Hhp Hlp) as [q [Eq [Sq _]]].
  destruct (normalize_spec fmax X q B ch N pb pi sr (Z.of_nat pad) false SX ltac:(lia) Sq Hpb Hpi) as [Y [_ [SY [EY GY]]]].
  exists q, Y. split; [exact Eq|]. split.
  { unfold whiten, ndim. rewrite SX, Epad. cbn [List.length Nat.eqb last]. replace (Z.of_nat N <=? 2 * Z.of_nat pad)%Z with false by lia. fold (rbins N).
    assert (P3 : pad_ndim3 psd = psd) by (unfold pad_ndim3, ndim; rewrite Sp; reflexivity). rewrite P3, Sp. cbn [last]. rewrite Nat.eqb_refl. cbn [bind]. rewrite Eq. cbn [bind]. exact EY. }
  split; [exact Sq|]. split; [exact SY|]. intros P SP HP.
  assert (P3 : pad_ndim3 P = P) by (unfold pad_ndim3, ndim; rewrite SP; reflexivity).
  assert (OK : psd_ok P B ch).
  { exists pb, pi, (rbins N). rewrite P3, SP. repeat split; try assumption; [unfold rbins; lia|]. intros j Hj. apply HP. rewrite SP. exact Hj. }
  destruct (ifo_snr_spec X P sr NoCut NoCut B ch N SX ltac:(lia) Hsr OK I I) as [rho [Er [Srho Gr]]].
  exists rho. split; [exact Er|]. split; [exact Srho|]. intros b c Hb Hc.
  assert (Hrow : forall k, (k < rbins N)%nat -> 0 < psd_row pb pi P b c k /\ elt q [if (pb =? 1)%nat then 0%nat else b; if (pi =? 1)%nat then 0%nat else c; k] = Fin (psd_row pb pi P b c k / 2)).
  { intros k Hk. apply HP. rewrite SP. cbn. destruct Hpb as [->| ->], Hpi as [->| ->]; cbn [Nat.eqb]; repeat match goal with |- context [(?a =? 1)%nat] => destruct (Nat.eqb_spec a 1) end; repeat split; lia. }
  assert (V : elt rho [b; c] = sqrt (snr_sq N sr (fun t => elt X [b; c; t]) (psd_row pb pi P b c) (fun _ => 1))).
  { specialize (Gr b c Hb Hc). rewrite get_inb in Gr by (rewrite Srho; cbn; lia). injection Gr as Gr. rewrite Gr. f_equal. unfold snr_sq. f_equal. f_equal. apply Rsum_ext. intros k Hk.
    unfold hp_weight, lp_weight, eff_psd, psd_row. rewrite P3, SP, Nat.eqb_refl. f_equal. lra. }
  assert (EN := energy_snr N sr (fun k => inv_sqrt_num fmax (elt q [if (pb =? 1)%nat then 0%nat else b; if (pi =? 1)%nat then 0%nat else c; k])) (fun t => elt X [b; c; t]) (psd_row pb pi P b c) ltac:(lia) Hsr).
  cbv beta in EN. rewrite (Rsum_ext N (fun t => elt Y [b; c; t] ^ 2) (fun t => filtered N sr (fun k => inv_sqrt_num fmax (elt q [if (pb =? 1)%nat then 0%nat else b; if (pi =? 1)%nat then 0%nat else c; k])) (fun t => elt X [b; c; t]) t ^ 2)) by (intros t Ht; rewrite GY by assumption; reflexivity).
  rewrite EN.
  - split; [rewrite V; apply sqrt_pos|]. f_equal. rewrite V. rewrite pow2_sqrt; [reflexivity|]. unfold snr_sq. apply Rmult_le_pos; [lra|].
    apply Rmult_le_pos; [|apply Rlt_le, Rdiv_lt_0_compat; [exact Hsr|apply lt_0_INR; lia]]. apply Rsum_nonneg. intros k Hk. rewrite Rmult_1_l. apply Rmult_le_pos; [apply pow2_ge_0|apply Rlt_le, Rinv_0_lt_compat, Hrow, Hk].
  - intros k Hk. destruct (Hrow k Hk) as [H1 H2]. rewrite H2. cbn [inv_sqrt_num]. destruct (Rlt_dec 0 (psd_row pb pi P b c k / 2)) as [L|L]; [|lra].
    unfold Rdiv at 1. rewrite Rmult_1_l, pow_inv, pow2_sqrt by lra. field. lra.
Qed.

(** cropped or not, the whitened series never has more energy than the squared SNR; summed over the detectors, than the
    squared network SNR; for a zero-mean series without a Nyquist component the uncropped one has exactly that much *)
Theorem whitened_energy_bound fmax X psd P B ch N pb pi fd sr pad wl W hp lp crop :
  shape X = [B; ch; N] -> shape psd = [pb; pi; rbins N] -> (pb = 1 \/ pb = B)%nat -> (pi = 1 \/ pi = ch)%nat -> 0 < sr ->
  (forall i, inb i (shape psd) -> 0 < elt psd i) ->
  fd_ok fd sr pad wl W -> (1 <= pad)%nat -> (2 * pad < N)%nat ->
  match hp with Some f => 0 <= f | None => True end -> match lp with Some f => 0 <= f | None => True end ->
  shape P = [pb; pi; rbins N] ->
  (forall q, truncate_inverse_power_spectrum psd fd sr hp lp = Ok q -> forall i, inb i (shape P) -> 0 < elt P i /\ elt q i = Fin (elt P i / 2)) ->
  exists y rho net, whiten fmax X psd fd sr hp lp crop = Ok y /\ compute_ifo_snr X P sr NoCut NoCut = Ok rho /\ compute_network_snr X P sr NoCut NoCut = Ok net /\
    let n := (if crop then N - 2 * pad else N)%nat in shape y = [B; ch; n] /\ shape rho = [B; ch] /\ shape net = [B] /\
    forall b, (b < B)%nat ->
      (forall c, (c < ch)%nat -> Rsum n (fun t => elt y [b; c; t] ^ 2) <= elt rho [b; c] ^ 2) /\
      Rsum ch (fun c => Rsum n (fun t => elt y [b; c; t] ^ 2)) <= elt net [b] ^ 2 /\
      (crop = false -> (forall c, (c < ch)%nat -> Rsum N (fun t => elt X [b; c; t]) = 0 /\ (Nat.even N = true -> rfft N (fun t => elt X [b; c; t]) (N / 2) = RtoC 0)) ->
        (forall c, (c < ch)%nat -> Rsum n (fun t => elt y [b; c; t] ^ 2) = elt rho [b; c] ^ 2) /\
        Rsum ch (fun c => Rsum n (fun t => elt y [b; c; t] ^ 2)) = elt net [b] ^ 2).
Proof.
  intros SX Sp Hpb Hpi Hsr Pos Hfd Hpad HN Hhp Hlp SP HP.
  destruct (whitened_energy fmax X psd B ch N pb pi fd sr pad wl W hp lp SX Sp Hpb Hpi Hsr Hfd Hpad HN Hhp Hlp) as [q [y0 [Eq [Ey0 [Sq [Sy0 G]]]]]].
  destruct (G P SP (HP q Eq)) as [rho [Er [Srho Gr]]].
  assert (P3 : forall T : tensor R, shape T = [pb; pi; rbins N] -> pad_ndim3 T = T) by (intros T ST; unfold pad_ndim3, ndim; rewrite ST; reflexivity).
  assert (OKp : psd_ok psd B ch).
  { exists pb, pi, (rbins N). rewrite (P3 psd Sp). repeat split; try assumption. unfold rbins; lia. }
  assert (OK : psd_ok P B ch).
  { exists pb, pi, (rbins N). rewrite (P3 P SP). repeat split; try assumption; [unfold rbins; lia|]. intros j Hj. apply (HP q Eq). exact Hj. }
  destruct (network_snr_spec X P sr NoCut NoCut B ch N SX ltac:(lia) Hsr OK I I) as [net [rho' [En [Er' [Snet [_ Gn]]]]]].
  rewrite Er in Er'. injection Er' as <-.
  destruct (whiten_spec fmax X psd B ch N fd sr pad wl W hp lp crop SX OKp Hsr Hfd Hpad HN Hhp Hlp) as [y [Ey [Sy _]]].
  exists y, rho, net. split; [exact Ey|]. split; [exact Er|]. split; [exact En|]. cbv zeta. split; [exact Sy|]. split; [exact Srho|]. split; [exact Snet|].
  assert (EC : forall b c, Rsum (if crop then N - 2 * pad else N)%nat (fun t => elt y [b; c; t] ^ 2) <= Rsum N (fun t => elt y0 [b; c; t] ^ 2) /\ (crop = false -> y = y0)).
  { intros b c. assert (Y : y = if crop then slice_last (Some (Z.of_nat pad)) (Some (- Z.of_nat pad)%Z) y0 else y0).
    { destruct (fd_ok_pad _ _ _ _ _ Hfd) as [Epad _]. destruct (normalize_spec fmax X q B ch N pb pi sr (Z.of_nat pad) crop SX ltac:(lia) Sq Hpb Hpi) as [Y [EY0 [SY [EY _]]]].
      assert (WH : forall cr, whiten fmax X psd fd sr hp lp cr = normalize_by_psd fmax X q sr (Z.of_nat pad) cr).
      { intros cr. unfold whiten, ndim. rewrite SX, Epad. cbn [List.length Nat.eqb last]. replace (Z.of_nat N <=? 2 * Z.of_nat pad)%Z with false by lia. fold (rbins N).
        rewrite (P3 psd Sp), Sp. cbn [last]. rewrite Nat.eqb_refl. cbn [bind]. rewrite Eq. reflexivity. }
      rewrite WH in Ey, Ey0. rewrite EY0 in Ey0. injection Ey0 as <-. rewrite EY in Ey. injection Ey as <-. reflexivity. }
    split; [|intros ->; exact Y]. subst y. destruct crop; [|lra]. unfold slice_last. cbn [elt]. rewrite Sy0. cbn [last].
    assert (C1 : slice_lo (Z.of_nat N) (Some (Z.of_nat pad)) = Z.of_nat pad) by (unfold slice_lo, py_clamp; replace (Z.of_nat pad <? 0)%Z with false by lia; lia).
    rewrite C1. cbn [removelast app]. replace N with (pad + ((N - 2 * pad) + pad))%nat at 2 by lia. rewrite !Rsum_app.
    assert (Q0 : 0 <= Rsum pad (fun t => elt y0 [b; c; t] ^ 2)) by (apply Rsum_nonneg; intros; apply pow2_ge_0).
    match goal with |- ?a <= _ + (?b + ?d) => assert (E1 : a = b); [|assert (Q1 : 0 <= d) by (apply Rsum_nonneg; intros; apply pow2_ge_0); lra] end.
    apply Rsum_ext. intros t _. rewrite Nat2Z.id, (Nat.add_comm t pad) || rewrite Nat2Z.id. reflexivity. }
  assert (NN : forall b, (b < B)%nat -> elt net [b] ^ 2 = Rsum ch (fun c => elt rho [b; c] ^ 2)).
  { intros b Hb. specialize (Gn b Hb). rewrite get_inb in Gn by (rewrite Snet; cbn; lia). injection Gn as Gn. rewrite Gn, pow2_sqrt; [reflexivity|]. apply Rsum_nonneg. intros; apply pow2_ge_0. }
  intros b Hb.
  assert (ROW : forall c, (c < ch)%nat -> forall k, (k < rbins N)%nat -> 0 < psd_row pb pi P b c k).
  { intros c Hc k Hk. apply (HP q Eq). rewrite SP. cbn. destruct Hpb as [->| ->], Hpi as [->| ->]; cbn [Nat.eqb]; repeat match goal with |- context [(?a =? 1)%nat] => destruct (Nat.eqb_spec a 1) end; repeat split; lia. }
  assert (LE : forall c, (c < ch)%nat -> Rsum (if crop then N - 2 * pad else N)%nat (fun t => elt y [b; c; t] ^ 2) <= elt rho [b; c] ^ 2).
  { intros c Hc. destruct (Gr b c Hb Hc) as [_ E]. destruct (EC b c) as [E2 _]. pose proof (edge_nonneg N sr (fun t => elt X [b; c; t]) (psd_row pb pi P b c) ltac:(lia) Hsr (ROW c Hc)). lra. }
  split; [exact LE|]. split; [rewrite NN by exact Hb; apply Rsum_le; exact LE|].
  intros HC Z. assert (EQ : forall c, (c < ch)%nat -> Rsum (if crop then N - 2 * pad else N)%nat (fun t => elt y [b; c; t] ^ 2) = elt rho [b; c] ^ 2).
  { intros c Hc. destruct (Gr b c Hb Hc) as [_ E]. destruct (EC b c) as [_ E2]. rewrite (E2 HC). subst crop. rewrite E. destruct (Z c Hc) as [Z1 Z2]. rewrite (edge_0 N sr _ _ Z1 Z2). ring. }
  split; [exact EQ|]. rewrite NN by exact Hb. apply Rsum_ext. exact EQ.
Qed.

(** ** the hypotheses are met: for a flat PSD on an even number of bins the truncated spectrum is half the PSD itself *)
Theorem flat_truncated psd B ch F s sr pad v :
  shape psd = [B; ch; F] -> (2 <= F)%nat -> Nat.Even F -> 0 < sr -> 0 < v -> (forall i, elt psd i = v) ->
  INR pad <= s * sr / 2 < INR pad + 1 -> (1 <= pad)%nat -> (2 * pad <= (F - 1) * 2)%nat ->
  exists q, truncate_inverse_power_spectrum psd (Seconds s) sr None None = Ok q /\ shape q = [B; ch; F] /\ forall b c k, elt q [b; c; k] = Fin (v / 2).
Proof.
  intros Sp HF HE Hsr Hv Hf Hs Hpad Hn.
  destruct (truncate_spec psd B ch F pad (2 * pad) (hann (2 * pad)) (Seconds s) sr None None Sp HF Hsr ltac:(cbn; repeat split; lra) Hpad Hn I I) as [q [Eq [Sq G]]].
  exists q. split; [exact Eq|]. split; [exact Sq|]. intros b c k. destruct (G b c) as [g [Ig Gg]]. rewrite Gg. cbv zeta.
  assert (Hg : forall k, (k < F)%nat -> g k = 1 / sqrt v).
  { intros j Hj. destruct (Ig j Hj) as [_ I2]. rewrite I2; [rewrite Hf; reflexivity|]. intros [[]|[[]|[O _]]]. destruct HE as [u Hu], O as [w0 Hw]. lia. }
  rewrite (response_const F pad (2 * pad) (hann (2 * pad)) g (1 / sqrt v) k HF Hpad (hann_mid pad Hpad) Hg).
  assert (SV : 0 < sqrt v) by (apply sqrt_lt_R0, Hv). assert (IV : 0 < 1 / sqrt v) by (apply Rdiv_lt_0_compat; lra).
  rewrite Cmod_R, Rabs_pos_eq by lra. destruct (Req_EM_T (1 / sqrt v) 0) as [E|_]; [lra|]. f_equal.
  rewrite <- (sqrt_sqrt v) at 2 by lra. field. lra.
Qed.
Example ex_flat : exists q, truncate_inverse_power_spectrum (mk [1; 2; 4]%nat (fun _ => 3)) (Seconds 2) 2 None None = Ok q /\ shape q = [1; 2; 4]%nat /\ forall b c k, elt q [b; c; k] = Fin (3 / 2).
Proof. apply (flat_truncated _ 1 2 4 2 2 2 3); try reflexivity; try lra; try lia; [exists 2%nat; reflexivity|cbn [INR]; lra]. Qed.
