(** Properties C31, C32: signal-to-noise ratios and reweighting. *)
From Verif Require Import Base Tensor Rutil Norm_props Gw_model Gw_spec Gw_props.
Local Open Scope R_scope.

(** ** specification: the matched-filter SNR of one series *)
(** weight of frequency bin k under a cutoff argument: kept (1) or dropped (0), or the entry of the given mask *)
Definition hp_weight (n : nat) (sr : R) (c : cutoff) (k : nat) : R :=
  match c with NoCut => 1 | Freq f => if Rle_dec f (INR k * (sr / INR n)) then 1 else 0 | Mask m => elt m [k] end.
Definition lp_weight (n : nat) (sr : R) (c : cutoff) (k : nat) : R :=
  match c with NoCut => 1 | Freq f => if Rlt_dec (INR k * (sr / INR n)) f then 1 else 0 | Mask m => elt m [k] end.
(** rho^2 = 4 sum_k g_k |h_k|^2 / S_k df, h_k the Fourier transform of the series divided by the sample rate *)
Definition snr_sq (n : nat) (sr : R) (x : nat -> R) (S g : nat -> R) : R :=
  4 * (Rsum (rbins n) (fun k => g k * ((Cmod (rfft n x k) / sr) ^ 2 / S k)) * (sr / INR n)).
(** the PSD seen by bin k of series (b, i): broadcast over axes of size 1, linearly interpolated if it has another
    number of bins *)
Definition eff_psd (psd : tensor R) (F b i k : nat) : R :=
  match shape (pad_ndim3 psd) with
  | [pb; pi; pf] =>
    let row j := elt (pad_ndim3 psd) [if (pb =? 1)%nat then 0%nat else b; if (pi =? 1)%nat then 0%nat else i; j] in
    if (pf =? F)%nat then row k else interp_lin pf F row k
  | _ => 0
  end.
Definition psd_ok (psd : tensor R) (B ni : nat) : Prop :=
  exists pb pi pf, shape (pad_ndim3 psd) = [pb; pi; pf] /\ (pb = 1 \/ pb = B)%nat /\ (pi = 1 \/ pi = ni)%nat /\ (0 < pf)%nat /\
  forall j, inb j (shape (pad_ndim3 psd)) -> 0 < elt (pad_ndim3 psd) j.
Definition cut_ok (c : cutoff) (F : nat) : Prop := match c with Mask m => shape m = [F] | _ => True end.

Lemma psd_ok_2d psd ni pf B : shape psd = [ni; pf] -> (0 < pf)%nat -> (forall j, inb j [ni; pf] -> 0 < elt psd j) -> psd_ok psd B ni.
Proof.
  intros S Hf Hp. exists 1%nat, ni, pf. unfold pad_ndim3, ndim. rewrite S. cbn. rewrite S. repeat split; auto.
  intros [|b j]; cbn; [tauto|]. intros [_ H]. apply Hp. exact H.
Qed.

Lemma bdim_psd p B : (p = 1 \/ p = B)%nat -> bdim B p = Ok B.
Proof. intros [->| ->]; [apply bdim_1_r|apply bdim_refl]. Qed.
Lemma bshape_psd B ni F pb pi : (pb = 1 \/ pb = B)%nat -> (pi = 1 \/ pi = ni)%nat -> bshape [B; ni; F] [pb; pi; F] = Ok [B; ni; F].
Proof. intros H1 H2. unfold bshape; cbn. rewrite (bdim_psd pb B H1), (bdim_psd pi ni H2), bdim_refl. reflexivity. Qed.
Lemma bshape_mask B ni F : bshape [B; ni; F] [F] = Ok [B; ni; F].
Proof. unfold bshape; cbn. rewrite bdim_refl. reflexivity. Qed.

Lemma apply_cut_spec keep n sr c (t : tensor R) B ni : shape t = [B; ni; rbins n] -> cut_ok c (rbins n) ->
  exists r, apply_cut keep n sr c t = Ok r /\ shape r = [B; ni; rbins n] /\
   forall b i k, (b < B)%nat -> (i < ni)%nat -> (k < rbins n)%nat -> elt r [b; i; k] = elt t [b; i; k] *
     match c with NoCut => 1 | Freq f => if keep (rfftfreq n sr k) f then 1 else 0 | Mask m => elt m [k] end.
Proof.
  intros St Hc. unfold apply_cut. destruct c as [|f|m].
  - exists t. repeat split; auto. intros; ring.
  - unfold bzip_inplace, bzip. cbn [shape elt]. rewrite St, bshape_mask. cbn [bind shape].
    destruct (list_eq_dec Nat.eq_dec [B; ni; rbins n] [B; ni; rbins n]); [|congruence].
    eexists. split; [reflexivity|]. split; [reflexivity|]. intros b i k Hb Hi Hk. cbn [elt].
    rewrite bidx_BCT, bidx_t by assumption. reflexivity.
  - cbn in Hc. rewrite Hc, St. cbn [hd last]. rewrite Nat.eqb_refl. cbn [negb].
    unfold bzip_inplace, bzip. rewrite St, Hc, bshape_mask. cbn [bind shape].
    destruct (list_eq_dec Nat.eq_dec [B; ni; rbins n] [B; ni; rbins n]); [|congruence].
    eexists. split; [reflexivity|]. split; [reflexivity|]. intros b i k Hb Hi Hk. cbn [elt].
    rewrite bidx_BCT, bidx_t by assumption. reflexivity.
Qed.

(** linear interpolation is a convex combination of two neighbouring bins *)
Lemma interp_lin_convex n size f j : (0 < n)%nat -> (j < size)%nat ->
  exists i0 i1 l, (i0 < n)%nat /\ (i1 < n)%nat /\ 0 <= l <= 1 /\ interp_lin n size f j = (1 - l) * f i0 + l * f i1.
Proof.
  intros Hn Hj. unfold interp_lin. set (p := interp_pos n size j).
  assert (P : 0 <= p < INR n).
  { unfold p, interp_pos. split; [apply Rmax_r|].
    assert (0 < INR n) by (apply lt_0_INR; lia). assert (Hs : 0 < INR size) by (apply lt_0_INR; lia).
    apply Rmax_lub_lt; [|assumption].
    assert (INR j + 1 <= INR size) by (rewrite <- S_INR; apply le_INR; lia).
    assert (Q : (INR j + / 2) * (INR n / INR size) <= INR n).
    { replace (INR n) with (INR size * (INR n / INR size)) at 2 by (field; lra).
      apply Rmult_le_compat_r; [apply Rlt_le, Rdiv_lt_0_compat; assumption|lra]. }
    lra. }
  destruct (base_Int_part p) as [I1 I2].
  assert (I0 : (0 <= Int_part p < Z.of_nat n)%Z).
  { split; [|apply lt_IZR; rewrite <- INR_IZR_INZ; lra].
    assert (-1 < Int_part p)%Z by (apply lt_IZR; lra). lia. }
  assert (E0 : Nat.min (Z.to_nat (Int_part p)) (n - 1) = Z.to_nat (Int_part p)) by lia.
  rewrite E0.
  exists (Z.to_nat (Int_part p)), (Nat.min (Z.to_nat (Int_part p) + 1) (n - 1)), (p - INR (Z.to_nat (Int_part p))).
  rewrite INR_IZR_INZ, Z2Nat.id by lia. repeat split; try lia; lra.
Qed.
Lemma interp_lin_pos n size f j : (0 < n)%nat -> (j < size)%nat -> (forall i, (i < n)%nat -> 0 < f i) -> 0 < interp_lin n size f j.
Proof.
  intros Hn Hj Hf. destruct (interp_lin_convex n size f j Hn Hj) as [i0 [i1 [l [H0 [H1 [Hl ->]]]]]].
  pose proof (Hf i0 H0). pose proof (Hf i1 H1).
  destruct (Rle_dec l (1 / 2)); nra.
Qed.
Lemma eff_psd_pos psd B ni F b i k : psd_ok psd B ni -> (b < B)%nat -> (i < ni)%nat -> (k < F)%nat -> 0 < eff_psd psd F b i k.
Proof.
  intros [pb [pi [pf [Sp [Hb0 [Hi0 [Hf Hp]]]]]]] Hb Hi Hk. unfold eff_psd. rewrite Sp. rewrite Sp in Hp.
  assert (Row : forall j, (j < pf)%nat -> 0 < elt (pad_ndim3 psd) [if (pb =? 1)%nat then 0%nat else b; if (pi =? 1)%nat then 0%nat else i; j]).
  { intros j Hj. apply Hp. cbn. destruct Hb0 as [->| ->], Hi0 as [->| ->]; cbn [Nat.eqb];
      repeat (match goal with |- context [(?a =? 1)%nat] => destruct (Nat.eqb_spec a 1) end); lia. }
  destruct (Nat.eqb_spec pf F) as [->|]; [apply Row; assumption|]. apply interp_lin_pos; assumption.
Qed.

Theorem ifo_snr_spec responses psd sr hp lp B ni n :
  shape responses = [B; ni; n] -> (0 < n)%nat -> 0 < sr -> psd_ok psd B ni -> cut_ok hp (rbins n) -> cut_ok lp (rbins n) ->
  exists r, compute_ifo_snr responses psd sr hp lp = Ok r /\ shape r = [B; ni] /\
   forall b i, (b < B)%nat -> (i < ni)%nat ->
     get r [b; i] = Some (sqrt (snr_sq n sr (fun t => elt responses [b; i; t]) (eff_psd psd (rbins n) b i)
                                 (fun k => hp_weight n sr hp k * lp_weight n sr lp k))).
Proof.
  intros Sr Hn Hsr Hpsd Hh Hl. pose proof Hpsd as [pb [pi [pf [Sp [Hb0 [Hi0 [Hf Hp]]]]]]].
  unfold compute_ifo_snr. rewrite Sr; cbn [last].
  unfold rfft_abs, ndim. rewrite Sr; cbn [last List.length removelast app].
  replace ((n =? 0) || (3 =? 0))%nat with false by lia. cbn [bind]. unfold tmap; cbn [shape elt last].
  rewrite Sp; cbn [last].
  match goal with |- context [bind (if _ then _ else _) ?f] => set (kont := f) end.
  assert (PSD : exists q, (if (pf =? rbins n)%nat then Ok (pad_ndim3 psd) else interpolate_last (rbins n) (pad_ndim3 psd)) = Ok q /\
     shape q = [pb; pi; rbins n] /\ forall b i k, (b < B)%nat -> (i < ni)%nat -> (k < rbins n)%nat ->
       elt q [if (pb =? 1)%nat then 0%nat else b; if (pi =? 1)%nat then 0%nat else i; k] = eff_psd psd (rbins n) b i k).
  { unfold eff_psd. rewrite Sp. destruct (Nat.eqb_spec pf (rbins n)) as [E|N].
    - exists (pad_ndim3 psd). split; [reflexivity|]. rewrite Sp, E. split; reflexivity.
    - unfold interpolate_last, ndim. rewrite Sp. cbn [List.length Nat.eqb negb last removelast app].
      replace (rbins n =? 0)%nat with false by (unfold rbins; lia). replace (pf =? 0)%nat with false by lia. cbn [orb].
      eexists. split; [reflexivity|]. cbn [shape elt]. split; [reflexivity|]. intros. cbn [removelast last app]. reflexivity. }
  destruct PSD as [q [Eq [Sq Gq]]]. rewrite Eq. cbn [bind]. unfold kont; clear kont.
  unfold bzip; cbn [shape elt]. rewrite Sq, bshape_psd by assumption. cbn [bind shape elt].
  match goal with |- context [apply_cut ge_b n sr hp ?t] => set (t0 := t) end.
  assert (G0 : forall b i k, (b < B)%nat -> (i < ni)%nat -> (k < rbins n)%nat -> elt t0 [b; i; k] =
     (Cmod (rfft n (fun t => elt responses [b; i; t]) k) / sr) ^ 2 / eff_psd psd (rbins n) b i k).
  { intros b i k Hb Hi Hk. unfold t0; cbn [elt]. rewrite bidx_BCT by assumption. cbn [removelast app last].
    assert (Bi : bidx [pb; pi; rbins n] [b; i; k] = [if (pb =? 1)%nat then 0%nat else b; if (pi =? 1)%nat then 0%nat else i; k]).
    { unfold bidx; cbn. rewrite (b1 (rbins n) k) by assumption. reflexivity. }
    rewrite Bi, Gq by assumption.
    pose proof (eff_psd_pos psd B ni (rbins n) b i k Hpsd Hb Hi Hk) as Pos.
    unfold Rdiv. rewrite Rpow_mult_distr. f_equal. rewrite <- (sqrt_sqrt (eff_psd psd (rbins n) b i k)) at 2 by lra.
    pose proof (sqrt_lt_R0 _ Pos). field. lra. }
  destruct (apply_cut_spec ge_b n sr hp t0 B ni eq_refl Hh) as [t1 [E1 [S1 G1]]]. rewrite E1; cbn [bind].
  destruct (apply_cut_spec lt_b n sr lp t1 B ni S1 Hl) as [t2 [E2 [S2 G2]]]. rewrite E2; cbn [bind].
  eexists. split; [reflexivity|]. unfold sum_last; cbn [shape elt]. rewrite S2; cbn [removelast last].
  split; [reflexivity|]. intros b i Hb Hi. rewrite get_inb by (cbn; lia). f_equal. cbn [elt]. f_equal. unfold snr_sq.
  f_equal. f_equal. apply Rsum_ext. intros k Hk. cbn [app].
  rewrite G2, G1, G0 by assumption. unfold hp_weight, lp_weight, ge_b, lt_b, rfftfreq.
  destruct hp as [|f|m], lp as [|f'|m'];
    repeat match goal with |- context [Rle_dec ?a ?b] => destruct (Rle_dec a b) | |- context [Rlt_dec ?a ?b] => destruct (Rlt_dec a b) end; ring.
Qed.

(** a mask with the wrong number of bins raises ValueError *)
Theorem ifo_snr_mask_error responses psd sr hp lp m B ni n :
  shape responses = [B; ni; n] -> (0 < n)%nat -> psd_ok psd B ni -> hd 0%nat (shape m) <> rbins n ->
  (hp = Mask m \/ (cut_ok hp (rbins n) /\ lp = Mask m)) ->
  compute_ifo_snr responses psd sr hp lp = Err ValueError.
Proof.
  intros Sr Hn Hpsd Hm Hc. pose proof Hpsd as [pb [pi [pf [Sp [Hb0 [Hi0 [Hf Hp]]]]]]].
  unfold compute_ifo_snr. rewrite Sr; cbn [last].
  unfold rfft_abs, ndim. rewrite Sr; cbn [last List.length removelast app].
  replace ((n =? 0) || (3 =? 0))%nat with false by lia. cbn [bind]. unfold tmap; cbn [shape elt last].
  rewrite Sp; cbn [last].
  match goal with |- context [bind (if _ then _ else _) ?f] => set (kont := f) end.
  assert (PSD : exists q, (if (pf =? rbins n)%nat then Ok (pad_ndim3 psd) else interpolate_last (rbins n) (pad_ndim3 psd)) = Ok q /\
     shape q = [pb; pi; rbins n]).
  { destruct (Nat.eqb_spec pf (rbins n)) as [E|N].
    - exists (pad_ndim3 psd). split; [reflexivity|]. rewrite Sp, E. reflexivity.
    - unfold interpolate_last, ndim. rewrite Sp. cbn [List.length Nat.eqb negb last removelast app].
      replace (rbins n =? 0)%nat with false by (unfold rbins; lia). replace (pf =? 0)%nat with false by lia. cbn [orb].
      eexists. split; [reflexivity|]. reflexivity. }
  destruct PSD as [q [Eq Sq]]. rewrite Eq. cbn [bind]. unfold kont; clear kont.
  unfold bzip; cbn [shape elt]. rewrite Sq, bshape_psd by assumption. cbn [bind shape elt].
  match goal with |- context [apply_cut ge_b n sr hp ?t] => set (t0 := t) end.
  destruct Hc as [->|[Hh ->]].
  - cbn [apply_cut]. replace (negb _) with true; [reflexivity|]. unfold t0; cbn [shape last]. symmetry. apply negb_true_iff, Nat.eqb_neq. assumption.
  - destruct (apply_cut_spec ge_b n sr hp t0 B ni eq_refl Hh) as [t1 [E1 [S1 _]]]. rewrite E1; cbn [bind].
    cbn [apply_cut]. rewrite S1; cbn [last]. replace (negb _) with true; [reflexivity|]. symmetry. apply negb_true_iff, Nat.eqb_neq. assumption.
Qed.

(** ** algebra of [snr_sq] *)
Lemma snr_sq_nonneg n sr x S g : (0 < n)%nat -> 0 < sr -> (forall k, (k < rbins n)%nat -> 0 < S k) -> (forall k, (k < rbins n)%nat -> 0 <= g k) -> 0 <= snr_sq n sr x S g.
Proof.
  intros Hn Hs HS Hg. unfold snr_sq. apply Rmult_le_pos; [lra|]. apply Rmult_le_pos.
  - apply Rsum_nonneg. intros k Hk. apply Rmult_le_pos; [auto|].
    apply Rmult_le_pos; [apply pow2_ge_0|]. apply Rlt_le, Rinv_0_lt_compat; auto.
  - apply Rlt_le, Rdiv_lt_0_compat; [assumption|]. apply lt_0_INR; assumption.
Qed.
Lemma snr_sq_scale n sr x S g c : snr_sq n sr (fun t => c * x t) S g = c ^ 2 * snr_sq n sr x S g.
Proof.
  unfold snr_sq.
  rewrite (Rsum_ext _ (fun k => g k * ((Cmod (rfft n (fun t => c * x t) k) / sr) ^ 2 / S k))
            (fun k => c ^ 2 * (g k * ((Cmod (rfft n x k) / sr) ^ 2 / S k)))).
  - rewrite Rsum_scal. ring.
  - intros k _. rewrite rfft_scal, Cmod_mult, Cmod_R.
    replace ((Rabs c * Cmod (rfft n x k) / sr) ^ 2) with (Rabs c ^ 2 * (Cmod (rfft n x k) / sr) ^ 2) by (unfold Rdiv; ring).
    rewrite pow2_abs. unfold Rdiv. ring.
Qed.
Lemma snr_sq_mask n sr x S g1 g2 : snr_sq n sr x S (fun k => g1 k + g2 k) = snr_sq n sr x S g1 + snr_sq n sr x S g2.
Proof.
  unfold snr_sq. rewrite (Rsum_ext _ _ (fun k => g1 k * ((Cmod (rfft n x k) / sr) ^ 2 / S k) + g2 k * ((Cmod (rfft n x k) / sr) ^ 2 / S k))) by (intros; ring).
  rewrite Rsum_plus. ring.
Qed.
Lemma snr_sq_shift n sr x S g d : (0 < n)%nat -> snr_sq n sr (croll n d x) S g = snr_sq n sr x S g.
Proof.
  intros Hn. unfold snr_sq. do 2 f_equal. apply Rsum_ext. intros k _. rewrite rfft_shift, Cmod_mult, w_mod by assumption.
  rewrite Rmult_1_l. reflexivity.
Qed.
Lemma snr_sq_ext n sr x y S S' g g' :
  (forall k, (k < rbins n)%nat -> g k = g' k /\ (g k <> 0 -> S k = S' k /\ Cmod (rfft n x k) = Cmod (rfft n y k))) -> snr_sq n sr x S g = snr_sq n sr y S' g'.
Proof.
  intros H. unfold snr_sq. do 2 f_equal. apply Rsum_ext. intros k Hk. destruct (H k Hk) as [<- E].
  destruct (Req_dec (g k) 0) as [->|N]; [ring|]. destruct (E N) as [-> ->]. reflexivity.
Qed.

(** ** C31 *)
(** the target of batch element b: a 0-d target applies to all *)
Definition expand_b (t : tensor R) : tensor R := match shape t with [] => mk [] (fun _ => elt t []) | _ => t end.
Theorem network_snr_spec responses psd sr hp lp B ni n :
  shape responses = [B; ni; n] -> (0 < n)%nat -> 0 < sr -> psd_ok psd B ni -> cut_ok hp (rbins n) -> cut_ok lp (rbins n) ->
  exists r rho, compute_network_snr responses psd sr hp lp = Ok r /\ compute_ifo_snr responses psd sr hp lp = Ok rho /\
   shape r = [B] /\ shape rho = [B; ni] /\
   forall b, (b < B)%nat -> get r [b] = Some (sqrt (Rsum ni (fun i => elt rho [b; i] ^ 2))).
Proof.
  intros Sr Hn Hsr Hpsd Hh Hl.
  destruct (ifo_snr_spec responses psd sr hp lp B ni n Sr Hn Hsr Hpsd Hh Hl) as [rho [E [S G]]].
  unfold compute_network_snr. rewrite E; cbn [bind]. do 2 eexists. split; [reflexivity|]. split; [reflexivity|].
  unfold tmap, sum_last; cbn [shape elt]. rewrite S; cbn [removelast last]. split; [reflexivity|]. split; [reflexivity|].
  intros b Hb. rewrite get_inb by (cbn; lia). reflexivity.
Qed.

(** scaling the responses by c (which may differ between batch elements) scales every SNR by |c| *)
Theorem snr_homogeneous responses responses' psd sr hp lp (c : nat -> R) B ni n :
  shape responses = [B; ni; n] -> shape responses' = [B; ni; n] ->
  (forall b i t, inb [b; i; t] [B; ni; n] -> elt responses' [b; i; t] = c b * elt responses [b; i; t]) ->
  (0 < n)%nat -> 0 < sr -> psd_ok psd B ni -> cut_ok hp (rbins n) -> cut_ok lp (rbins n) ->
  exists rho rho' r r', compute_ifo_snr responses psd sr hp lp = Ok rho /\ compute_ifo_snr responses' psd sr hp lp = Ok rho' /\
    compute_network_snr responses psd sr hp lp = Ok r /\ compute_network_snr responses' psd sr hp lp = Ok r' /\
    (forall b i, (b < B)%nat -> (i < ni)%nat -> elt rho' [b; i] = Rabs (c b) * elt rho [b; i]) /\
    (forall b, (b < B)%nat -> elt r' [b] = Rabs (c b) * elt r [b]).
Proof.
  intros Sr Sr' Hc Hn Hsr Hpsd Hh Hl.
  destruct (ifo_snr_spec responses psd sr hp lp B ni n Sr Hn Hsr Hpsd Hh Hl) as [rho [E [S G]]].
  destruct (ifo_snr_spec responses' psd sr hp lp B ni n Sr' Hn Hsr Hpsd Hh Hl) as [rho' [E' [S' G']]].
  destruct (network_snr_spec responses psd sr hp lp B ni n Sr Hn Hsr Hpsd Hh Hl) as [r [x [En [Ex [_ [_ Gn]]]]]].
  destruct (network_snr_spec responses' psd sr hp lp B ni n Sr' Hn Hsr Hpsd Hh Hl) as [r' [x' [En' [Ex' [_ [_ Gn']]]]]].
  rewrite E in Ex; injection Ex as <-. rewrite E' in Ex'; injection Ex' as <-.
  exists rho, rho', r, r'. do 4 (split; [assumption|]).
  assert (H1 : forall b i, (b < B)%nat -> (i < ni)%nat -> elt rho' [b; i] = Rabs (c b) * elt rho [b; i]).
  { intros b i Hb Hi. specialize (G b i Hb Hi). specialize (G' b i Hb Hi).
    apply get_some in G, G'. destruct G as [_ ->], G' as [_ ->].
    rewrite (snr_sq_ext n sr (fun t => elt responses' [b; i; t]) (fun t => c b * elt responses [b; i; t])
              (eff_psd psd (rbins n) b i) (eff_psd psd (rbins n) b i)
              _ (fun k => hp_weight n sr hp k * lp_weight n sr lp k)).
    - rewrite snr_sq_scale, sqrt_mult_alt by apply pow2_ge_0. f_equal.
      rewrite <- pow2_abs. apply sqrt_pow2. apply Rabs_pos.
    - intros k Hk. split; [reflexivity|]. intros _. split; [reflexivity|]. f_equal. apply rfft_ext. intros t Ht. apply Hc. cbn; auto. }
  split; [exact H1|]. intros b Hb.
  specialize (Gn b Hb). specialize (Gn' b Hb). apply get_some in Gn, Gn'. destruct Gn as [_ ->], Gn' as [_ ->].
  rewrite (Rsum_ext ni (fun i => elt rho' [b; i] ^ 2) (fun i => c b ^ 2 * elt rho [b; i] ^ 2)).
  - rewrite Rsum_scal, sqrt_mult_alt by apply pow2_ge_0. f_equal. rewrite <- pow2_abs. apply sqrt_pow2. apply Rabs_pos.
  - intros i Hi. rewrite H1 by assumption. rewrite Rpow_mult_distr, pow2_abs. reflexivity.
Qed.

(** C31: after reweighting, the network SNR is |target| (the target itself if it is not negative), wherever the original
    SNR is positive; the target is one number for all (0-d) or one per batch element *)
Theorem reweight_snrs_hits_target responses target psd sr hp lp B ni n r0 :
  shape responses = [B; ni; n] -> (shape target = [] \/ shape target = [B]) ->
  (0 < n)%nat -> 0 < sr -> psd_ok psd B ni -> cut_ok hp (rbins n) -> cut_ok lp (rbins n) ->
  compute_network_snr responses psd sr hp lp = Ok r0 ->
  exists y r, reweight_snrs responses target psd sr hp lp = Ok y /\ shape y = [B; ni; n] /\
    compute_network_snr y psd sr hp lp = Ok r /\
    (forall b i t, (b < B)%nat -> (i < ni)%nat -> (t < n)%nat ->
       elt y [b; i; t] = elt (expand_b target) [b] / elt r0 [b] * elt responses [b; i; t]) /\
    forall b, (b < B)%nat -> 0 < elt r0 [b] ->
      get r [b] = Some (Rabs (elt (expand_b target) [b])) /\
      (0 <= elt (expand_b target) [b] -> get r [b] = Some (elt (expand_b target) [b])).
Proof.
  intros Sr St Hn Hsr Hpsd Hh Hl E0.
  destruct (network_snr_spec responses psd sr hp lp B ni n Sr Hn Hsr Hpsd Hh Hl) as [r1 [x [En [_ [S1 [_ Gn]]]]]].
  rewrite E0 in En; injection En as <-.
  unfold reweight_snrs. rewrite E0; cbn [bind]. unfold bzip. rewrite S1.
  assert (Bs : bshape (shape target) [B] = Ok [B]).
  { destruct St as [-> | ->]; [reflexivity|apply bshape_1]. }
  rewrite Bs; cbn [bind shape elt app]. rewrite Sr.
  assert (B3 : bshape [B; ni; n] [B; 1; 1]%nat = Ok [B; ni; n]).
  { unfold bshape; cbn. rewrite !bdim_1_r, bdim_refl. reflexivity. }
  rewrite B3; cbn [bind]. set (y := mk _ _).
  assert (Gy : forall b i t, (b < B)%nat -> (i < ni)%nat -> (t < n)%nat ->
       elt y [b; i; t] = elt (expand_b target) [b] / elt r0 [b] * elt responses [b; i; t]).
  { intros b i t Hb Hi Ht. unfold y; cbn [elt]. rewrite bidx_BCT by assumption.
    assert (Bi : bidx [B; 1; 1]%nat [b; i; t] = [b; 0; 0]%nat).
    { unfold bidx; cbn. rewrite b1 by assumption. reflexivity. }
    rewrite Bi. cbn [removelast]. rewrite (bidx_1 B b Hb). unfold expand_b.
    destruct St as [E|E]; rewrite E; cbn [elt].
    - unfold bidx; cbn. ring.
    - rewrite bidx_1 by assumption. ring. }
  destruct (snr_homogeneous responses y psd sr hp lp (fun b => elt (expand_b target) [b] / elt r0 [b]) B ni n)
    as [rho [rho' [q [r [_ [_ [Eq [Er [_ Hr]]]]]]]]]; try assumption; try reflexivity.
  { intros b i t [Hb [Hi [Ht _]]]. apply Gy; assumption. }
  rewrite E0 in Eq; injection Eq as <-.
  destruct (network_snr_spec y psd sr hp lp B ni n eq_refl Hn Hsr Hpsd Hh Hl) as [r2 [x2 [En2 [_ [S2 [_ Gn2]]]]]].
  rewrite Er in En2; injection En2 as <-.
  exists y, r. split; [reflexivity|]. split; [reflexivity|]. split; [assumption|]. split; [assumption|].
  intros b Hb Hpos.
  assert (V : elt r [b] = Rabs (elt (expand_b target) [b])).
  { rewrite Hr by assumption. unfold Rdiv. rewrite Rabs_mult, Rabs_inv, (Rabs_right (elt r0 [b])) by lra. field. lra. }
  assert (G : get r [b] = Some (elt r [b])) by (apply get_inb; rewrite S2; cbn; auto).
  rewrite G, V. split; [reflexivity|]. intros Ht. rewrite Rabs_right by lra. reflexivity.
Qed.

(** ** C32 *)
(** circular time shifts (different ones for each series) do not change any SNR *)
Theorem snr_shift_invariant responses responses' psd sr hp lp (d : nat -> nat -> Z) B ni n :
  shape responses = [B; ni; n] -> shape responses' = [B; ni; n] ->
  (forall b i t, inb [b; i; t] [B; ni; n] ->
     elt responses' [b; i; t] = elt responses [b; i; Z.to_nat ((Z.of_nat t - d b i) mod Z.of_nat n)]) ->
  (0 < n)%nat -> 0 < sr -> psd_ok psd B ni -> cut_ok hp (rbins n) -> cut_ok lp (rbins n) ->
  exists rho rho', compute_ifo_snr responses psd sr hp lp = Ok rho /\ compute_ifo_snr responses' psd sr hp lp = Ok rho' /\
    teq rho rho'.
Proof.
  intros Sr Sr' Hd Hn Hsr Hpsd Hh Hl.
  destruct (ifo_snr_spec responses psd sr hp lp B ni n Sr Hn Hsr Hpsd Hh Hl) as [rho [E [S G]]].
  destruct (ifo_snr_spec responses' psd sr hp lp B ni n Sr' Hn Hsr Hpsd Hh Hl) as [rho' [E' [S' G']]].
  exists rho, rho'. split; [assumption|]. split; [assumption|]. split; [congruence|]. rewrite S.
  intros [|b [|i [|]]]; cbn [inb]; try tauto. intros [Hb [Hi _]].
  specialize (G b i Hb Hi). specialize (G' b i Hb Hi). apply get_some in G, G'. destruct G as [_ ->], G' as [_ ->]. f_equal.
  rewrite <- (snr_sq_shift n sr (fun t => elt responses [b; i; t]) _ _ (d b i) Hn).
  apply snr_sq_ext. intros k Hk. split; [reflexivity|]. intros _. split; [reflexivity|]. f_equal. apply rfft_ext.
  intros t Ht. symmetry. apply (Hd b i t). cbn; auto.
Qed.

(** only the content of the unmasked bins matters *)
Theorem snr_out_of_band responses responses' psd sr hp lp B ni n :
  shape responses = [B; ni; n] -> shape responses' = [B; ni; n] ->
  (0 < n)%nat -> 0 < sr -> psd_ok psd B ni -> cut_ok hp (rbins n) -> cut_ok lp (rbins n) ->
  (forall b i k, (b < B)%nat -> (i < ni)%nat -> (k < rbins n)%nat -> hp_weight n sr hp k * lp_weight n sr lp k <> 0 ->
     rfft n (fun t => elt responses [b; i; t]) k = rfft n (fun t => elt responses' [b; i; t]) k) ->
  exists rho rho', compute_ifo_snr responses psd sr hp lp = Ok rho /\ compute_ifo_snr responses' psd sr hp lp = Ok rho' /\
    teq rho rho'.
Proof.
  intros Sr Sr' Hn Hsr Hpsd Hh Hl Hd.
  destruct (ifo_snr_spec responses psd sr hp lp B ni n Sr Hn Hsr Hpsd Hh Hl) as [rho [E [S G]]].
  destruct (ifo_snr_spec responses' psd sr hp lp B ni n Sr' Hn Hsr Hpsd Hh Hl) as [rho' [E' [S' G']]].
  exists rho, rho'. split; [assumption|]. split; [assumption|]. split; [congruence|]. rewrite S.
  intros [|b [|i [|]]]; cbn [inb]; try tauto. intros [Hb [Hi _]].
  specialize (G b i Hb Hi). specialize (G' b i Hb Hi). apply get_some in G, G'. destruct G as [_ ->], G' as [_ ->]. f_equal.
  apply snr_sq_ext. intros k Hk. split; [reflexivity|]. intros N. split; [reflexivity|]. rewrite (Hd b i k Hb Hi Hk N). reflexivity.
Qed.

(** splitting a band [f1, f3) at f2 adds the squared SNRs: rho(f1..f3)^2 = rho(f1..f2)^2 + rho(f2..f3)^2;
    in particular the SNR grows with the band *)
Theorem snr_band_additive responses psd sr f1 f2 f3 B ni n :
  shape responses = [B; ni; n] -> (0 < n)%nat -> 0 < sr -> psd_ok psd B ni -> f1 <= f2 <= f3 ->
  exists rho rho1 rho2,
    compute_ifo_snr responses psd sr (Freq f1) (Freq f3) = Ok rho /\
    compute_ifo_snr responses psd sr (Freq f1) (Freq f2) = Ok rho1 /\
    compute_ifo_snr responses psd sr (Freq f2) (Freq f3) = Ok rho2 /\
    forall b i, (b < B)%nat -> (i < ni)%nat ->
      elt rho [b; i] ^ 2 = elt rho1 [b; i] ^ 2 + elt rho2 [b; i] ^ 2 /\
      0 <= elt rho1 [b; i] <= elt rho [b; i] /\ 0 <= elt rho2 [b; i] <= elt rho [b; i].
Proof.
  intros Sr Hn Hsr Hpsd Hf.
  destruct (ifo_snr_spec responses psd sr (Freq f1) (Freq f3) B ni n Sr Hn Hsr Hpsd I I) as [rho [E [S G]]].
  destruct (ifo_snr_spec responses psd sr (Freq f1) (Freq f2) B ni n Sr Hn Hsr Hpsd I I) as [rho1 [E1 [S1 G1]]].
  destruct (ifo_snr_spec responses psd sr (Freq f2) (Freq f3) B ni n Sr Hn Hsr Hpsd I I) as [rho2 [E2 [S2 G2]]].
  exists rho, rho1, rho2. do 3 (split; [assumption|]). intros b i Hb Hi.
  specialize (G b i Hb Hi). specialize (G1 b i Hb Hi). specialize (G2 b i Hb Hi). apply get_some in G, G1, G2.
  destruct G as [_ ->], G1 as [_ ->], G2 as [_ ->].
  assert (Pos : forall g, (forall k, (k < rbins n)%nat -> 0 <= g k) ->
     0 <= snr_sq n sr (fun t => elt responses [b; i; t]) (eff_psd psd (rbins n) b i) g).
  { intros g Hg. apply snr_sq_nonneg; try assumption. intros k Hk. apply (eff_psd_pos psd B ni); assumption. }
  assert (W : forall a c k, 0 <= hp_weight n sr (Freq a) k * lp_weight n sr (Freq c) k).
  { intros a c k. unfold hp_weight, lp_weight. destruct (Rle_dec a _), (Rlt_dec _ c); lra. }
  rewrite !pow2_sqrt by (apply Pos; intros; apply W).
  set (A1 := snr_sq n sr _ _ (fun k => hp_weight n sr (Freq f1) k * lp_weight n sr (Freq f2) k)).
  set (A2 := snr_sq n sr _ _ (fun k => hp_weight n sr (Freq f2) k * lp_weight n sr (Freq f3) k)).
  match goal with |- ?l = _ /\ _ => assert (Add : l = A1 + A2) end.
  { unfold A1, A2. rewrite <- snr_sq_mask. apply snr_sq_ext. intros k Hk. split; [|auto].
    unfold hp_weight, lp_weight.
    destruct (Rle_dec f1 (INR k * (sr / INR n))), (Rle_dec f2 (INR k * (sr / INR n))),
      (Rlt_dec (INR k * (sr / INR n)) f2), (Rlt_dec (INR k * (sr / INR n)) f3); lra. }
  rewrite Add.
  assert (0 <= A1) by (apply Pos; intros; apply W). assert (0 <= A2) by (apply Pos; intros; apply W).
  split; [reflexivity|]. split; (split; [apply sqrt_pos|apply sqrt_le_1_alt; lra]).
Qed.
(** additivity over arbitrary masks *)
Theorem snr_mask_additive responses psd sr m1 m2 m B ni n :
  shape responses = [B; ni; n] -> (0 < n)%nat -> 0 < sr -> psd_ok psd B ni ->
  shape m1 = [rbins n] -> shape m2 = [rbins n] -> shape m = [rbins n] ->
  (forall k, (k < rbins n)%nat -> 0 <= elt m1 [k] /\ 0 <= elt m2 [k] /\ elt m [k] = elt m1 [k] + elt m2 [k]) ->
  exists rho rho1 rho2,
    compute_ifo_snr responses psd sr (Mask m) NoCut = Ok rho /\
    compute_ifo_snr responses psd sr (Mask m1) NoCut = Ok rho1 /\
    compute_ifo_snr responses psd sr (Mask m2) NoCut = Ok rho2 /\
    forall b i, (b < B)%nat -> (i < ni)%nat -> elt rho [b; i] ^ 2 = elt rho1 [b; i] ^ 2 + elt rho2 [b; i] ^ 2.
Proof.
  intros Sr Hn Hsr Hpsd S1' S2' S' Hm.
  destruct (ifo_snr_spec responses psd sr (Mask m) NoCut B ni n Sr Hn Hsr Hpsd S' I) as [rho [E [S G]]].
  destruct (ifo_snr_spec responses psd sr (Mask m1) NoCut B ni n Sr Hn Hsr Hpsd S1' I) as [rho1 [E1 [S1 G1]]].
  destruct (ifo_snr_spec responses psd sr (Mask m2) NoCut B ni n Sr Hn Hsr Hpsd S2' I) as [rho2 [E2 [S2 G2]]].
  exists rho, rho1, rho2. do 3 (split; [assumption|]). intros b i Hb Hi.
  specialize (G b i Hb Hi). specialize (G1 b i Hb Hi). specialize (G2 b i Hb Hi). apply get_some in G, G1, G2.
  destruct G as [_ ->], G1 as [_ ->], G2 as [_ ->].
  assert (Pos : forall g, (forall k, (k < rbins n)%nat -> 0 <= g k) ->
     0 <= snr_sq n sr (fun t => elt responses [b; i; t]) (eff_psd psd (rbins n) b i) g).
  { intros g Hg. apply snr_sq_nonneg; try assumption. intros k Hk. apply (eff_psd_pos psd B ni); assumption. }
  rewrite !pow2_sqrt.
  - rewrite <- snr_sq_mask. apply snr_sq_ext. intros k Hk. split; [|auto]. cbn [hp_weight lp_weight].
    destruct (Hm k Hk) as [_ [_ ->]]. ring.
  - apply Pos. intros k Hk. cbn. destruct (Hm k Hk) as [_ [? _]]. lra.
  - apply Pos. intros k Hk. cbn. destruct (Hm k Hk) as [? _]. lra.
  - apply Pos. intros k Hk. cbn. destruct (Hm k Hk) as [? [? ->]]. lra.
Qed.

(** detector delays do not change the SNR: C29 and C32 together *)
Theorem snr_of_shifted_responses responses theta phi V psd sr hp lp B ni n r :
  shape theta = [B] -> shape phi = [B] -> shape V = [ni; 3]%nat -> shape responses = [B; ni; n] ->
  (0 < n)%nat -> 0 < sr -> psd_ok psd B ni -> cut_ok hp (rbins n) -> cut_ok lp (rbins n) ->
  shift_responses responses theta phi V sr = Ok r ->
  exists rho rho', compute_ifo_snr responses psd sr hp lp = Ok rho /\ compute_ifo_snr r psd sr hp lp = Ok rho' /\ teq rho rho'.
Proof.
  intros St Sp SV Sr Hn Hsr Hpsd Hh Hl E.
  destruct (shift_responses_spec responses theta phi V sr B B ni ni n St Sp SV Sr (le_n _) (le_n _)) as [r' [E' [S G]]].
  rewrite E in E'; injection E' as <-.
  apply (snr_shift_invariant responses r psd sr hp lp
     (fun b i => delay sr (elt theta [b]) (elt phi [b]) (fun x => elt V [i; x])) B ni n); try assumption.
  intros b i t [Hb [Hi [Ht _]]]. specialize (G b i t Hb Hi Ht).
  rewrite get_inb in G by (rewrite S; cbn; auto). symmetry in G. apply get_some in G. symmetry. apply G.
Qed.

(** non-vacuity: a 2x3 batch of 8-sample series with a PSD that has to be interpolated, and a band *)
Example snr_example : exists r y,
  compute_network_snr (mk [2; 3; 8]%nat (fun i => INR (nth 2 i 0%nat) - 3)) (mk [3; 4]%nat (fun _ => 2)) 16 (Freq 2) (Freq 7) = Ok r /\
  reweight_snrs (mk [2; 3; 8]%nat (fun i => INR (nth 2 i 0%nat) - 3)) (mk [] (fun _ => 10)) (mk [3; 4]%nat (fun _ => 2)) 16 (Freq 2) (Freq 7) = Ok y.
Proof.
  assert (P : psd_ok (mk [3; 4]%nat (fun _ => 2)) 2 3) by (apply (psd_ok_2d _ 3 4 2); [reflexivity|lia|intros; cbn; lra]).
  destruct (network_snr_spec (mk [2; 3; 8]%nat (fun i => INR (nth 2 i 0%nat) - 3)) _ 16 (Freq 2) (Freq 7) 2 3 8 eq_refl ltac:(lia) ltac:(lra) P I I)
    as [r [rho [E _]]].
  destruct (reweight_snrs_hits_target (mk [2; 3; 8]%nat (fun i => INR (nth 2 i 0%nat) - 3)) (mk [] (fun _ => 10)) _ 16 (Freq 2) (Freq 7) 2 3 8 r
    eq_refl (or_introl eq_refl) ltac:(lia) ltac:(lra) P I I E) as [y [_ [Ey _]]].
  exists r, y. split; assumption.
Qed.
