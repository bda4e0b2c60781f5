(** Property C39 (SnrRescaler) and C64 (the PSDs fitted by spectral transforms). *)
From Coq Require Import String.
From Verif Require Import Base Tensor Rutil Bcast Norm_model Norm_props Gw_model Gw_spec Gw_props Snr_props Dft Spectral_model Psd_props Fit_model Fit_props Scaler_props.
From Coq Require Import Permutation.
Local Open Scope R_scope.

(** ** C64: normalize_psd *)
(** frequency domain data with the right number of bins is used as it is; with another number of bins, bin j of the result
    is bin floor(j m / F) of the data: nearest neighbour, no interpolation between bins, no change of units *)
Theorem normalize_psd_frequency x m sr F overlap : shape x = [m] -> (0 < m)%nat ->
  exists p, normalize_psd x sr F None overlap = Ok p /\ shape p = [F] /\
    forall j, (j < F)%nat -> elt p [j] = elt x [if (m =? F)%nat then j else (j * m / F)%nat] /\ ((j * m / F) < m)%nat.
Proof.
  intros Sx Hm. unfold normalize_psd. cbn [bind]. unfold numel. rewrite Sx. cbn [prod]. rewrite Nat.mul_1_r.
  destruct (Nat.eqb_spec m 0); [lia|]. eexists. split; [reflexivity|]. split; [reflexivity|]. intros j Hj.
  assert (L : (j * m / F < m)%nat) by (apply Nat.div_lt_upper_bound; nia). split; [|exact L]. cbn [elt hd].
  assert (U : forall k, (k < m)%nat -> unravel [m] k = [k]) by (intros k Hk; cbn; rewrite Nat.div_1_r; reflexivity).
  destruct (Nat.eqb_spec m F) as [->|N]; [rewrite U by assumption; reflexivity|].
  unfold interp_nearest. rewrite Nat.min_l by lia. rewrite U by assumption. reflexivity.
Qed.
(** time domain data: Welch's method with a Hann window, density scaling and the median over segments *)
Theorem normalize_psd_time x T sr F fl overlap : shape x = [T] ->
  let n := Z.to_nat (rtrunc (fl * sr)) in
  let ov := match overlap with Some o => if Req_EM_T o 0 then fl / 2 else o | None => fl / 2 end in
  let stride := Z.to_nat (rtrunc (fl * sr) - rtrunc (ov * sr)) in
  (0 < n <= T)%nat -> (0 < stride)%nat -> F = rbins n ->
  exists p, normalize_psd x sr F (Some fl) overlap = Ok p /\ shape p = [F] /\
    forall k, (k < F)%nat -> elt p [k] =
      welch (aggregate "median") n stride T (hann_window n) (1 / (sr * Rsum n (fun t => hann_window n t ^ 2))) (fun t => elt x [t]) k.
Proof.
  intros Sx n ov stride Hn Hs HF. unfold normalize_psd. fold ov.
  assert (G1 : (rtrunc (fl * sr) <? 1)%Z = false) by (unfold n in Hn; lia).
  assert (G2 : (rtrunc (fl * sr) - rtrunc (ov * sr) <? 0)%Z = false) by (unfold stride in Hs; lia).
  rewrite G1, G2. cbn [orb]. fold n. fold stride.
  destruct (spectral_density_spec x [] T n stride (mk [n] (fun i => hann_window n (hd 0%nat i))) (1 / (sr * Rsum n (fun t => hann_window n t ^ 2))) "median")
    as [r [E [Sr G]]]; try assumption; try reflexivity; [cbn; lia|constructor|].
  rewrite E. cbn [bind app] in *. unfold numel. rewrite Sr. cbn [prod]. rewrite Nat.mul_1_r.
  assert (0 < rbins n)%nat by (unfold rbins; rewrite Nat.add_1_r; apply Nat.lt_0_succ).
  destruct (Nat.eqb_spec (rbins n) 0); [lia|]. rewrite <- HF. rewrite Nat.eqb_refl. eexists. split; [reflexivity|]. split; [reflexivity|].
  intros k Hk. cbn [elt hd]. specialize (G [] k I ltac:(lia)). cbn [app] in G. apply get_some in G. destruct G as [_ G]. cbn [elt hd] in G.
  transitivity (elt r [k]); [|exact G].
  f_equal. cbn. rewrite Nat.div_1_r. reflexivity.
Qed.
(** an explicit overlap of 0 is silently replaced by half of the segment length *)
Theorem normalize_psd_zero_overlap_refuted x sr F fl : normalize_psd x sr F fl (Some 0) = normalize_psd x sr F fl None.
Proof. unfold normalize_psd. destruct fl; [|reflexivity]. destruct (Req_EM_T 0 0); [reflexivity|congruence]. Qed.
(** several rows are flattened into one before resampling: with c rows of m bins and F <> c m, bin j of the result is bin
    j c m / F of the flattened rows, so that the second half of the fitted PSD of a two channel input is channel 1 *)
Theorem normalize_psd_flattens x c m sr F overlap : shape x = [c; m] -> (0 < c)%nat -> (0 < m)%nat -> (c * m)%nat <> F ->
  exists p, normalize_psd x sr F None overlap = Ok p /\ shape p = [F] /\
    forall j, (j < F)%nat -> elt p [j] = elt x [(j * (c * m) / F / m)%nat; ((j * (c * m) / F) mod m)%nat].
Proof.
  intros Sx Hc Hm HF. unfold normalize_psd. cbn [bind]. unfold numel. rewrite Sx. cbn [prod]. rewrite Nat.mul_1_r.
  destruct (Nat.eqb_spec (c * m) 0); [nia|]. eexists. split; [reflexivity|]. split; [reflexivity|]. intros j Hj. cbn [elt hd].
  destruct (Nat.eqb_spec (c * m) F); [congruence|]. unfold interp_nearest.
  assert (L : (j * (c * m) / F < c * m)%nat) by (apply Nat.div_lt_upper_bound; nia). rewrite Nat.min_l by lia.
  generalize dependent (j * (c * m) / F)%nat. intros q L. f_equal. cbn. rewrite Nat.mul_1_r, Nat.div_1_r. reflexivity.
Qed.

(** ** C39 *)
(** the network SNR as the transform measures it *)
Definition resc_snr (m : rescaler) (background responses : tensor R) := compute_network_snr responses background (rs_sr m) (rs_hp m) (rs_lp m).
(** the fitted background: what the buffer holds *)
Definition fitted (m : rescaler) (background : tensor R) : Prop :=
  built (rs_fit m) = true /\ assoc "background" (bufs (rs_fit m)) = Some background.

Lemma rescaler_masks ni sr dur hp lp m : rescaler_create ni sr dur hp lp = Ok m ->
  rs_sr m = sr /\ rs_ch m = ni /\ Z.of_nat (rs_size m) = rtrunc (dur * sr) /\ cut_ok (rs_hp m) (rbins (rs_size m)) /\ cut_ok (rs_lp m) (rbins (rs_size m)) /\
  shapes (rs_fit m) = [("background"%string, [ni; rbins (rs_size m)])] /\ built (rs_fit m) = false /\
  (forall f k, hp = Some f -> (k < rbins (rs_size m))%nat -> hp_weight (rs_size m) sr (rs_hp m) k = hp_weight (rs_size m) sr (Freq f) k) /\
  (forall f k, lp = Some f -> (k < rbins (rs_size m))%nat -> lp_weight (rs_size m) sr (rs_lp m) k = lp_weight (rs_size m) sr (Freq f) k) /\
  (hp = None -> rs_hp m = NoCut) /\ (lp = None -> rs_lp m = NoCut).
Proof.
  unfold rescaler_create. destruct (Z.ltb_spec (rtrunc (dur * sr)) 0); [discriminate|]. intros E; injection E as <-. cbn.
  repeat split; try lia.
  - destruct hp; cbn; auto.
  - destruct lp; cbn; auto.
  - intros f k -> Hk. cbn. unfold ge_b, rfftfreq. destruct (Rle_dec _ _); reflexivity.
  - intros f k -> Hk. cbn. unfold lt_b, rfftfreq. destruct (Rlt_dec _ _); reflexivity.
  - intros ->; reflexivity.
  - intros ->; reflexivity.
Qed.

Theorem snr_rescaler_forward m background responses B ni n perm target r0 :
  fitted m background -> shape responses = [B; ni; n] -> (0 < n)%nat -> 0 < rs_sr m ->
  psd_ok background B ni -> cut_ok (rs_hp m) (rbins n) -> cut_ok (rs_lp m) (rbins n) ->
  (forall t, target = Some t -> shape t = [B]) ->
  resc_snr m background responses = Ok r0 ->
  exists y t r, rescaler_forward m perm responses target = Ok (y, t) /\ shape y = [B; ni; n] /\ shape t = [B] /\
    (forall b, (b < B)%nat -> elt t [b] = match target with Some t => elt t [b] | None => elt r0 [nth b perm 0%nat] end) /\
    resc_snr m background y = Ok r /\
    (forall b i k, (b < B)%nat -> (i < ni)%nat -> (k < n)%nat -> elt y [b; i; k] = elt t [b] / elt r0 [b] * elt responses [b; i; k]) /\
    forall b, (b < B)%nat -> 0 < elt r0 [b] -> get r [b] = Some (Rabs (elt t [b])).
Proof.
  intros [Hb Hf] Sr Hn Hsr Hpsd Hh Hl Ht E0. unfold rescaler_forward, call. rewrite Hb. cbn [bind]. rewrite Hf. unfold resc_snr in *.
  rewrite E0. cbn [bind].
  destruct (network_snr_spec responses background (rs_sr m) (rs_hp m) (rs_lp m) B ni n Sr Hn Hsr Hpsd Hh Hl) as [r1 [x [En [_ [S1 [_ Gn]]]]]].
  rewrite E0 in En; injection En as <-.
  set (t := match target with Some t => t | None => mk (shape r0) (fun i => elt r0 [nth (hd 0%nat i) perm 0%nat]) end).
  assert (St : shape t = [B]) by (unfold t; destruct target; [apply Ht; reflexivity|cbn; assumption]).
  unfold bzip. rewrite St, S1, bshape_1. cbn [bind shape elt]. unfold numel. cbn [shape prod]. rewrite Nat.mul_1_r, Sr.
  assert (B3 : bshape [B; ni; n] [B; 1; 1]%nat = Ok [B; ni; n]) by (unfold bshape; cbn; rewrite !bdim_1_r, bdim_refl; reflexivity).
  rewrite B3; cbn [bind]. set (y := mk _ _).
  assert (Gy : forall b i k, (b < B)%nat -> (i < ni)%nat -> (k < n)%nat -> elt y [b; i; k] = elt t [b] / elt r0 [b] * elt responses [b; i; k]).
  { intros b i k Hb' Hi Hk. unfold y; cbn [elt]. rewrite bidx_BCT by assumption.
    assert (Bi : bidx [B; 1; 1]%nat [b; i; k] = [b; 0; 0]%nat) by (unfold bidx; cbn; rewrite b1 by assumption; reflexivity).
    rewrite Bi. cbn [hd]. assert (U : unravel [B] b = [b]) by (cbn; rewrite Nat.div_1_r; reflexivity). rewrite U, !bidx_1 by assumption. ring. }
  destruct (snr_homogeneous responses y background (rs_sr m) (rs_hp m) (rs_lp m) (fun b => elt t [b] / elt r0 [b]) B ni n)
    as [rho [rho' [q [r [_ [_ [Eq [Er [_ Hr]]]]]]]]]; try assumption; try reflexivity.
  { intros b i k [Hb' [Hi [Hk _]]]. apply Gy; assumption. }
  rewrite E0 in Eq; injection Eq as <-.
  destruct (network_snr_spec y background (rs_sr m) (rs_hp m) (rs_lp m) B ni n eq_refl Hn Hsr Hpsd Hh Hl) as [r2 [x2 [En2 [_ [S2 [_ Gn2]]]]]].
  rewrite Er in En2; injection En2 as <-.
  exists y, t, r. split; [reflexivity|]. split; [reflexivity|]. split; [assumption|]. split.
  { intros b _. unfold t. destruct target; reflexivity. }
  split; [assumption|]. split; [assumption|]. intros b Hb' Hpos.
  assert (V : elt r [b] = Rabs (elt t [b])).
  { rewrite Hr by assumption. unfold Rdiv. rewrite Rabs_mult, Rabs_inv, (Rabs_right (elt r0 [b])) by lra. field. lra. }
  rewrite get_inb by (rewrite S2; cbn; auto). rewrite V. reflexivity.
Qed.
(** without targets the SNRs of the rescaled batch are a permutation of the original ones, whatever permutation was drawn *)
Theorem snr_rescaler_permutes m background responses B ni n perm r0 :
  fitted m background -> shape responses = [B; ni; n] -> (0 < n)%nat -> 0 < rs_sr m ->
  psd_ok background B ni -> cut_ok (rs_hp m) (rbins n) -> cut_ok (rs_lp m) (rbins n) ->
  resc_snr m background responses = Ok r0 -> (forall b, (b < B)%nat -> 0 < elt r0 [b]) -> Permutation perm (seq 0 B) ->
  exists y t r, rescaler_forward m perm responses None = Ok (y, t) /\ resc_snr m background y = Ok r /\ shape r = [B] /\ shape t = [B] /\
    (forall b, (b < B)%nat -> elt r [b] = elt t [b]) /\
    Permutation (map (fun b => elt r [b]) (seq 0 B)) (map (fun b => elt r0 [b]) (seq 0 B)).
Proof.
  intros Hf Sr Hn Hsr Hpsd Hh Hl E0 Hpos HP.
  destruct (snr_rescaler_forward m background responses B ni n perm None r0) as [y [t [r [E [Sy [St [Gt [Er [_ Gr]]]]]]]]]; try assumption; [discriminate|].
  exists y, t, r. destruct (network_snr_spec y background (rs_sr m) (rs_hp m) (rs_lp m) B ni n Sy Hn Hsr Hpsd Hh Hl) as [r2 [x2 [En2 [_ [S2 _]]]]].
  unfold resc_snr in Er. rewrite Er in En2; injection En2 as <-.
  assert (PB : forall b, (b < B)%nat -> (nth b perm 0 < B)%nat).
  { intros b Hb. assert (L := Permutation_length HP). rewrite seq_length in L.
    assert (I : In (nth b perm 0%nat) (seq 0 B)) by (apply (Permutation_in _ HP), nth_In; lia). apply in_seq in I. lia. }
  assert (V : forall b, (b < B)%nat -> elt r [b] = elt t [b]).
  { intros b Hb. specialize (Gr b Hb (Hpos b Hb)). apply get_some in Gr. destruct Gr as [_ ->]. rewrite Gt by assumption.
    apply Rabs_right. apply Rle_ge, Rlt_le, Hpos, PB, Hb. }
  repeat split; try assumption.
  rewrite (map_ext_in _ (fun b => elt r0 [nth b perm 0%nat])).
  2:{ intros b Hb. apply in_seq in Hb. rewrite V, Gt by lia. reflexivity. }
  rewrite <- (map_map (fun b => nth b perm 0%nat) (fun b => elt r0 [b])). apply Permutation_map.
  assert (L := Permutation_length HP). rewrite seq_length in L. rewrite <- L at 1.
  replace (map (fun b => nth b perm 0%nat) (seq 0 (List.length perm))) with perm; [exact HP|].
  clear. apply nth_ext with 0%nat 0%nat; [rewrite map_length, seq_length; reflexivity|]. intros k Hk.
  rewrite (nth_indep (map _ _) 0%nat ((fun b => nth b perm 0%nat) 0%nat)) by (rewrite map_length, seq_length; assumption).
  rewrite (map_nth (fun b => nth b perm 0%nat)), seq_nth by assumption. reflexivity.
Qed.
Lemma sequence_nth {A B} (f : A -> res B) l da db : (forall c, (c < List.length l)%nat -> exists p, f (nth c l da) = Ok p) ->
  exists ps, sequence (map f l) = Ok ps /\ List.length ps = List.length l /\ forall c, (c < List.length l)%nat -> f (nth c l da) = Ok (nth c ps db).
Proof.
  induction l as [|a l IH]; intros H; [exists []; repeat split; cbn; intros; lia|].
  destruct (H 0%nat ltac:(cbn; lia)) as [p Hp]. destruct IH as [ps [E [L G]]]; [intros c Hc; apply (H (S c)); cbn; lia|].
  exists (p :: ps). cbn in *. rewrite Hp. cbn. rewrite E. cbn. repeat split; [congruence|]. intros [|c] Hc; [assumption|apply G; lia].
Qed.
Lemma stack_at0_ok {A} (ts : list (tensor A)) s d : ts <> [] -> (forall c, (c < List.length ts)%nat -> shape (nth c ts d) = s) ->
  exists r, stack_at0 ts = Ok r /\ shape r = List.length ts :: s /\ forall c i, (c < List.length ts)%nat -> elt r (c :: i) = elt (nth c ts d) i.
Proof.
  intros N H. destruct ts as [|t ts]; [congruence|]. unfold stack_at0.
  assert (St : shape t = s) by (apply (H 0%nat); cbn; lia).
  assert (F : forallb (fun t' => if list_eq_dec Nat.eq_dec (shape t') (shape t) then true else false) (t :: ts) = true).
  { apply forallb_forall. intros x Hx. destruct (In_nth _ _ d Hx) as [c [Hc <-]]. rewrite (H c Hc), St. destruct (list_eq_dec Nat.eq_dec s s); congruence. }
  rewrite F. eexists. split; [reflexivity|]. cbn [shape]. rewrite St. split; [reflexivity|]. intros c i Hc. cbn [elt hd tl].
  rewrite (nth_indep _ t d) by assumption. reflexivity.
Qed.
Lemma normalize_psd_shape x sr F fl ov p : normalize_psd x sr F fl ov = Ok p -> shape p = [F].
Proof.
  unfold normalize_psd. intros H. apply bind_ok in H as [a [_ H]]. destruct (numel a =? 0)%nat; [discriminate|]. injection H as <-. reflexivity.
Qed.
(** fitting on frequency domain backgrounds stores them (in the dtype of the buffer), one row per channel; refitting replaces them *)
Theorem snr_rescaler_fit f32 m bgs fl ov : shapes (rs_fit m) = [("background"%string, [rs_ch m; rbins (rs_size m)])] -> (0 < rs_ch m)%nat ->
  (List.length bgs <> rs_ch m -> rescaler_fit f32 m bgs fl ov = (m, Err ValueError)) /\
  (List.length bgs = rs_ch m ->
   (forall c, (c < rs_ch m)%nat -> exists p, normalize_psd (nth c bgs (mk [] (fun _ => 0))) (rs_sr m) (rbins (rs_size m)) fl ov = Ok p) ->
   exists m' b, rescaler_fit f32 m bgs fl ov = (m', Ok tt) /\ fitted m' b /\ shape b = [rs_ch m; rbins (rs_size m)] /\
     rs_sr m' = rs_sr m /\ rs_hp m' = rs_hp m /\ rs_lp m' = rs_lp m /\ rs_ch m' = rs_ch m /\ rs_size m' = rs_size m /\
     shapes (rs_fit m') = shapes (rs_fit m) /\
     forall c p k, (c < rs_ch m)%nat -> (k < rbins (rs_size m))%nat ->
       normalize_psd (nth c bgs (mk [] (fun _ => 0))) (rs_sr m) (rbins (rs_size m)) fl ov = Ok p -> elt b [c; k] = f32 (elt p [k])).
Proof.
  intros Hs Hc. split.
  - intros N. unfold rescaler_fit. apply Nat.eqb_neq in N. rewrite N. reflexivity.
  - intros L H. unfold rescaler_fit. rewrite L, Nat.eqb_refl. cbn [negb]. rewrite <- L in H.
    destruct (sequence_nth (fun x => normalize_psd x (rs_sr m) (rbins (rs_size m)) fl ov) bgs _ (mk [] (fun _ => 0)) H) as [ps [E [Lp G]]].
    rewrite E. cbn [bind].
    destruct (stack_at0_ok ps [rbins (rs_size m)] (mk [] (fun _ => 0))) as [b [Eb [Sb Gb]]].
    { intros ->. cbn in Lp. lia. }
    { intros c Hc'. apply (normalize_psd_shape (nth c bgs (mk [] (fun _ => 0))) (rs_sr m) _ fl ov). apply G. lia. }
    rewrite Eb. unfold shapes in Hs. destruct (bufs (rs_fit m)) as [|[n0 b0] [|? ?]] eqn:EB; cbn in Hs; try discriminate. injection Hs as -> Hs0.
    destruct (copy_ok b0 (tmap f32 b)) as [K _]. assert (Sb' : shape (tmap f32 b) = shape b0) by (cbn; congruence).
    destruct K as [b' [E' [S' G']]]; [unfold fits; rewrite Sb'; apply bshape_self|].
    cbn [build]. rewrite EB. cbn [assoc]. sd. rewrite E'. cbn [update]. sd. cbn [bufs built].
    eexists _, b'. split; [reflexivity|]. cbn. split; [split; [reflexivity|cbn; sd; reflexivity]|].
    rewrite S', Hs0. split; [reflexivity|]. repeat split.
    + unfold shapes. cbn. rewrite EB. cbn. rewrite ?S', Hs0. reflexivity.
    + intros c p k Hc' Hk Hp. rewrite G', bidx_self by (rewrite Sb', Hs0; cbn; auto). cbn [tmap elt]. f_equal.
      rewrite Gb by lia. rewrite G in Hp by lia. injection Hp as ->. reflexivity.
Qed.
Theorem snr_rescaler_unfitted ni sr dur hp lp m perm x t : rescaler_create ni sr dur hp lp = Ok m -> rescaler_forward m perm x t = Err ValueError.
Proof.
  unfold rescaler_create. destruct (rtrunc (dur * sr) <? 0)%Z; [discriminate|]. intros E; injection E as <-. reflexivity.
Qed.
(** what a constructed and fitted rescaler measures: the matched-filter SNR against the fitted PSDs, over the Fourier bins with
    highpass <= frequency < lowpass, for responses of waveform_duration * sample_rate samples *)
Theorem snr_rescaler_measures f32 ni sr dur hp lp m0 bgs fl ov m b responses B :
  rescaler_create ni sr dur hp lp = Ok m0 -> rescaler_fit f32 m0 bgs fl ov = (m, Ok tt) -> fitted m b -> (0 < ni)%nat -> 0 < sr ->
  let n := Z.to_nat (rtrunc (dur * sr)) in (0 < n)%nat -> shape responses = [B; ni; n] -> psd_ok b B ni ->
  exists r, resc_snr m b responses = Ok r /\ shape r = [B] /\ forall i, (i < B)%nat ->
    elt r [i] = sqrt (Rsum ni (fun c => snr_sq n sr (fun t => elt responses [i; c; t]) (eff_psd b (rbins n) i c)
      (fun k => (match hp with Some f => if Rle_dec f (INR k * (sr / INR n)) then 1 else 0 | None => 1 end) *
                (match lp with Some f => if Rlt_dec (INR k * (sr / INR n)) f then 1 else 0 | None => 1 end)))).
Proof.
  intros EC EF HF Hni Hsr n Hn Sr HP. destruct (rescaler_masks _ _ _ _ _ _ EC) as (M1 & M2 & M3 & M4 & M5 & M6 & M7 & M8 & M9 & M10 & M11).
  assert (N : rs_size m0 = n) by (unfold n; lia).
  assert (K : rs_sr m = rs_sr m0 /\ rs_hp m = rs_hp m0 /\ rs_lp m = rs_lp m0).
  { unfold rescaler_fit in EF. destruct (negb _); [injection EF as <-; auto|]. destruct (bind _ _); [|injection EF as <-; auto].
    destruct (build _ _) as [st r]. injection EF as <- _. cbn. auto. }
  destruct K as (K1 & K2 & K3). unfold resc_snr. rewrite K1, K2, K3, M1. rewrite N in *.
  destruct (network_snr_spec responses b sr (rs_hp m0) (rs_lp m0) B ni n Sr Hn Hsr HP M4 M5) as (r & rho & E & E1 & S1 & S2 & G).
  destruct (ifo_snr_spec responses b sr (rs_hp m0) (rs_lp m0) B ni n Sr Hn Hsr HP M4 M5) as (rho' & E1' & _ & G1). rewrite E1 in E1'. injection E1' as <-.
  exists r. split; [exact E|]. split; [exact S1|]. intros i Hi. specialize (G i Hi). apply get_some in G. destruct G as [_ ->]. f_equal. apply Rsum_ext. intros c Hc.
  specialize (G1 i c Hi Hc). apply get_some in G1. destruct G1 as [_ ->].
  assert (W : forall k, (k < rbins n)%nat -> hp_weight n sr (rs_hp m0) k * lp_weight n sr (rs_lp m0) k =
     (match hp with Some f => if Rle_dec f (INR k * (sr / INR n)) then 1 else 0 | None => 1 end) * (match lp with Some f => if Rlt_dec (INR k * (sr / INR n)) f then 1 else 0 | None => 1 end)).
  { intros k Hk. f_equal.
    - destruct hp as [f|]; [rewrite (M8 f k eq_refl Hk); reflexivity|rewrite (M10 eq_refl); reflexivity].
    - destruct lp as [f|]; [rewrite (M9 f k eq_refl Hk); reflexivity|rewrite (M11 eq_refl); reflexivity]. }
  rewrite pow2_sqrt.
  - unfold snr_sq. do 2 f_equal. apply Rsum_ext. intros k Hk. rewrite W by exact Hk. reflexivity.
  - unfold snr_sq. apply Rmult_le_pos; [lra|]. apply Rmult_le_pos; [|apply Rlt_le, Rdiv_lt_0_compat; [lra|apply lt_0_INR; lia]]. apply Rsum_nonneg. intros k Hk. rewrite W by exact Hk.
    apply Rmult_le_pos; [destruct hp as [f|]; destruct lp as [f'|]; try destruct (Rle_dec _ _); try destruct (Rlt_dec _ _); lra|].
    apply Rmult_le_pos; [apply pow2_ge_0|]. apply Rlt_le, Rinv_0_lt_compat. apply (eff_psd_pos b B ni); assumption.
Qed.
(** ** non-vacuity: a flat background fitted in the frequency domain, one detector, three samples *)
Example snr_rescaler_example : exists m0 m b r0,
  rescaler_create 1 2 1 None None = Ok m0 /\
  rescaler_fit (fun v => v) m0 [mk [2%nat] (fun _ => 1)] None None = (m, Ok tt) /\ fitted m b /\ psd_ok b 1 1 /\
  cut_ok (rs_hp m) (rbins 2) /\ cut_ok (rs_lp m) (rbins 2) /\
  resc_snr m b (mk [1; 1; 2]%nat (fun i => if (nth 2 i 0 =? 0)%nat then 1 else 0)) = Ok r0 /\ 0 < elt r0 [0%nat].
Proof.
  assert (RT : rtrunc (1 * 2) = 2%Z).
  { replace (1 * 2) with (IZR 2) by lra. unfold rtrunc. destruct (Rle_dec 0 (IZR 2)) as [_|N]; [|exfalso; apply N; lra].
    apply Int_part_unique. lra. }
  destruct (rescaler_create 1 2 1 None None) as [m0|] eqn:E; [|unfold rescaler_create in E; rewrite RT in E; discriminate].
  destruct (rescaler_masks _ _ _ _ _ _ E) as [H1 [H2 [H3 [H4 [H5 [H6 [H7 [_ [_ [H8 H9]]]]]]]]]]. rewrite RT in H3.
  assert (HS : rs_size m0 = 2%nat) by lia. specialize (H8 eq_refl). specialize (H9 eq_refl).
  destruct (snr_rescaler_fit (fun v => v) m0 [mk [2%nat] (fun _ => 1)] None None) as [_ K]; [rewrite H2; exact H6|lia|].
  destruct K as [m [b [Ef [Hf [Sb [K1 [K2 [K3 [K4 [K5 [_ G]]]]]]]]]]]; [rewrite H2; reflexivity| |].
  { intros c Hc. replace c with 0%nat by lia. destruct (normalize_psd_frequency (mk [2%nat] (fun _ => 1)) 2 (rs_sr m0) (rbins (rs_size m0)) None) as [p [Ep _]]; [reflexivity|lia|]. eauto. }
  rewrite HS in *. assert (Gb : forall k, (k < 2)%nat -> elt b [0%nat; k] = 1).
  { intros k Hk. destruct (normalize_psd_frequency (mk [2%nat] (fun _ => 1)) 2 (rs_sr m0) 2 None) as [p [Ep [_ Gp]]]; [reflexivity|lia|].
    rewrite (G 0%nat p k); [apply Gp; assumption|lia|exact Hk|exact Ep]. }
  assert (P : psd_ok b 1 1).
  { apply (psd_ok_2d b 1 2 1); [rewrite Sb, H2; reflexivity|lia|]. intros [|c [|k [|? ?]]]; cbn; try tauto. intros [Hc [Hk _]].
    replace c with 0%nat by lia. rewrite Gb by assumption. lra. }
  destruct (network_snr_spec (mk [1; 1; 2]%nat (fun i => if (nth 2 i 0 =? 0)%nat then 1 else 0)) b 2 NoCut NoCut 1 1 2 eq_refl ltac:(lia) ltac:(lra) P I I) as [r0 [rho [E0 [E1 [S0 [S1 G0]]]]]].
  exists m0, m, b, r0. split; [reflexivity|]. split; [assumption|]. split; [assumption|]. split; [assumption|].
  rewrite K2, K3, H8, H9. split; [exact I|]. split; [exact I|]. unfold resc_snr. rewrite K1, K2, K3, H8, H9, H1. split; [assumption|].
  specialize (G0 0%nat ltac:(lia)). apply get_some in G0. destruct G0 as [_ ->]. apply sqrt_lt_R0. cbn [Rsum].
  destruct (ifo_snr_spec (mk [1; 1; 2]%nat (fun i => if (nth 2 i 0 =? 0)%nat then 1 else 0)) b 2 NoCut NoCut 1 1 2 eq_refl ltac:(lia) ltac:(lra) P I I) as [rho' [E1' [_ G1]]].
  rewrite E1 in E1'. injection E1' as <-. specialize (G1 0%nat 0%nat ltac:(lia) ltac:(lia)). apply get_some in G1. destruct G1 as [_ ->].
  rewrite Rplus_0_l. apply pow_lt, sqrt_lt_R0. unfold snr_sq.
  apply Rmult_lt_0_compat; [lra|]. apply Rmult_lt_0_compat; [|change (INR 2) with (1 + 1); lra]. apply Rsum_pos; [change (rbins 2) with 2%nat; lia|]. intros k Hk. cbn [hp_weight lp_weight].
  assert (Ek : rfft 2 (fun t => elt (mk [1; 1; 2]%nat (fun i => if (nth 2 i 0 =? 0)%nat then 1 else 0)) [0; 0; t]%nat) k = RtoC 1).
  { unfold rfft, dft. rewrite (Csum_single 2 0) by (try lia; intros [|[|i]] Hi N; cbn; try lia; ring). cbn [elt nth Nat.eqb].
    rewrite Cmult_1_l. rewrite Z.mul_0_r. cbn. apply w_0. }
  rewrite Ek, Cmod_1. assert (Pe : eff_psd b (rbins 2) 0 0 k = 1).
  { unfold eff_psd, pad_ndim3, ndim. rewrite Sb, H2. cbn. rewrite Sb, H2. cbn. apply Gb. exact Hk. }
  rewrite Pe. lra.
Qed.
