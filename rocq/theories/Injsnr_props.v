(** Property C95: the signal-to-noise ratio of projected waveforms - polarisation angle, sky position, distance. *)
From Coq Require Import String Reals Lra ZArith Lia.
From Coquelicot Require Import Coquelicot.
From Verif Require Import Base Tensor Rutil Norm_props Dft Gw_model Gw_spec Gw_props Ifo_props Snr_props Wsamp_model Wsamp_props Gen_model Gen_row Gen_props Gen_main Gen_appr.
Local Open Scope R_scope.

(** ** specification *)
(** the cross term of two series: 4 sum_k g_k Re(x_k conj y_k) / S_k df *)
Definition snr_cross (n : nat) (sr : R) (x y : nat -> R) (S g : nat -> R) : R :=
  4 * (Rsum (rbins n) (fun k => g k * (Re (Cmult (rfft n x k) (Cconj (rfft n y k))) / sr ^ 2 / S k)) * (sr / INR n)).
(** the antenna factor of source b in detector i *)
Definition factor (mode : string) (dec psi phi D : tensor R) (b i : nat) : R :=
  antenna mode (PI / 2 - elt dec [b]) (elt psi [b]) (elt phi [b]) (fun x y => elt D [i; x; y]).

Lemma snr_sq_comb n sr a b x y S g : (0 < n)%nat -> 0 < sr -> (forall k, (k < rbins n)%nat -> 0 < S k) ->
  snr_sq n sr (fun t => a * x t + b * y t) S g = a ^ 2 * snr_sq n sr x S g + 2 * a * b * snr_cross n sr x y S g + b ^ 2 * snr_sq n sr y S g.
Proof.
  intros Hn Hs HS. unfold snr_sq, snr_cross. assert (0 < INR n) by (apply lt_0_INR; lia).
  rewrite (Rsum_ext (rbins n) (fun k => g k * ((Cmod (rfft n (fun t => a * x t + b * y t) k) / sr) ^ 2 / S k))
    (fun k => a ^ 2 * (g k * ((Cmod (rfft n x k) / sr) ^ 2 / S k)) + (2 * a * b * (g k * (Re (Cmult (rfft n x k) (Cconj (rfft n y k))) / sr ^ 2 / S k)) + b ^ 2 * (g k * ((Cmod (rfft n y k) / sr) ^ 2 / S k))))).
  - rewrite !Rsum_plus, !Rsum_scal. field. lra.
  - intros k Hk. specialize (HS k Hk). unfold Rdiv. rewrite !Rpow_mult_distr, !Cmod_sq.
    assert (E : rfft n (fun t => a * x t + b * y t) k = Cplus (Cmult (RtoC a) (rfft n x k)) (Cmult (RtoC b) (rfft n y k))) by (rewrite rfft_plus, !rfft_scal; reflexivity).
    rewrite E. destruct (rfft n x k) as [x1 x2], (rfft n y k) as [y1 y2]. unfold Re, Im, Cmult, Cplus, Cconj, RtoC; cbn [fst snd]. field. lra.
Qed.
Lemma snr_sq_comb_bound n sr a b x y S g : (0 < n)%nat -> 0 < sr -> (forall k, (k < rbins n)%nat -> 0 < S k) -> (forall k, (k < rbins n)%nat -> 0 <= g k) ->
  snr_sq n sr (fun t => a * x t + b * y t) S g <= (a ^ 2 + b ^ 2) * (snr_sq n sr x S g + snr_sq n sr y S g).
Proof.
  intros Hn Hs HS Hg. pose proof (snr_sq_nonneg n sr (fun t => b * x t + - a * y t) S g Hn Hs HS Hg) as P. rewrite snr_sq_comb in * by assumption. lra.
Qed.
(** ** projection on the built-in detectors *)
(** dict(plus=hp, cross=hc) in either order *)
Definition both_pols (hp hc : tensor R) (pols : list (string * tensor R)) : Prop :=
  pols = [("plus"%string, hp); ("cross"%string, hc)] \/ pols = [("cross"%string, hc); ("plus"%string, hp)].
(** a batch of B waveforms of T samples with their sky parameters, on known detectors, with positive spectra *)
Definition scene (ifos : list string) (dec psi phi hp hc psd : tensor R) (pols : list (string * tensor R)) (sr : R) (hcut lcut : Gw_model.cutoff) (B T : nat) : Prop :=
  ifos <> [] /\ (forall f, In f ifos -> known_ifo f) /\ shape dec = [B] /\ shape psi = [B] /\ shape phi = [B] /\ shape hp = [B; T] /\ shape hc = [B; T] /\
  both_pols hp hc pols /\ (0 < T)%nat /\ 0 < sr /\ psd_ok psd B (List.length ifos) /\ cut_ok hcut (rbins T) /\ cut_ok lcut (rbins T) /\
  forall k, (k < rbins T)%nat -> 0 <= hp_weight T sr hcut k * lp_weight T sr lcut k.

Lemma factor_bound ifos dec psi phi D V b i : ifos <> [] -> (forall f, In f ifos -> known_ifo f) -> get_ifo_geometry ifos = Ok (D, V) -> (i < List.length ifos)%nat ->
  factor "plus" dec psi phi D b i ^ 2 + factor "cross" dec psi phi D b i ^ 2 <= (1 + 1 / 10 ^ 7) ^ 2.
Proof.
  intros Hne Hk Eg Hi. destruct (get_ifo_geometry_spec ifos Hne Hk) as [D' [V' [Eg' [SD [SV G]]]]].
  rewrite Eg in Eg'; injection Eg' as <- <-. destruct (G i Hi) as [X [Y [GD [NX [NY _]]]]]. unfold factor.
  set (th := PI / 2 - elt dec [b]).
  assert (AE : forall mode, antenna mode th (elt psi [b]) (elt phi [b]) (fun x y => elt D [i; x; y]) = antenna mode th (elt psi [b]) (elt phi [b]) (arm_tensor X Y)).
  { intros mode. unfold antenna. apply Rsum_ext; intros x Hx; apply Rsum_ext; intros y Hy. specialize (GD x y Hx Hy). apply get_some in GD. destruct GD as [_ ->]. reflexivity. }
  rewrite !AE. destruct (antenna_arms_bound th (elt psi [b]) (elt phi [b]) X Y) as [P _].
  apply Rabs_le_inv in NX. apply Rabs_le_inv in NY. eapply Rle_trans; [exact P|]. apply pow_incr. lra.
Qed.
(** the strain in detector i is the rolled combination of the polarisations *)
Lemma strain_comb dec psi phi D V sr hp hc pols T b i t Bp : both_pols hp hc pols -> (b < Bp)%nat ->
  strain_at dec psi phi D V sr pols Bp T b i t =
    croll T (delay sr (PI / 2 - elt dec [b]) (elt phi [b]) (fun x => elt V [i; x]))
      (fun t => factor "plus" dec psi phi D b i * elt hp [b; t] + factor "cross" dec psi phi D b i * elt hc [b; t]) t.
Proof.
  intros Hp Hb. unfold strain_at, croll, factor. assert (E : (if (Bp =? 1)%nat then 0%nat else b) = b) by (destruct (Nat.eqb_spec Bp 1); lia).
  destruct Hp as [-> | ->]; cbn [List.length Rsum nth]; rewrite E; ring.
Qed.
(** ** the SNR of a projected waveform: a quadratic form in the antenna factors, never more than that of both polarisations together *)
Theorem projected_snr ifos dec psi phi hp hc psd pols sr hcut lcut B T : scene ifos dec psi phi hp hc psd pols sr hcut lcut B T ->
  exists D V m X rho r, get_ifo_geometry ifos = Ok (D, V) /\ proj_create ifos sr = Ok m /\ proj_forward m dec psi phi pols = Ok X /\ shape X = [B; List.length ifos; T] /\
    compute_ifo_snr X psd sr hcut lcut = Ok rho /\ compute_network_snr X psd sr hcut lcut = Ok r /\ shape rho = [B; List.length ifos] /\ shape r = [B] /\
    (forall b i, (b < B)%nat -> (i < List.length ifos)%nat ->
       let Sn := eff_psd psd (rbins T) b i in let g k := hp_weight T sr hcut k * lp_weight T sr lcut k in
       let P := snr_sq T sr (fun t => elt hp [b; t]) Sn g in let Q := snr_sq T sr (fun t => elt hc [b; t]) Sn g in
       let M := snr_cross T sr (fun t => elt hp [b; t]) (fun t => elt hc [b; t]) Sn g in
       let Fp := factor "plus" dec psi phi D b i in let Fc := factor "cross" dec psi phi D b i in
       0 <= elt rho [b; i] /\ elt rho [b; i] ^ 2 = Fp ^ 2 * P + 2 * Fp * Fc * M + Fc ^ 2 * Q /\ elt rho [b; i] ^ 2 <= (1 + 1 / 10 ^ 7) ^ 2 * (P + Q)) /\
    (forall b, (b < B)%nat -> elt r [b] ^ 2 <= (1 + 1 / 10 ^ 7) ^ 2 * Rsum (List.length ifos) (fun i =>
       let Sn := eff_psd psd (rbins T) b i in let g k := hp_weight T sr hcut k * lp_weight T sr lcut k in
       snr_sq T sr (fun t => elt hp [b; t]) Sn g + snr_sq T sr (fun t => elt hc [b; t]) Sn g)).
Proof.
  intros (Hne & Hk & Sd & Ss & Sp & Shp & Shc & Hp & HT & Hsr & Hpsd & Hh & Hl & Hw).
  destruct (projector_spec ifos sr dec psi phi pols B B T Hne Hk Sd Ss Sp) as (D & V & m & X & Eg & Em & EX & SX & GX).
  { destruct Hp as [-> | ->]; discriminate. }
  { intros mode h Hin. destruct Hp as [-> | ->]; destruct Hin as [E|[E|[]]]; injection E as <- <-; (split; [unfold known_mode; tauto|assumption]). }
  { left; reflexivity. }
  destruct (ifo_snr_spec X psd sr hcut lcut B (List.length ifos) T SX HT Hsr Hpsd Hh Hl) as (rho & Er & Sr & Gr).
  destruct (network_snr_spec X psd sr hcut lcut B (List.length ifos) T SX HT Hsr Hpsd Hh Hl) as (r & rho' & En & Er' & Sn & _ & Gn).
  rewrite Er in Er'. injection Er' as <-.
  exists D, V, m, X, rho, r. do 8 (split; [assumption|]).
  assert (MAIN : forall b i, (b < B)%nat -> (i < List.length ifos)%nat ->
       let Sn := eff_psd psd (rbins T) b i in let g k := hp_weight T sr hcut k * lp_weight T sr lcut k in
       let P := snr_sq T sr (fun t => elt hp [b; t]) Sn g in let Q := snr_sq T sr (fun t => elt hc [b; t]) Sn g in
       let M := snr_cross T sr (fun t => elt hp [b; t]) (fun t => elt hc [b; t]) Sn g in
       let Fp := factor "plus" dec psi phi D b i in let Fc := factor "cross" dec psi phi D b i in
       0 <= elt rho [b; i] /\ elt rho [b; i] ^ 2 = Fp ^ 2 * P + 2 * Fp * Fc * M + Fc ^ 2 * Q /\ elt rho [b; i] ^ 2 <= (1 + 1 / 10 ^ 7) ^ 2 * (P + Q)).
  { intros b i Hb Hi s g P Q M Fp Fc. pose proof (Gr b i Hb Hi) as Ge. apply get_some in Ge. destruct Ge as [_ Ge]. fold s g in Ge.
    assert (HS : forall k, (k < rbins T)%nat -> 0 < s k) by (intros k Hk'; apply (eff_psd_pos psd B (List.length ifos)); assumption).
    assert (EX1 : snr_sq T sr (fun t => elt X [b; i; t]) s g = snr_sq T sr (fun t => Fp * elt hp [b; t] + Fc * elt hc [b; t]) s g).
    { rewrite <- (snr_sq_shift T sr (fun t => Fp * elt hp [b; t] + Fc * elt hc [b; t]) s g (delay sr (PI / 2 - elt dec [b]) (elt phi [b]) (fun x => elt V [i; x])) HT).
      apply snr_sq_ext. intros k Hk'. split; [reflexivity|]. intros _. split; [reflexivity|]. f_equal. apply rfft_ext. intros t Ht.
      pose proof (GX b i t Hb Hi Ht) as Gt. apply get_some in Gt. destruct Gt as [_ ->]. unfold Fp, Fc. apply strain_comb; assumption. }
    rewrite Ge, EX1. split; [apply sqrt_pos|].
    rewrite pow2_sqrt by (apply snr_sq_nonneg; assumption). split; [unfold P, Q, M; apply snr_sq_comb; assumption|].
    eapply Rle_trans; [apply snr_sq_comb_bound; assumption|]. fold P Q. apply Rmult_le_compat_r; [apply Rplus_le_le_0_compat; apply snr_sq_nonneg; assumption|].
    apply (factor_bound ifos dec psi phi D V b i Hne Hk Eg Hi). }
  split; [exact MAIN|]. intros b Hb. pose proof (Gn b Hb) as Ge. apply get_some in Ge. destruct Ge as [_ ->].
  rewrite pow2_sqrt by (apply Rsum_nonneg; intros; apply pow2_ge_0). rewrite <- Rsum_scal. apply Rsum_le. intros i Hi. apply (MAIN b i Hb Hi).
Qed.
(** ** the polarisation angle: turning it by 45 degrees gives the complementary SNR, by 90 degrees the same one *)
Theorem snr_psi ifos dec psi psi' phi hp hc psd pols sr hcut lcut B T delta :
  scene ifos dec psi phi hp hc psd pols sr hcut lcut B T -> scene ifos dec psi' phi hp hc psd pols sr hcut lcut B T ->
  (forall b, (b < B)%nat -> elt psi' [b] = elt psi [b] + delta) -> delta = PI / 4 \/ delta = PI / 2 ->
  exists D V m X X' rho rho', get_ifo_geometry ifos = Ok (D, V) /\ proj_create ifos sr = Ok m /\ proj_forward m dec psi phi pols = Ok X /\ proj_forward m dec psi' phi pols = Ok X' /\
    compute_ifo_snr X psd sr hcut lcut = Ok rho /\ compute_ifo_snr X' psd sr hcut lcut = Ok rho' /\
    forall b i, (b < B)%nat -> (i < List.length ifos)%nat ->
       let Sn := eff_psd psd (rbins T) b i in let g k := hp_weight T sr hcut k * lp_weight T sr lcut k in
       (delta = PI / 2 -> elt rho' [b; i] = elt rho [b; i]) /\
       (delta = PI / 4 -> elt rho [b; i] ^ 2 + elt rho' [b; i] ^ 2 = (factor "plus" dec psi phi D b i ^ 2 + factor "cross" dec psi phi D b i ^ 2)
          * (snr_sq T sr (fun t => elt hp [b; t]) Sn g + snr_sq T sr (fun t => elt hc [b; t]) Sn g)).
Proof.
  intros Sc Sc' Hd Hdelta.
  destruct (projected_snr ifos dec psi phi hp hc psd pols sr hcut lcut B T Sc) as (D & V & m & X & rho & r & Eg & Em & EX & _ & Er & _ & _ & _ & H1 & _).
  destruct (projected_snr ifos dec psi' phi hp hc psd pols sr hcut lcut B T Sc') as (D' & V' & m' & X' & rho' & r' & Eg' & Em' & EX' & _ & Er' & _ & _ & _ & H1' & _).
  rewrite Eg in Eg'. injection Eg' as <- <-. rewrite Em in Em'. injection Em' as <-.
  exists D, V, m, X, X', rho, rho'. do 6 (split; [assumption|]). intros b i Hb Hi s g.
  destruct (H1 b i Hb Hi) as (P1 & E1 & _). destruct (H1' b i Hb Hi) as (P1' & E1' & _). cbv zeta in E1, E1'. fold s g in E1, E1'.
  destruct (antenna_rot (PI / 2 - elt dec [b]) (elt psi [b]) (elt phi [b]) delta (fun x y => elt D [i; x; y])) as (Rp & Rc & _).
  unfold factor in E1' at 1 2 3 4. rewrite (Hd b Hb), Rp, Rc in E1'. fold (factor "plus" dec psi phi D b i) (factor "cross" dec psi phi D b i) in E1'.
  split; intros ->.
  - replace (2 * (PI / 2)) with PI in E1' by field. rewrite cos_PI, sin_PI in E1'.
    apply Rsqr_inj; [assumption|assumption|]. rewrite !Rsqr_pow2, E1, E1'. ring.
  - replace (2 * (PI / 4)) with (PI / 2) in E1' by field. rewrite cos_PI2, sin_PI2 in E1'. rewrite E1, E1'. ring.
Qed.
(** ** amplitude and distance *)
Lemma scaled_snr ifos dec psi phi hp hc hp' hc' psd pols pols' sr hcut lcut B T (c : nat -> R) :
  scene ifos dec psi phi hp hc psd pols sr hcut lcut B T -> scene ifos dec psi phi hp' hc' psd pols' sr hcut lcut B T ->
  (forall b t, (b < B)%nat -> (t < T)%nat -> elt hc' [b; t] = c b * elt hc [b; t] /\ elt hp' [b; t] = c b * elt hp [b; t]) ->
  exists m X X' r r', proj_create ifos sr = Ok m /\ proj_forward m dec psi phi pols = Ok X /\ proj_forward m dec psi phi pols' = Ok X' /\
    shape X = [B; List.length ifos; T] /\ shape X' = [B; List.length ifos; T] /\
    compute_network_snr X psd sr hcut lcut = Ok r /\ compute_network_snr X' psd sr hcut lcut = Ok r' /\ shape r = [B] /\ shape r' = [B] /\
    (forall b i t, (b < B)%nat -> (i < List.length ifos)%nat -> (t < T)%nat -> elt X' [b; i; t] = c b * elt X [b; i; t]) /\
    forall b, (b < B)%nat -> elt r' [b] = Rabs (c b) * elt r [b].
Proof.
  intros (Hne & Hk & Sd & Ss & Sp & Shp & Shc & Hp & HT & Hsr & Hpsd & Hh & Hl & _) (_ & _ & _ & _ & _ & Shp' & Shc' & Hp' & _) Hc.
  assert (PR : forall hp hc pols, shape hp = [B; T] -> shape hc = [B; T] -> both_pols hp hc pols ->
     exists D V m X, get_ifo_geometry ifos = Ok (D, V) /\ proj_create ifos sr = Ok m /\ proj_forward m dec psi phi pols = Ok X /\ shape X = [B; List.length ifos; T] /\
       forall b i t, (b < B)%nat -> (i < List.length ifos)%nat -> (t < T)%nat -> elt X [b; i; t] = strain_at dec psi phi D V sr pols B T b i t).
  { clear - Hne Hk Sd Ss Sp. intros hp hc pols S1 S2 H.
    destruct (projector_spec ifos sr dec psi phi pols B B T Hne Hk Sd Ss Sp) as (D & V & m & X & Eg & Em & EX & SX & GX).
    { destruct H as [-> | ->]; discriminate. }
    { intros mode h Hin. destruct H as [-> | ->]; destruct Hin as [E|[E|[]]]; injection E as <- <-; (split; [unfold known_mode; tauto|assumption]). }
    { left; reflexivity. }
    exists D, V, m, X. do 4 (split; [assumption|]). intros b i t Hb Hi Ht. pose proof (GX b i t Hb Hi Ht) as G. apply get_some in G. apply G. }
  destruct (PR hp hc pols Shp Shc Hp) as (D & V & m & X & Eg & Em & EX & SX & GX).
  destruct (PR hp' hc' pols' Shp' Shc' Hp') as (D' & V' & m' & X' & Eg' & Em' & EX' & SX' & GX').
  rewrite Eg in Eg'. injection Eg' as <- <-. rewrite Em in Em'. injection Em' as <-.
  assert (XX : forall b i t, (b < B)%nat -> (i < List.length ifos)%nat -> (t < T)%nat -> elt X' [b; i; t] = c b * elt X [b; i; t]).
  { intros b i t Hb Hi Ht. rewrite GX, GX' by assumption. rewrite (strain_comb dec psi phi D V sr hp hc pols T b i t B Hp Hb), (strain_comb dec psi phi D V sr hp' hc' pols' T b i t B Hp' Hb).
    unfold croll. set (s := Z.to_nat _). assert (Hs : (s < T)%nat). { unfold s. pose proof (Z.mod_pos_bound (Z.of_nat t - delay sr (PI / 2 - elt dec [b]) (elt phi [b]) (fun x => elt V [i; x])) (Z.of_nat T)). lia. }
    destruct (Hc b s Hb Hs) as [-> ->]. ring. }
  destruct (network_snr_spec X psd sr hcut lcut B (List.length ifos) T SX HT Hsr Hpsd Hh Hl) as (r & rho & En & _ & Sn & _ & _).
  destruct (network_snr_spec X' psd sr hcut lcut B (List.length ifos) T SX' HT Hsr Hpsd Hh Hl) as (r' & rho' & En' & _ & Sn' & _ & _).
  exists m, X, X', r, r'. do 9 (split; [assumption|]). split; [exact XX|].
  destruct (snr_homogeneous X X' psd sr hcut lcut c B (List.length ifos) T SX SX') as (q1 & q2 & q3 & q4 & _ & _ & E3 & E4 & _ & H); try assumption.
  { intros b i t (Hb & Hi & Ht & _). apply XX; assumption. }
  rewrite En in E3. injection E3 as <-. rewrite En' in E4. injection E4 as <-. exact H.
Qed.
(** two runs of TimeDomainCBCWaveformGenerator of which the second gives c_b times the first (C76: c_b = 1 / k_b if the distance of row b is
    multiplied by k_b), projected and measured *)
Theorem generated_snr g rs approx approx' (c : nat -> R) : scaled_rows g rs approx approx' c c ->
  exists hc hp hc' hp' n, gen_forward g approx rs = Ok (hc, hp) /\ gen_forward g approx' rs = Ok (hc', hp') /\
  shape hc = [List.length rs; n] /\ shape hp = [List.length rs; n] /\ shape hc' = [List.length rs; n] /\ shape hp' = [List.length rs; n] /\
  forall ifos dec psi phi psd hcut lcut,
    scene ifos dec psi phi hp hc psd [("cross"%string, hc); ("plus"%string, hp)] (g_sr g) hcut lcut (List.length rs) n ->
    exists m X X' r r', proj_create ifos (g_sr g) = Ok m /\
      proj_forward m dec psi phi [("cross"%string, hc); ("plus"%string, hp)] = Ok X /\ proj_forward m dec psi phi [("cross"%string, hc'); ("plus"%string, hp')] = Ok X' /\
      compute_network_snr X psd (g_sr g) hcut lcut = Ok r /\ compute_network_snr X' psd (g_sr g) hcut lcut = Ok r' /\
      (forall b, (b < List.length rs)%nat -> elt r' [b] = Rabs (c b) * elt r [b]) /\
      (* reweighting to a target SNR is the same as moving the source *)
      forall target, (shape target = [] \/ shape target = [List.length rs]) ->
        (forall b, (b < List.length rs)%nat -> 0 < elt r [b] /\ c b = elt (expand_b target) [b] / elt r [b]) ->
        exists y, reweight_snrs X target psd (g_sr g) hcut lcut = Ok y /\ shape y = shape X' /\
          forall j, inb j (shape y) -> elt y j = elt X' j.
Proof.
  intros (hc & hp & hc' & hp' & n & E & E' & S1 & S2 & S3 & S4 & H). exists hc, hp, hc', hp', n. split; [exact E|]. split; [exact E'|]. do 4 (split; [assumption|]).
  intros ifos dec psi phi psd hcut lcut Sc.
  assert (Sc' : scene ifos dec psi phi hp' hc' psd [("cross"%string, hc'); ("plus"%string, hp')] (g_sr g) hcut lcut (List.length rs) n).
  { destruct Sc as (Hne & Hk & Sd & Ss & Sp & Shp & Shc & Hp & HT & Hsr & Hpsd & Hh & Hl & Hw). repeat (split; [assumption|]). split; [right; reflexivity|]. repeat (split; [assumption|]). exact Hw. }
  destruct (scaled_snr _ _ _ _ _ _ _ _ _ _ _ _ _ _ _ _ c Sc Sc' H) as (m & X & X' & r & r' & Em & EX & EX' & SX & SX' & Er & Er' & Sr & Sr' & XX & RR).
  exists m, X, X', r, r'. do 5 (split; [assumption|]). split; [exact RR|]. intros target St Ht.
  destruct Sc as (Hne & Hk & Sd & Ss & Sp & Shp & Shc & Hp & HT & Hsr & Hpsd & Hh & Hl & Hw).
  destruct (reweight_snrs_hits_target X target psd (g_sr g) hcut lcut (List.length rs) (List.length ifos) n r SX St HT Hsr Hpsd Hh Hl Er) as (y & r2 & Ey & Sy & _ & Vy & _).
  exists y. split; [exact Ey|]. split; [congruence|]. rewrite Sy. intros [|b [|i [|t [|]]]]; cbn [inb]; try tauto. intros (Hb & Hi & Ht' & _).
  rewrite Vy, XX by assumption. destruct (Ht b Hb) as [_ <-]. reflexivity.
Qed.
(** reweight_snrs moves the source: for an IMRPhenomD binary it gives what the generator and projector give for the distance
    multiplied by SNR / target *)
Theorem reweighting_is_distance g rs q0 mc q chi1 chi2 dist phic incl f_ref dist' hc hp n ifos dec psi phi psd hcut lcut m X r target :
  good_gen g -> g_sr g = 2 * INR q0 -> rs <> [] -> (forall r, In r rs -> good_row r) -> List.length (g_a g) = List.length (g_b g) ->
  List.length mc = List.length rs -> Phd_main.same_len (List.length mc) [q; chi1; chi2; dist; phic; incl] ->
  (forall i, (i < List.length mc)%nat -> Phd_main.physical (nth i mc 0) (nth i q 0) (nth i chi1 0) (nth i chi2 0)) -> (forall i, (i < List.length mc)%nat -> 0 < nth i dist 0) ->
  gen_forward g (fun fs => Phd_model.pd_forward fs mc q chi1 chi2 dist phic incl f_ref) rs = Ok (hc, hp) ->
  scene ifos dec psi phi hp hc psd [("cross"%string, hc); ("plus"%string, hp)] (g_sr g) hcut lcut (List.length rs) n ->
  proj_create ifos (g_sr g) = Ok m -> proj_forward m dec psi phi [("cross"%string, hc); ("plus"%string, hp)] = Ok X -> compute_network_snr X psd (g_sr g) hcut lcut = Ok r ->
  shape target = [List.length rs] -> (forall b, (b < List.length rs)%nat -> 0 < elt target [b] /\ 0 < elt r [b]) ->
  List.length dist' = List.length mc -> (forall b, (b < List.length mc)%nat -> nth b dist' 0 = elt r [b] / elt target [b] * nth b dist 0) ->
  exists hc' hp' X' y, gen_forward g (fun fs => Phd_model.pd_forward fs mc q chi1 chi2 dist' phic incl f_ref) rs = Ok (hc', hp') /\
    proj_forward m dec psi phi [("cross"%string, hc'); ("plus"%string, hp')] = Ok X' /\
    reweight_snrs X target psd (g_sr g) hcut lcut = Ok y /\ shape y = shape X' /\ forall j, inb j (shape y) -> elt y j = elt X' j.
Proof.
  intros Hg Hq Hne Hrs Hab Hlen HS HP HD Egen Sc Em EX Er St Hpos Ld Hd.
  destruct (generated_distance g rs q0 Hg Hq Hne Hrs Hab mc q chi1 chi2 dist phic incl f_ref Hlen HS HP HD dist' (fun b => elt r [b] / elt target [b]) Ld) as [_ SR].
  { intros b Hb. split; [|apply Hd, Hb]. destruct (Hpos b ltac:(lia)). apply Rdiv_lt_0_compat; assumption. }
  destruct (generated_snr g rs _ _ _ SR) as (hc1 & hp1 & hc' & hp' & n1 & E1 & E' & S1 & _ & _ & _ & H). unfold PhD in E1, E'. rewrite Egen in E1. injection E1 as <- <-.
  assert (n1 = n) by (destruct Sc as (_ & _ & _ & _ & _ & _ & Shc & _); congruence). subst n1.
  destruct (H ifos dec psi phi psd hcut lcut Sc) as (m1 & X1 & X' & r1 & r' & Em1 & EX1 & EX' & Er1 & Er' & _ & RW).
  rewrite Em in Em1. injection Em1 as <-. rewrite EX in EX1. injection EX1 as <-. rewrite Er in Er1. injection Er1 as <-.
  destruct (RW target (or_intror St)) as (y & Ey & Sy & Vy).
  { intros b Hb. destruct (Hpos b Hb) as [T1 T2]. split; [exact T2|]. unfold expand_b. rewrite St. field. lra. }
  exists hc', hp', X', y. repeat (split; [assumption|]). exact Vy.
Qed.
(** example: a scene with two detectors, a flat spectrum and no cut *)
Example scene_ex : let hp := mk [1%nat; 8%nat] (fun i => INR (nth 1 i 0%nat)) in let hc := mk [1%nat; 8%nat] (fun i => 1 - INR (nth 1 i 0%nat)) in let one x := mk [1%nat] (fun _ => x) in
  scene ["H1"; "L1"]%string (one (1/2)) (one 1) (one 2) hp hc (mk [2; 5]%nat (fun _ => 2)) [("cross"%string, hc); ("plus"%string, hp)] 16 (Freq 2) NoCut 1 8.
Proof.
  cbv zeta. split; [discriminate|]. split; [intros f [<-|[<-|[]]]; unfold known_ifo; cbn [In]; tauto|]. do 5 (split; [reflexivity|]). split; [right; reflexivity|]. split; [lia|]. split; [lra|].
  split; [apply (psd_ok_2d _ 2 5 1); [reflexivity|lia|intros; cbn; lra]|]. split; [exact I|]. split; [exact I|].
  intros k _. unfold hp_weight, lp_weight. destruct (Rle_dec _ _); lra.
Qed.
