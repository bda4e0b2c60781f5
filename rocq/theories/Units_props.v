(** Property C97: results do not depend on the unit of the strain (nor on constant offsets, for whitening). *)
From Coq Require Import String.
From Coquelicot Require Import Coquelicot.
From Verif Require Import Base Tensor Rutil Slicing_model Norm_model Norm_props Gw_model Gw_spec Gw_props Dft Snr_props Spectral_model Spectral_props Psd_props Fastpsd_props Fastpsd2_props Whiten_props Fit_model Fit_props Rescaler_props WhitenMod_props.
Local Open Scope R_scope.

(** ** specification *)
(** x' is x in another unit, with another constant added to every series *)
Definition rescaled (c : R) (d : list nat -> R) (x x' : tensor R) : Prop :=
  shape x' = shape x /\ forall pre t, inb (pre ++ [t]) (shape x) -> elt x' (pre ++ [t]) = c * elt x (pre ++ [t]) + d pre.
(** psd' is psd in the squared unit *)
Definition rescaled_psd (c : R) (psd psd' : tensor R) : Prop :=
  shape psd' = shape psd /\ forall j, inb j (shape psd) -> elt psd' j = c ^ 2 * elt psd j.
Definition sgn (c : R) : R := if Rlt_dec c 0 then -1 else 1.
(** the real parts of what SpectralDensity returns: its values are real (C67) *)
Definition re_t (z : tensor C) : tensor R := mk (shape z) (fun i => Re (elt z i)).

(** r' is k times r *)
Definition times (k : R) (r r' : tensor R) : Prop :=
  shape r' = shape r /\ forall i v, get r i = Some v -> get r' i = Some (k * v).

(** ** proofs *)
Lemma interp_lin_scal n size f g c j : (0 < n)%nat -> (forall i, (i < n)%nat -> g i = c * f i) -> interp_lin n size g j = c * interp_lin n size f j.
Proof. intros Hn H. unfold interp_lin. cbv zeta. rewrite !H by lia. ring. Qed.
Lemma pad3_scal c psd psd' : rescaled_psd c psd psd' -> rescaled_psd c (pad_ndim3 psd) (pad_ndim3 psd').
Proof.
  intros [Sh V]. unfold pad_ndim3, ndim. rewrite Sh.
  destruct (shape psd) as [|n0 [|n1 [|n2 l]]] eqn:E; cbn [List.length]; (split; [cbn [shape unsqueeze0]; rewrite ?Sh, ?E; reflexivity|]);
    cbn [shape unsqueeze0]; intros j Hj; rewrite E in *.
  - destruct j as [|a [|b [|d j]]]; cbn in Hj; try tauto. cbn [elt tl]. apply V. tauto.
  - destruct j as [|a [|b j]]; cbn [inb] in Hj; try tauto. cbn [elt tl]. apply V. tauto.
  - destruct j as [|a j]; cbn [inb] in Hj; try tauto. cbn [elt tl]. apply V. tauto.
  - apply V. assumption.
Qed.
Lemma eff_psd_scal c psd psd' B ni F b i k : psd_ok psd B ni -> rescaled_psd c psd psd' -> (b < B)%nat -> (i < ni)%nat -> (k < F)%nat ->
  eff_psd psd' F b i k = c ^ 2 * eff_psd psd F b i k.
Proof.
  intros (pb & pi & pf & Sp & Hb0 & Hi0 & Hf & Hp) Rp Hb Hi Hk.
  destruct (pad3_scal _ _ _ Rp) as [Sp' V']. unfold eff_psd. rewrite Sp', Sp.
  assert (E : forall j, (j < pf)%nat -> elt (pad_ndim3 psd') [if (pb =? 1)%nat then 0%nat else b; if (pi =? 1)%nat then 0%nat else i; j] =
     c ^ 2 * elt (pad_ndim3 psd) [if (pb =? 1)%nat then 0%nat else b; if (pi =? 1)%nat then 0%nat else i; j]).
  { intros j Hj. apply V'. rewrite Sp. cbn [inb]. destruct (Nat.eqb_spec pb 1), (Nat.eqb_spec pi 1); lia. }
  destruct (Nat.eqb_spec pf F) as [->|N]; [apply E, Hk|]. apply interp_lin_scal; [exact Hf|exact E].
Qed.
Lemma psd_ok_scal c psd psd' B ni : c <> 0 -> psd_ok psd B ni -> rescaled_psd c psd psd' -> psd_ok psd' B ni.
Proof.
  intros Hc (pb & pi & pf & Sp & Hb0 & Hi0 & Hf & Hp) Rp. destruct (pad3_scal _ _ _ Rp) as [Sp' V'].
  exists pb, pi, pf. rewrite Sp', Sp. repeat split; try assumption. rewrite <- Sp. intros j Hj. rewrite V' by assumption.
  apply Rmult_lt_0_compat; [|apply Hp, Hj]. apply pow2_gt_0, Hc.
Qed.
Lemma sgn_abs c : c <> 0 -> / sqrt (c ^ 2) * c = sgn c.
Proof.
  intros Hc. rewrite <- Rsqr_pow2, sqrt_Rsqr_abs. unfold sgn. destruct (Rlt_dec c 0).
  - rewrite Rabs_left by assumption. field. assumption.
  - rewrite Rabs_right by lra. field. assumption.
Qed.
Lemma filtered_ext N sr H x y t : (forall u, (u < N)%nat -> x u = y u) -> filtered N sr H x t = filtered N sr H y t.
Proof.
  intros E. unfold filtered. f_equal. apply irfft_ext. intros k _. f_equal. apply rfft_ext. intros u Hu. rewrite (Rsum_ext _ _ _ E), E by assumption. reflexivity.
Qed.
(** the core: one series *)
Lemma filtered_units N sr pad wl W hp lp P P' g g' c d x x' t : (2 <= N)%nat -> c <> 0 ->
  (forall u, (u < N)%nat -> x' u = c * x u + d) -> (forall k, (k < rbins N)%nat -> P' k = c ^ 2 * P k) ->
  inv_amp (rbins N) sr hp lp P g -> inv_amp (rbins N) sr hp lp P' g' ->
  filtered N sr (fun k => sqrt 2 * Cmod (response (rbins N) pad wl W g' k)) x' t =
  sgn c * filtered N sr (fun k => sqrt 2 * Cmod (response (rbins N) pad wl W g k)) x t.
Proof.
  intros HN Hc Hx HP Hg Hg'.
  assert (Hg2 : inv_amp (rbins N) sr hp lp (fun k => c ^ 2 * P k) g').
  { intros k Hk. destruct (Hg' k Hk) as [A1 A2]. split; [exact A1|]. rewrite <- HP by assumption. exact A2. }
  rewrite (whitened_psd_scale N sr pad wl W hp lp P g g' (c ^ 2) x' t HN (pow2_gt_0 c Hc) Hg Hg2).
  rewrite (filtered_ext N sr _ x' (fun u => (c * x u + 0 * 0) + d)) by (intros; rewrite Hx by assumption; ring).
  rewrite filtered_offset by lia. rewrite (filtered_linear N sr _ c 0 x (fun _ => 0)) by lia.
  rewrite <- sgn_abs by assumption. ring.
Qed.

(** [whiten]: the strain in another unit (and with another offset in every series) and the PSD in the squared unit give the same
    whitened strain, up to the sign of the factor *)
Theorem units_whiten fmax X X' psd psd' c d B ch N fd sr pad wl W hp lp crop :
  shape X = [B; ch; N] -> psd_ok psd B ch -> c <> 0 -> rescaled c d X X' -> rescaled_psd c psd psd' ->
  0 < sr -> fd_ok fd sr pad wl W -> (1 <= pad)%nat -> (2 * pad < N)%nat -> freq_ok hp -> freq_ok lp ->
  exists r r', whiten fmax X psd fd sr hp lp crop = Ok r /\ whiten fmax X' psd' fd sr hp lp crop = Ok r' /\ times (sgn c) r r'.
Proof.
  intros SX HP Hc [SX' VX] Rp Hsr Hfd Hpad HN Hh Hl.
  assert (HP' := psd_ok_scal c psd psd' B ch Hc HP Rp). rewrite SX in SX', VX.
  destruct (whiten_spec fmax X psd B ch N fd sr pad wl W hp lp crop SX HP Hsr Hfd Hpad HN Hh Hl) as (r & E & Sr & G).
  destruct (whiten_spec fmax X' psd' B ch N fd sr pad wl W hp lp crop SX' HP' Hsr Hfd Hpad HN Hh Hl) as (r' & E' & Sr' & G').
  exists r, r'. split; [exact E|]. split; [exact E'|]. split; [rewrite Sr, Sr'; reflexivity|]. intros i v Hi.
  assert (Hi0 := Hi). apply get_some in Hi0 as [Hin _]. rewrite Sr in Hin.
  destruct i as [|b [|q [|t [|]]]]; cbn [inb] in Hin; try tauto. destruct Hin as (Hb & Hq & Ht & _).
  destruct (G b q Hb Hq) as (g & Ig & Gg). destruct (G' b q Hb Hq) as (g' & Ig' & Gg').
  rewrite Gg in Hi by assumption. injection Hi as <-. rewrite Gg' by assumption. f_equal.
  apply (filtered_units N sr pad wl W hp lp (eff_psd psd (rbins N) b q) (eff_psd psd' (rbins N) b q) g g' c (d [b; q])); try assumption; try lia.
  - intros u Hu. apply (VX [b; q] u). cbn. lia.
  - intros k Hk. apply (eff_psd_scal c psd psd' B ch); assumption.
Qed.
(** the same of the [Whiten] module *)
Theorem units_whiten_module fmax X X' psd psd' c d B ch N fdur sr size hp lp crop :
  shape X = [B; ch; N] -> psd_ok psd B ch -> c <> 0 -> rescaled c d X X' -> rescaled_psd c psd psd' ->
  0 < sr -> INR size <= fdur * sr < INR size + 1 -> (2 <= size)%nat -> (2 * (size / 2) < N)%nat -> freq_ok hp -> freq_ok lp ->
  exists r r', whiten_module fmax fdur sr hp lp X psd crop = Ok r /\ whiten_module fmax fdur sr hp lp X' psd' crop = Ok r' /\ times (sgn c) r r'.
Proof.
  intros SX HP Hc [SX' VX] Rp Hsr Hs H2 HN Hh Hl.
  assert (HP' := psd_ok_scal c psd psd' B ch Hc HP Rp). rewrite SX in SX', VX.
  destruct (whiten_module_spec fmax fdur sr hp lp X psd crop B ch N size SX HP Hsr Hs H2 HN Hh Hl) as (r & E & Sr & G).
  destruct (whiten_module_spec fmax fdur sr hp lp X' psd' crop B ch N size SX' HP' Hsr Hs H2 HN Hh Hl) as (r' & E' & Sr' & G').
  assert (P2 : (1 <= size / 2)%nat) by (apply Nat.div_le_lower_bound; lia). set (pad := (size / 2)%nat) in *. clearbody pad.
  exists r, r'. split; [exact E|]. split; [exact E'|]. split; [rewrite Sr, Sr'; reflexivity|]. intros i v Hi.
  assert (Hi0 := Hi). apply get_some in Hi0 as [Hin _]. rewrite Sr in Hin.
  destruct i as [|b [|q [|t [|]]]]; cbn [inb] in Hin; try tauto. destruct Hin as (Hb & Hq & Ht & _).
  destruct (G b q Hb Hq) as (g & Ig & Gg). destruct (G' b q Hb Hq) as (g' & Ig' & Gg').
  rewrite Gg in Hi by assumption. injection Hi as <-. rewrite Gg' by assumption. f_equal.
  apply (filtered_units N sr pad size (hann size) hp lp (eff_psd psd (rbins N) b q) (eff_psd psd' (rbins N) b q) g g' c (d [b; q])); try assumption; try lia.
  - intros u Hu. apply (VX [b; q] u). cbn. lia.
  - intros k Hk. apply (eff_psd_scal c psd psd' B ch); assumption.
Qed.

Lemma nseg_inside T n stride s : (0 < stride)%nat -> (0 < n <= T)%nat -> (s < nseg T n stride)%nat -> (s * stride + n <= T)%nat.
Proof.
  intros Hs Hn H. unfold nseg in H. assert ((s <= (T - n) / stride)%nat) by lia.
  assert (M := Nat.mul_div_le (T - n) stride ltac:(lia)). nia.
Qed.
Lemma fast_csd_ext average n stride T w scale x x' y y' f : (0 < stride)%nat -> (0 < n <= T)%nat ->
  (forall t, (t < T)%nat -> x' t = x t) -> (forall t, (t < T)%nat -> y' t = y t) ->
  fast_csd (aggregate average) n stride T w scale x' y' f = fast_csd (aggregate average) n stride T w scale x y f.
Proof.
  intros Hs Hn Hx Hy. unfold fast_csd.
  assert (E : forall z z', (forall t, (t < T)%nat -> z' t = z t) -> forall s, (s < nseg T n stride)%nat -> fast_seg n T w z' (s * stride) f = fast_seg n T w z (s * stride) f).
  { intros z z' Hz s H. assert (A := nseg_inside T n stride s Hs Hn H). unfold fast_seg. apply rfft_ext. intros t Ht.
    rewrite (Rsum_ext _ _ _ Hz), Hz by lia. reflexivity. }
  f_equal; apply aggregate_ext; intros s H; rewrite (E _ _ Hx s H), (E _ _ Hy s H); reflexivity.
Qed.
(** [SpectralDensity]: in another unit (and with other offsets) the density is in the squared unit *)
Theorem units_psd sr fl ov avg window fast m x x' c d batch T n v stride w : INR n <= fl * sr < INR n + 1 ->
  sd_create sr fl ov avg window fast = Ok m ->
  v = match ov with Some o => o | None => fl / 2 end ->
  w = match window with Some w => fun t => elt w [t] | None => hann_window n end -> match window with Some w => shape w = [n] | None => True end ->
  stride = Z.to_nat (Z.of_nat n - rtrunc (v * sr)) -> (0 < stride)%nat ->
  shape x = batch ++ [T] -> (List.length batch <= 2)%nat -> List.Forall (fun b => (0 < b)%nat) batch -> (0 < n <= T)%nat ->
  rescaled c d x x' ->
  exists r r', sd_forward m x None = Ok r /\ sd_forward m x' None = Ok r' /\ shape r = batch ++ [rbins n] /\
   (forall i, inb i (shape r) -> Im (elt r i) = 0 /\ Im (elt r' i) = 0) /\ rescaled_psd c (re_t r) (re_t r').
Proof.
  intros Hn Em Hv Hw Sw Hst Hs Sx Hl Hb HT [Sx' Vx]. rewrite Sx in Sx', Vx.
  assert (Vx' : forall pre t, inb pre batch -> (t < T)%nat -> elt x' (pre ++ [t]) = c * elt x (pre ++ [t]) + d pre).
  { intros pre t Hp Ht. apply Vx. apply inb_app; [assumption|]. cbn. lia. }
  set (sc := 1 / (sr * Rsum n (fun t => w t ^ 2))).
  assert (K : exists (D : (nat -> R) -> nat -> R) r r', sd_forward m x None = Ok r /\ sd_forward m x' None = Ok r' /\ shape r = batch ++ [rbins n] /\ shape r' = batch ++ [rbins n] /\
     (forall pre f, inb pre batch -> (f < rbins n)%nat -> get r (pre ++ [f]) = Some (RtoC (D (fun t => elt x (pre ++ [t])) f)) /\
        get r' (pre ++ [f]) = Some (RtoC (c ^ 2 * D (fun t => elt x (pre ++ [t])) f)))).
  { destruct fast.
    - destruct (spectral_density_module_fast sr fl ov avg window m x None batch T n v stride w Hn Em Hv Hw Sw Hst Hs Sx Hl Hb HT I) as (r & E & Sr & G).
      destruct (spectral_density_module_fast sr fl ov avg window m x' None batch T n v stride w Hn Em Hv Hw Sw Hst Hs Sx' Hl Hb HT I) as (r' & E' & Sr' & G').
      exists (fun x f => aggregate avg (nseg T n stride) (fun s => onesided n f * sc * Cmod (fast_seg n T w x (s * stride) f) ^ 2)), r, r'.
      repeat (split; [assumption|]). intros pre f Hp Hf. rewrite G, G' by assumption. fold sc. split.
      + f_equal. apply fast_csd_self.
      + f_equal. rewrite (fast_csd_ext avg n stride T w sc (fun t => c * elt x (pre ++ [t]) + d pre) _ (fun t => c * elt x (pre ++ [t]) + d pre) _ f Hs HT) by (intros; apply Vx'; assumption).
        rewrite fast_csd_affine by lia. rewrite fast_csd_self, <- RtoC_mult. f_equal. ring.
    - destruct (spectral_density_module sr fl ov avg window m x batch T n v stride w Hn Em Hv Hw Sw Hst Hs Sx Hl Hb HT) as [(r & E & Sr & G) _].
      destruct (spectral_density_module sr fl ov avg window m x' batch T n v stride w Hn Em Hv Hw Sw Hst Hs Sx' Hl Hb HT) as [(r' & E' & Sr' & G') _].
      exists (fun x f => welch (aggregate avg) n stride T w sc x f), r, r'.
      repeat (split; [assumption|]). intros pre f Hp Hf. rewrite G, G' by assumption. fold sc. split; [reflexivity|].
      f_equal. f_equal. rewrite <- (welch_affine avg n stride T w sc c (d pre)) by lia. apply welch_ext; try assumption. intros; apply Vx'; assumption. }
  destruct K as (D & r & r' & E & E' & Sr & Sr' & G). exists r, r'. split; [exact E|]. split; [exact E'|]. split; [exact Sr|].
  assert (Q : forall i, inb i (shape r) -> exists q, elt r i = RtoC q /\ elt r' i = RtoC (c ^ 2 * q)).
  { intros i Hi. rewrite Sr in Hi. assert (Li : i <> []). { intros ->. apply inb_length in Hi. rewrite app_length in Hi. cbn in Hi. lia. }
    assert (L := inb_length _ _ Hi). rewrite (app_removelast_last 0%nat Li) in Hi, L |- *. set (pre := removelast i) in *. set (f := last i 0%nat) in *. clearbody pre f.
    rewrite !app_length in L. cbn [List.length] in L. apply inb_app_inv in Hi as [Hp Hf]; [|lia]. cbn in Hf. apply proj1 in Hf.
    destruct (G pre f Hp Hf) as [G1 G2]. apply get_some in G1 as [_ G1]. apply get_some in G2 as [_ G2]. eexists. split; eassumption. }
  split.
  - intros i Hi. destruct (Q i Hi) as (q & -> & ->). split; reflexivity.
  - split; [cbn [re_t shape]; rewrite Sr, Sr'; reflexivity|]. cbn [re_t shape elt]. intros i Hi. destruct (Q i Hi) as (q & -> & ->). reflexivity.
Qed.

(** estimating the PSD and whitening with it: the whole pipeline forgets the unit of the strain *)
Theorem units_pipeline fmax sr fl ov avg window fast m bg bg' X X' c d d' B ch N batch T n v stride w fdur size hp lp crop :
  INR n <= fl * sr < INR n + 1 -> sd_create sr fl ov avg window fast = Ok m ->
  v = match ov with Some o => o | None => fl / 2 end ->
  w = match window with Some w => fun t => elt w [t] | None => hann_window n end -> match window with Some w => shape w = [n] | None => True end ->
  stride = Z.to_nat (Z.of_nat n - rtrunc (v * sr)) -> (0 < stride)%nat ->
  shape bg = batch ++ [T] -> (List.length batch <= 2)%nat -> List.Forall (fun b => (0 < b)%nat) batch -> (0 < n <= T)%nat ->
  shape X = [B; ch; N] -> 0 < sr -> INR size <= fdur * sr < INR size + 1 -> (2 <= size)%nat -> (2 * (size / 2) < N)%nat -> freq_ok hp -> freq_ok lp ->
  c <> 0 -> rescaled c d bg bg' -> rescaled c d' X X' ->
  exists p p', sd_forward m bg None = Ok p /\ sd_forward m bg' None = Ok p' /\
   (psd_ok (re_t p) B ch ->
    exists r r', whiten_module fmax fdur sr hp lp X (re_t p) crop = Ok r /\ whiten_module fmax fdur sr hp lp X' (re_t p') crop = Ok r' /\
      times (sgn c) r r').
Proof.
  intros Hn Em Hv Hw Sw Hst Hs Sb Hl Hb HT SX Hsr Hsz H2 HN Hh Hlp Hc Rb RX.
  destruct (units_psd sr fl ov avg window fast m bg bg' c d batch T n v stride w Hn Em Hv Hw Sw Hst Hs Sb Hl Hb HT Rb) as (p & p' & E & E' & _ & _ & Rp).
  exists p, p'. split; [exact E|]. split; [exact E'|]. intros Hok.
  apply (units_whiten_module fmax X X' (re_t p) (re_t p') c d' B ch N fdur sr size hp lp crop); assumption.
Qed.

(** ** FixedWhiten *)
(** a background in another unit: a PSD (no fftlength given) or a strain series *)
Definition bg_rescaled (c : R) (fl : option R) (x x' : tensor R) : Prop :=
  match fl with None => rescaled_psd c x x' | Some _ => exists d, rescaled c (fun _ => d) x x' end.
Lemma normalize_psd_units sr F fl ov x x' c T p : shape x = [T] -> normalize_psd x sr F fl ov = Ok p -> bg_rescaled c fl x x' ->
  exists p', normalize_psd x' sr F fl ov = Ok p' /\ forall j, (j < F)%nat -> elt p' [j] = c ^ 2 * elt p [j].
Proof.
  intros Sx E Hr.
  assert (U : forall m k, unravel [m] k = [k]) by (intros m k; cbn; rewrite Nat.div_1_r; reflexivity).
  assert (K : forall (y y' : tensor R) m, shape y = [m] -> shape y' = [m] -> (forall k, (k < m)%nat -> elt y' [k] = c ^ 2 * elt y [k]) ->
    forall q, (if (numel y =? 0)%nat then Err RuntimeError else
      Ok (mk [F] (fun i => let j := hd 0%nat i in if (numel y =? F)%nat then elt y (unravel (shape y) j) else interp_nearest (numel y) F (fun k => elt y (unravel (shape y) k)) j))) = Ok q ->
    exists q', (if (numel y' =? 0)%nat then Err RuntimeError else
      Ok (mk [F] (fun i => let j := hd 0%nat i in if (numel y' =? F)%nat then elt y' (unravel (shape y') j) else interp_nearest (numel y') F (fun k => elt y' (unravel (shape y') k)) j))) = Ok q' /\
      forall j, (j < F)%nat -> elt q' [j] = c ^ 2 * elt q [j]).
  { intros y y' m Sy Sy' V q. unfold numel. rewrite Sy, Sy'. cbn [prod]. rewrite Nat.mul_1_r. destruct (Nat.eqb_spec m 0) as [|N0]; [discriminate|].
    intros Q. injection Q as <-. eexists. split; [reflexivity|]. cbn [elt hd]. intros j Hj. unfold interp_nearest. rewrite !U, ?Nat.div_1_r.
    destruct (Nat.eqb_spec m F) as [->|]; apply V; lia. }
  unfold normalize_psd in *. destruct fl as [fl|].
  - destruct Hr as [d [Sx' V]]. rewrite Sx in Sx', V.
    set (nz := rtrunc (fl * sr)) in *. set (st := (nz - _)%Z) in *. destruct ((nz <? 1)%Z || (st <? 0)%Z)%bool eqn:G; [discriminate|].
    apply orb_false_iff in G as [G1 G2]. set (n := Z.to_nat nz) in *. set (stride := Z.to_nat st) in *.
    assert (Hn : (0 < n)%nat) by (unfold n; lia). clearbody n stride. clear G1 G2. clearbody st nz.
    set (win := mk [n] _) in *. set (sc := 1 / _) in *.
    assert (D : (n <= T)%nat /\ (0 < stride)%nat).
    { unfold spectral_density at 1 in E. unfold validate_shapes in E. rewrite Sx in E. cbn [last List.length Nat.ltb Nat.leb] in E.
      destruct (Nat.ltb_spec T n); [discriminate|]. cbn [bind] in E. destruct (Nat.eqb_spec stride 0); [discriminate|]. lia. }
    destruct D as [D1 D2].
    destruct (spectral_density_spec x [] T n stride win sc "median") as (r & Er & Sr & Gr); try assumption; try reflexivity; try lia; [cbn; lia|constructor|].
    destruct (spectral_density_spec x' [] T n stride win sc "median") as (r' & Er' & Sr' & Gr'); try assumption; try reflexivity; try lia; [cbn; lia|constructor|].
    rewrite Er in E. rewrite Er'. cbn [bind] in *. apply (K r r' (rbins n)); try assumption.
    intros k Hk. specialize (Gr [] k I Hk). specialize (Gr' [] k I Hk). cbn [app] in *. apply get_some in Gr as [_ ->]. apply get_some in Gr' as [_ ->].
    rewrite <- (welch_affine "median" n stride T _ sc c d) by assumption. apply welch_ext; [assumption|lia|].
    intros t Ht. apply (V [] t). cbn. lia.
  - cbn [bind] in *. destruct Hr as [Sx' V]. rewrite Sx in Sx', V. apply (K x x' T); try assumption. intros k Hk. apply V. cbn. lia.
Qed.
(** fitting on the backgrounds and whitening the kernels in another unit gives the same output up to the sign of the factor *)
Theorem units_fixed_whiten fmax f32 m ch N fdur bgs bgs' fl hp lp ov pad pad' P X X' B c d crop : fw_for m ch N -> (0 < ch)%nat -> 0 < fw_sr m ->
  List.length bgs = ch -> List.length bgs' = ch ->
  (forall i, (i < ch)%nat -> (exists T, shape (nth i bgs (mk [] (fun _ => 0))) = [T]) /\ bg_rescaled c fl (nth i bgs (mk [] (fun _ => 0))) (nth i bgs' (mk [] (fun _ => 0)))) ->
  fw_psds m N bgs fl ov P -> INR pad <= fdur * fw_sr m / 2 < INR pad + 1 -> (1 <= pad)%nat -> (2 * pad < N)%nat ->
  INR pad' <= f32 fdur * fw_sr m / 2 < INR pad' + 1 -> (1 <= pad')%nat -> (2 * pad' < N)%nat ->
  freq_ok hp -> freq_ok lp -> shape X = [B; ch; N] -> c <> 0 -> rescaled c d X X' ->
  exists m1 m2 r r', fw_fit f32 m fdur bgs fl hp lp ov = (m1, Ok tt) /\ fw_fit f32 m fdur bgs' fl hp lp ov = (m2, Ok tt) /\
    fw_forward fmax m1 X crop = Ok r /\ fw_forward fmax m2 X' crop = Ok r' /\ times (sgn c) r r'.
Proof.
  intros Hm Hch Hsr L L' Hbg HP Hpad H1 H2 Hpad' H1' H2' Hh Hl SX Hc [SX' VX]. rewrite SX in SX', VX.
  assert (HP' : fw_psds m N bgs' fl ov (fun i k => c ^ 2 * P i k)).
  { intros i Hi. assert (Hi' := Hi). destruct Hm as [Hm0 _]. rewrite Hm0 in Hi'. destruct (HP i Hi) as (p & E & V). destruct (Hbg i Hi') as [[T ST] Rb].
    destruct (normalize_psd_units (fw_sr m) (rbins N) fl ov _ _ c T p ST E Rb) as (p' & E' & V'). exists p'. split; [exact E'|].
    intros k Hk. rewrite V', V by assumption. reflexivity. }
  destruct (fixed_whiten_spec fmax f32 m ch N fdur bgs fl hp lp ov pad pad' P X B crop Hm Hch Hsr L HP Hpad H1 H2 Hpad' H1' H2' Hh Hl SX) as (m1 & r & F1 & _ & E & Sr & G).
  destruct (fixed_whiten_spec fmax f32 m ch N fdur bgs' fl hp lp ov pad pad' (fun i k => c ^ 2 * P i k) X' B crop Hm Hch Hsr L' HP' Hpad H1 H2 Hpad' H1' H2' Hh Hl SX') as (m2 & r' & F2 & _ & E' & Sr' & G').
  exists m1, m2, r, r'. repeat (split; [assumption|]). split; [rewrite Sr, Sr'; reflexivity|]. intros i v Hi.
  assert (Hi0 := Hi). apply get_some in Hi0 as [Hin _]. rewrite Sr in Hin.
  destruct i as [|b [|q [|t [|]]]]; cbn [inb] in Hin; try tauto. destruct Hin as (Hb & Hq & Ht & _).
  destruct (G b q Hb Hq) as (g & Ig & Gg). destruct (G' b q Hb Hq) as (g' & Ig' & Gg').
  rewrite Gg in Hi by assumption. injection Hi as <-. rewrite Gg' by assumption. f_equal.
  apply (filtered_units N (fw_sr m) pad _ _ hp lp (P q) (fun k => c ^ 2 * P q k) g g' c (d [b; q])); try assumption; try lia.
  - intros u Hu. apply (VX [b; q] u). cbn. lia.
  - reflexivity.
Qed.

(** SNRs: the unit of the responses and of the PSD cancels *)
Lemma snr_units n sr x x' P P' g c : c <> 0 -> (forall t, (t < n)%nat -> x' t = c * x t) -> (forall k, (k < rbins n)%nat -> P' k = c ^ 2 * P k) ->
  (forall k, (k < rbins n)%nat -> 0 < P k) -> snr_sq n sr x' P' g = snr_sq n sr x P g.
Proof.
  intros Hc Hx HP Hpos.
  assert (E : snr_sq n sr x' P' g = snr_sq n sr (fun t => c * x t) (fun k => c ^ 2 * P k) g) by (apply snr_sq_ext; intros k Hk; split; [reflexivity|]; intros _; split; [apply HP, Hk|]; f_equal; apply rfft_ext, Hx).
  rewrite E, snr_sq_scale. unfold snr_sq.
  rewrite (Rsum_ext _ (fun k => g k * ((Cmod (rfft n x k) / sr) ^ 2 / (c ^ 2 * P k))) (fun k => / c ^ 2 * (g k * ((Cmod (rfft n x k) / sr) ^ 2 / P k)))).
  - rewrite Rsum_scal. generalize (Rsum (rbins n) (fun k => g k * ((Cmod (rfft n x k) / sr) ^ 2 / P k))), (sr / INR n). intros. field. assumption.
  - intros k Hk. generalize (Cmod (rfft n x k) / sr). intros u. specialize (Hpos k Hk). field. split; lra || assumption.
Qed.
Theorem units_snr responses responses' psd psd' c sr hp lp B ni n :
  shape responses = [B; ni; n] -> (0 < n)%nat -> 0 < sr -> psd_ok psd B ni -> cut_ok hp (rbins n) -> cut_ok lp (rbins n) -> c <> 0 ->
  rescaled c (fun _ => 0) responses responses' -> rescaled_psd c psd psd' ->
  exists r r' s s', compute_ifo_snr responses psd sr hp lp = Ok r /\ compute_ifo_snr responses' psd' sr hp lp = Ok r' /\ times 1 r r' /\
    compute_network_snr responses psd sr hp lp = Ok s /\ compute_network_snr responses' psd' sr hp lp = Ok s' /\ times 1 s s'.
Proof.
  intros Sr Hn Hsr HP Hh Hl Hc [Sr' V] Rp. rewrite Sr in Sr', V. assert (HP' := psd_ok_scal c psd psd' B ni Hc HP Rp).
  destruct (ifo_snr_spec responses psd sr hp lp B ni n Sr Hn Hsr HP Hh Hl) as (r & E & S1 & G).
  destruct (ifo_snr_spec responses' psd' sr hp lp B ni n Sr' Hn Hsr HP' Hh Hl) as (r' & E' & S2 & G').
  destruct (network_snr_spec responses psd sr hp lp B ni n Sr Hn Hsr HP Hh Hl) as (s & q & F & Fq & T1 & _ & L).
  destruct (network_snr_spec responses' psd' sr hp lp B ni n Sr' Hn Hsr HP' Hh Hl) as (s' & q' & F' & Fq' & T2 & _ & L').
  rewrite E in Fq. injection Fq as <-. rewrite E' in Fq'. injection Fq' as <-.
  assert (Q : forall b i, (b < B)%nat -> (i < ni)%nat -> elt r' [b; i] = elt r [b; i]).
  { intros b i Hb Hi. specialize (G b i Hb Hi). specialize (G' b i Hb Hi). apply get_some in G as [_ ->]. apply get_some in G' as [_ ->].
    f_equal. apply (snr_units n sr _ _ _ _ _ c Hc).
    - intros t Ht. etransitivity; [apply (V [b; i] t); cbn; lia|]. cbn [app]. ring.
    - intros k Hk. apply (eff_psd_scal c psd psd' B ni); assumption.
    - intros k Hk. apply (eff_psd_pos psd B ni); assumption. }
  exists r, r', s, s'. split; [exact E|]. split; [exact E'|]. split; [|split; [exact F|]; split; [exact F'|]].
  - split; [rewrite S1, S2; reflexivity|]. intros i x Hi. apply get_some in Hi as [Hi <-]. rewrite get_inb by (rewrite S2, <- S1; assumption).
    rewrite S1 in Hi. destruct i as [|b [|j [|]]]; cbn [inb] in Hi; try tauto. rewrite Q by tauto. f_equal. ring.
  - split; [rewrite T1, T2; reflexivity|]. intros i x Hi. assert (Hi0 := Hi). apply get_some in Hi0 as [Hi0 _].
    rewrite T1 in Hi0. destruct i as [|b [|]]; cbn [inb] in Hi0; try tauto. rewrite L in Hi by tauto. injection Hi as <-. rewrite L' by tauto.
    f_equal. rewrite Rmult_1_l. f_equal. apply Rsum_ext. intros j Hj. rewrite Q by tauto. reflexivity.
Qed.

(** non-vacuity: a ramp as background (its PSD is positive in both bins), factor -3 and offsets *)
Definition ramp_bg : tensor R := mk [1; 2]%nat (fun i => INR (last i 0%nat)).
Lemma ramp_density f : (f < 2)%nat -> welch (aggregate "mean") 2 1 2 (hann_window 2) (1 / (2 * Rsum 2 (fun t => hann_window 2 t ^ 2))) (fun t => INR t) f = 1 / 8.
Proof.
  intros Hf. assert (W0 : hann_window 2 0 = 0) by (unfold hann_window, hann; cbn [Nat.eqb INR]; replace (2 * PI * 0 / (1 + 1)) with 0 by field; rewrite cos_0; field).
  assert (W1 : hann_window 2 1 = 1) by (unfold hann_window, hann; cbn [Nat.eqb INR]; replace (2 * PI * 1 / (1 + 1)) with PI by field; rewrite cos_PI; field).
  assert (Sw : Rsum 2 (fun t => hann_window 2 t ^ 2) = 1) by (cbn [Rsum]; rewrite W0, W1; ring). rewrite Sw.
  unfold welch. change (nseg 2 2 1) with 1%nat. unfold aggregate. destruct (string_dec "mean" "mean") as [_|N]; [|congruence]. unfold mean. cbn [Rsum Nat.mul].
  assert (P : seg_power 2 (hann_window 2) (fun t => INR t) 0 f = 1 / 4).
  { unfold seg_power, seg_mean. rewrite (rfft_ext 2 _ (fun t => if (t =? 1)%nat then 1 / 2 else 0)).
    - unfold rfft, dft. rewrite (Csum_single _ 1); [|lia|intros i Hi Hi1; replace (i =? 1)%nat with false by lia; ring]. cbn [Nat.eqb].
      rewrite Cmod_mult, w_mod, Cmod_R, Rabs_pos_eq by lra. field.
    - intros t Ht. destruct t as [|[|]]; [| |lia]; cbn [Nat.eqb Nat.add Rsum INR]; rewrite ?W0, ?W1; field. }
  rewrite P. assert (O : onesided 2 f = 1) by (destruct f as [|[|]]; [reflexivity|reflexivity|lia]). rewrite O. cbn [INR]. field.
Qed.
Example units_ex fmax : exists m p p' r r', sd_create 2 1 None "mean" None false = Ok m /\
  sd_forward m ramp_bg None = Ok p /\ sd_forward m (mk [1; 2]%nat (fun i => -3 * INR (last i 0%nat) + 7)) None = Ok p' /\
  whiten_module fmax 1 2 None None (mk [2; 1; 8]%nat (fun i => INR (last i 0%nat) ^ 2)) (re_t p) true = Ok r /\
  whiten_module fmax 1 2 None None (mk [2; 1; 8]%nat (fun i => -3 * INR (last i 0%nat) ^ 2 + INR (hd 0%nat i))) (re_t p') true = Ok r' /\
  times (-1) r r' /\ shape r = [2; 1; 6]%nat.
Proof.
  destruct (spectral_density_create 2 1 None "mean" None false 2) as [[_ K] _]; [cbn; lra|discriminate|].
  destruct K as [m Em]; [split; [discriminate|]; split; [discriminate|left; reflexivity]|]. exists m.
  assert (ST : rtrunc (1 / 2 * 2) = 1%Z) by (apply (rtrunc_nonneg _ 1); cbn; lra).
  destruct (units_pipeline fmax 2 1 None "mean" None false m ramp_bg (mk [1; 2]%nat (fun i => -3 * INR (last i 0%nat) + 7))
    (mk [2; 1; 8]%nat (fun i => INR (last i 0%nat) ^ 2)) (mk [2; 1; 8]%nat (fun i => -3 * INR (last i 0%nat) ^ 2 + INR (hd 0%nat i)))
    (-3) (fun _ => 7) (fun pre => INR (hd 0%nat pre)) 2 1 8 [1]%nat 2 2 (1 / 2) 1 (hann_window 2) 1 2 None None true) as (p & p' & E & E' & H);
    try exact I; try reflexivity; try assumption; try (cbn; lra); try (cbn; lia).
  - repeat constructor.
  - split; [reflexivity|]. intros pre t _. cbn [elt ramp_bg]. rewrite last_last. reflexivity.
  - split; [reflexivity|]. intros pre t Hi. cbn [elt]. rewrite last_last. destruct pre; [destruct Hi as [_ []]|]. reflexivity.
  - assert (Hok : psd_ok (re_t p) 2 1).
    { destruct (spectral_density_module 2 1 None "mean" None m ramp_bg [1]%nat 2 2 (1 / 2) 1 (hann_window 2)) as [(q & Eq & Sq & G) _];
        try exact I; try reflexivity; try assumption; try (cbn; lra); try (cbn; lia); [repeat constructor|].
      rewrite E in Eq. injection Eq as <-. apply psd_ok_2d with (pf := 2%nat); [exact Sq|lia|].
      intros j Hj. destruct j as [|b [|f [|]]]; cbn [inb] in Hj; try tauto. destruct Hj as (Hb & Hf & _).
      specialize (G [b] f). cbn [app] in G. specialize (G ltac:(cbn; lia) Hf). apply get_some in G as [_ G]. cbn [re_t elt]. rewrite G. cbn [Re RtoC fst].
      match goal with |- 0 < welch _ _ _ _ _ ?s ?x _ => change x with (fun t => INR t) end. rewrite ramp_density by assumption. lra. }
    destruct (H Hok) as (r & r' & F & F' & T). exists p, p', r, r'. split; [exact Em|]. split; [exact E|]. split; [exact E'|]. split; [exact F|]. split; [exact F'|].
    split; [unfold sgn in T; destruct (Rlt_dec (-3) 0); [exact T|lra]|].
    destruct (whiten_module_spec fmax 1 2 None None (mk [2; 1; 8]%nat (fun i => INR (last i 0%nat) ^ 2)) (re_t p) true 2 1 8 2) as (q & Eq & Sq & _);
      try exact I; try reflexivity; try assumption; try (cbn; lra); try (cbn; lia). rewrite Eq in F. injection F as <-. exact Sq.
Qed.
