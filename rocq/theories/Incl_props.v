(** C120: the inclination of a binary - its effect on the generated strain, and the squared SNR averaged over orientation and sky.
    No model of its own: Gen_model, Tf2_model, Phd_model, Wsamp_model, Gw_model, Dist_model. *)
From Coq Require Import String Reals Lra ZArith Lia.
From Coquelicot Require Import Coquelicot.
From Verif Require Import Base Tensor Rutil Norm_props Gw_model Gw_spec Gw_props Ifo_props Snr_props Wsamp_model Wsamp_props.
From Verif Require Import Conv_model Gen_model Gen_row Gen_props Gen_main Tf2_model Tf2_props Phd_model Phd_main Gen_appr Injsnr_props.
From Verif Require Dist_model.
From Verif Require Import Skyavg_props Skysnr_props.
From Verif Require Skysamp_props.
Local Open Scope R_scope.

(** ** Any inclination against face-on *)
Theorem generated_any_inclination g rs q0 mc q chi1 chi2 dist phic incl incl' f_ref : good_gen g -> g_sr g = 2 * INR q0 -> rs <> [] ->
  (forall r, In r rs -> good_row r) -> List.length (g_a g) = List.length (g_b g) ->
  List.length mc = List.length rs -> Phd_main.same_len (List.length mc) [q; chi1; chi2; dist; phic; incl; incl'] ->
  (forall i, (i < List.length mc)%nat -> physical (nth i mc 0) (nth i q 0) (nth i chi1 0) (nth i chi2 0)) ->
  (forall i, (i < List.length mc)%nat -> 0 < nth i dist 0 /\ nth i incl 0 = 0) ->
  let c i := cos (nth i incl' 0) in let d i := (1 + cos (nth i incl' 0) ^ 2) / 2 in
  scaled_rows g rs (fun fs => tf2_forward fs mc q chi1 chi2 dist phic incl f_ref) (fun fs => tf2_forward fs mc q chi1 chi2 dist phic incl' f_ref) c d /\
  scaled_rows g rs (fun fs => pd_forward fs mc q chi1 chi2 dist phic incl f_ref) (fun fs => pd_forward fs mc q chi1 chi2 dist phic incl' f_ref) c d.
Proof.
  intros Hg Hq Hne Hrs Hab Hlen HS HP HD c d.
  assert (HS' : Phd_main.same_len (List.length mc) [q; chi1; chi2; dist; phic; incl]).
  { intros l Hl. apply HS. cbn [In] in *. tauto. }
  assert (LI : List.length incl' = List.length mc) by (apply HS; cbn; tauto).
  assert (LD : List.length dist = List.length mc) by (apply HS; cbn; tauto).
  assert (LP : List.length phic = List.length mc) by (apply HS; cbn; tauto).
  split; [eapply tf2_tr|eapply pd_tr]; try eassumption; try (intros i Hi; apply HD; exact Hi); intros i f Hi Hf; destruct (HD i Hi) as [_ ->]; unfold c, d.
  - unfold tf2_one. destruct (components _ _) as [a b]. cbv zeta. cbn [fst snd]. rewrite cos_0. set (h := tf2_htilde _ _ _ _ _ _ _ _).
    destruct h as [x y]. f_equal; apply injective_projections; cbn; field.
  - unfold pd_one. cbv zeta. cbn [fst snd]. rewrite cos_0. set (h := pd_htilde _ _ _ _ _ _ _ _). destruct h as [x y].
    f_equal; apply injective_projections; cbn; field.
Qed.

(** ** The average over orientation and sky *)
(** a binary with an isotropically distributed orbital plane: inclination from Sine() (or the arc cosine of a uniform number) *)
Lemma incl_moments :
  is_RInt (fun u : R => ((1 + cos (Dist_model.sin_rsample 0 PI u) ^ 2) / 2) ^ 2) 0 1 (7 / 15) /\
  is_RInt (fun u : R => cos (Dist_model.sin_rsample 0 PI u) ^ 2) 0 1 (1 / 3).
Proof.
  pose proof PI_RGT_0 as P. split.
  - apply (Skysamp_props.sine_expectation 0 PI (fun x : R => ((1 + cos x ^ 2) / 2) ^ 2)); try lra.
    + intros x. apply (ex_derive_continuous (V := R_NormedModule)). auto_derive. exact Logic.I.
    + rewrite cos_PI, cos_0. apply (is_RInt_antider _ (fun x : R => - (cos x + 2 * cos x ^ 3 / 3 + cos x ^ 5 / 5) / 8));
        [intros x; auto_derive; [exact Logic.I|field]|intros x; auto_derive; repeat split|]. cbn beta. rewrite cos_PI, cos_0. field.
  - apply (Skysamp_props.sine_expectation 0 PI (fun x : R => cos x ^ 2)); try lra.
    + intros x. apply (ex_derive_continuous (V := R_NormedModule)). auto_derive. exact Logic.I.
    + rewrite cos_PI, cos_0. apply (is_RInt_antider _ (fun x : R => - (cos x ^ 3 / 3) / 2));
        [intros x; auto_derive; [exact Logic.I|field]|intros x; auto_derive; repeat split|]. cbn beta. rewrite cos_PI, cos_0. field.
Qed.

(** squared SNR of one polarisation, in the spectrum of detector i *)
Definition pol_snr_sq (h psd : tensor R) (sr : R) (hcut lcut : Gw_model.cutoff) (T i : nat) : R :=
  snr_sq T sr (fun t => elt h [0%nat; t]) (eff_psd psd (rbins T) 0 i) (fun k => hp_weight T sr hcut k * lp_weight T sr lcut k).

Theorem isotropic_binary_snr ifos g r q0 mc q chi1 chi2 dist phic f_ref : ifos <> [] -> (forall f, In f ifos -> known_ifo f) ->
  good_gen g -> g_sr g = 2 * INR q0 -> good_row r -> List.length (g_a g) = List.length (g_b g) -> physical mc q chi1 chi2 -> 0 < dist ->
  let gen incl := gen_forward g (fun fs => pd_forward fs [mc] [q] [chi1] [chi2] [dist] [phic] [incl] f_ref) [r] in
  exists hc hp n, gen 0 = Ok (hc, hp) /\ shape hc = [1%nat; n] /\ shape hp = [1%nat; n] /\
  exists v : nat -> R, (forall i, (i < List.length ifos)%nat -> Rabs (v i - 1 / 5) <= 1 / 10 ^ 7) /\
  forall psd hcut lcut, setting ifos hp hc psd [("cross"%string, hc); ("plus"%string, hp)] (g_sr g) hcut lcut n ->
  exists M : R -> R,
    (forall incl, exists hc' hp', gen incl = Ok (hc', hp') /\
       sky_mean (fun t s p => net_snr_at ifos (g_sr g) [("cross"%string, hc'); ("plus"%string, hp')] psd hcut lcut t s p ^ 2) (M incl)) /\
    is_RInt (fun u : R => M (Dist_model.sin_rsample 0 PI u)) 0 1
      (Rsum (List.length ifos) (fun i => v i * (7 / 15 * pol_snr_sq hp psd (g_sr g) hcut lcut n i + 1 / 3 * pol_snr_sq hc psd (g_sr g) hcut lcut n i))).
Proof.
  intros Hne Hk Hg Hq Hr Hab HP HD gen.
  assert (G : forall incl, exists hc hp hc' hp' n, gen 0 = Ok (hc, hp) /\ gen incl = Ok (hc', hp') /\
    shape hc = [1%nat; n] /\ shape hp = [1%nat; n] /\ shape hc' = [1%nat; n] /\ shape hp' = [1%nat; n] /\
    forall i t, (i < 1)%nat -> (t < n)%nat -> elt hc' [i; t] = cos incl * elt hc [i; t] /\ elt hp' [i; t] = (1 + cos incl ^ 2) / 2 * elt hp [i; t]).
  { intros incl. destruct (generated_any_inclination g [r] q0 [mc] [q] [chi1] [chi2] [dist] [phic] [0] [incl] f_ref) as [_ H]; try assumption.
    - discriminate.
    - intros r' [<-|[]]; exact Hr.
    - reflexivity.
    - intros l Hl. cbn [In] in Hl. repeat destruct Hl as [<-|Hl]; try reflexivity. contradiction.
    - intros [|i] Hi; [exact HP|cbn in Hi; lia].
    - intros [|i] Hi; [split; [exact HD|reflexivity]|cbn in Hi; lia].
    - destruct H as (hc & hp & hc' & hp' & n & E & E' & S1 & S2 & S3 & S4 & H). exists hc, hp, hc', hp', n.
      do 6 (split; [assumption|]). intros [|i] t Hi Ht; [|lia]. exact (H 0%nat t Hi Ht). }
  destruct (G 0) as (hc & hp & _ & _ & n & E0 & _ & S1 & S2 & _). exists hc, hp, n. do 3 (split; [assumption|]).
  destruct (sky_snr ifos Hne Hk) as (v & Hv & K). exists v. split; [exact Hv|]. intros psd hcut lcut Hset.
  set (P := pol_snr_sq hp psd (g_sr g) hcut lcut n). set (Q := pol_snr_sq hc psd (g_sr g) hcut lcut n). set (ni := List.length ifos).
  exists (fun incl => Rsum ni (fun i => v i * (((1 + cos incl ^ 2) / 2) ^ 2 * P i + cos incl ^ 2 * Q i))). split.
  - intros incl. destruct (G incl) as (hc0 & hp0 & hc' & hp' & n' & E & E' & T1 & T2 & T3 & T4 & H). rewrite E0 in E. injection E as <- <-.
    assert (n' = n) by congruence. subst n'. exists hc', hp'. split; [exact E'|].
    destruct Hset as (_ & _ & _ & _ & _ & HT & Hsr & Hpsd & Hh & Hl & Hw).
    destruct (K hp' hc' psd [("cross"%string, hc'); ("plus"%string, hp')] (g_sr g) hcut lcut n) as (_ & M & _).
    { do 4 (split; [assumption|]). split; [right; reflexivity|]. repeat (split; [assumption|]). exact Hw. }
    eapply sky_mean_val; [|exact M]. apply Rsum_ext. intros i Hi. f_equal. unfold full_snr_sq, P, Q, pol_snr_sq. rewrite <- !snr_sq_scale.
    f_equal; apply snr_sq_ext; intros k Hk'; (split; [reflexivity|]); intros _; (split; [reflexivity|]); f_equal; apply rfft_ext; intros t Ht; apply (H 0%nat t); (assumption || lia).
  - destruct incl_moments as [I1 I2].
    assert (L : forall m, is_RInt (fun u : R => Rsum m (fun i => v i * (((1 + cos (Dist_model.sin_rsample 0 PI u) ^ 2) / 2) ^ 2 * P i + cos (Dist_model.sin_rsample 0 PI u) ^ 2 * Q i))) 0 1
      (Rsum m (fun i => v i * (7 / 15 * P i + 1 / 3 * Q i)))).
    { induction m as [|m IH]; [apply is_RInt_zero|]. cbn [Rsum].
      apply (is_RInt_ext (fun u : R => (v m * P m) * ((1 + cos (Dist_model.sin_rsample 0 PI u) ^ 2) / 2) ^ 2 + ((v m * Q m) * cos (Dist_model.sin_rsample 0 PI u) ^ 2 +
        Rsum m (fun i => v i * (((1 + cos (Dist_model.sin_rsample 0 PI u) ^ 2) / 2) ^ 2 * P i + cos (Dist_model.sin_rsample 0 PI u) ^ 2 * Q i))))).
      { intros u _. match goal with |- ?a = ?b => change (@eq R a b) end. ring. }
      replace (Rsum m (fun i => v i * (7 / 15 * P i + 1 / 3 * Q i)) + v m * (7 / 15 * P m + 1 / 3 * Q m)) with
        ((v m * P m) * (7 / 15) + ((v m * Q m) * (1 / 3) + Rsum m (fun i => v i * (7 / 15 * P i + 1 / 3 * Q i)))) by ring.
      apply is_RInt_lin; [exact I1|]. apply is_RInt_lin; [exact I2|exact IH]. }
    apply L.
Qed.
Example isotropic_binary_example : let g := mkgen 2048 8 20 (1 / 2) [1; - (1 / 2)] [1; -1] in let r := mkrow 30 20 0 (1 / 2) in
  good_gen g /\ g_sr g = 2 * INR 1024 /\ good_row r /\ List.length (g_a g) = List.length (g_b g) /\ physical 21 (2 / 3) 0 (1 / 2) /\
  (exists hc hp n, gen_forward g (fun fs => pd_forward fs [21] [2 / 3] [0] [1 / 2] [100] [0] [0] 20) [r] = Ok (hc, hp) /\ shape hc = [1%nat; n]) .
Proof.
  cbv zeta. assert (G : good_gen (mkgen 2048 8 20 (1 / 2) [1; - (1 / 2)] [1; -1])) by (unfold good_gen; cbn [g_sr g_fmin g_dur]; lra).
  assert (Q : g_sr (mkgen 2048 8 20 (1 / 2) [1; - (1 / 2)] [1; -1]) = 2 * INR 1024) by (cbn [g_sr]; rewrite INR_IZR_INZ; change (Z.of_nat 1024) with 1024%Z; lra).
  assert (W : good_row (mkrow 30 20 0 (1 / 2))) by (unfold good_row; cbn [m_1 m_2 s_1 s_2]; lra).
  assert (P : physical 21 (2 / 3) 0 (1 / 2)) by (unfold physical; lra).
  do 5 (split; [assumption || reflexivity|]).
  destruct (isotropic_binary_snr ["H1"%string] _ _ _ 21 (2 / 3) 0 (1 / 2) 100 0 20 ltac:(discriminate) ltac:(intros f [<-|[]]; unfold known_ifo; cbn; auto) G Q W eq_refl P ltac:(lra))
    as (hc & hp & n & E & S1 & _). exists hc, hp, n. split; assumption.
Qed.
