(** C118: signal-to-noise ratios averaged over the sky.  No model of its own: Wsamp_model (projector), Gw_model (SNR). *)
From Coq Require Import Reals Lra Lia List ZArith String.
From Coquelicot Require Import Coquelicot.
From Verif Require Import Base Tensor Rutil Norm_props Gw_model Gw_spec Gw_props Ifo_props Snr_props Wsamp_model Wsamp_props Injsnr_props Skyavg_props.
Import ListNotations.
Local Open Scope R_scope.

(** ** Specification *)
(** the strains in the detectors [ifos] of the waveform [hp], [hc] (shape (1, T)) arriving from the direction [theta], [phi]
    (declination pi/2 - theta) with polarisation angle [psi], as WaveformProjector computes them *)
Definition strains (ifos : list string) (sr : R) (pols : list (string * tensor R)) (theta psi phi : R) : res (tensor R) :=
  let* m := proj_create ifos sr in
  proj_forward m (mk [1%nat] (fun _ => PI / 2 - theta)) (mk [1%nat] (fun _ => psi)) (mk [1%nat] (fun _ => phi)) pols.
(** its SNR in detector i, and in the network *)
Definition ifo_snr_at ifos sr pols psd hcut lcut (i : nat) (theta psi phi : R) : R :=
  match bind (strains ifos sr pols theta psi phi) (fun X => compute_ifo_snr X psd sr hcut lcut) with Ok r => elt r [0; i]%nat | Err _ => 0 end.
Definition net_snr_at ifos sr pols psd hcut lcut (theta psi phi : R) : R :=
  match bind (strains ifos sr pols theta psi phi) (fun X => compute_network_snr X psd sr hcut lcut) with Ok r => elt r [0%nat] | Err _ => 0 end.
(** the setting: one waveform on known detectors, with positive spectra *)
Definition setting (ifos : list string) (hp hc psd : tensor R) (pols : list (string * tensor R)) (sr : R) (hcut lcut : Gw_model.cutoff) (T : nat) : Prop :=
  ifos <> [] /\ (forall f, In f ifos -> known_ifo f) /\ shape hp = [1%nat; T] /\ shape hc = [1%nat; T] /\ both_pols hp hc pols /\
  (0 < T)%nat /\ 0 < sr /\ psd_ok psd 1 (List.length ifos) /\ cut_ok hcut (rbins T) /\ cut_ok lcut (rbins T) /\
  forall k, (k < rbins T)%nat -> 0 <= hp_weight T sr hcut k * lp_weight T sr lcut k.
(** squared SNR that detector i would see with unit response to both polarisations *)
Definition full_snr_sq (hp hc psd : tensor R) (sr : R) (hcut lcut : Gw_model.cutoff) (T i : nat) : R :=
  let Sn := eff_psd psd (rbins T) 0 i in let g k := hp_weight T sr hcut k * lp_weight T sr lcut k in
  snr_sq T sr (fun t => elt hp [0%nat; t]) Sn g + snr_sq T sr (fun t => elt hc [0%nat; t]) Sn g.

Lemma sky_mean_val f v v' : v = v' -> sky_mean f v -> sky_mean f v'. Proof. intros ->; auto. Qed.
Lemma sky_sum n (f : nat -> R -> R -> R -> R) v : (forall i, (i < n)%nat -> sky_mean (f i) (v i)) ->
  sky_mean (fun t s p => Rsum n (fun i => f i t s p)) (Rsum n v).
Proof.
  induction n as [|n IH]; intros H; [apply (sky_const (fun _ _ => 0)), dir_zero|]. cbn [Rsum].
  apply (sky_ext (fun t s p => 1 * f n t s p + Rsum n (fun i => f i t s p))); [intros; ring|].
  apply (sky_mean_val _ (1 * v n + Rsum n v)); [ring|]. apply sky_lin; [apply H; lia|apply IH; intros; apply H; lia].
Qed.

(** ** The mean squared SNR *)
Theorem sky_snr ifos : ifos <> [] -> (forall f, In f ifos -> known_ifo f) -> let ni := List.length ifos in
  exists v : nat -> R, (forall i, (i < ni)%nat -> Rabs (v i - 1 / 5) <= 1 / 10 ^ 7) /\
  forall hp hc psd pols sr hcut lcut T, setting ifos hp hc psd pols sr hcut lcut T ->
    (forall i, (i < ni)%nat -> sky_mean (fun t s p => ifo_snr_at ifos sr pols psd hcut lcut i t s p ^ 2)
       (v i * full_snr_sq hp hc psd sr hcut lcut T i)) /\
    sky_mean (fun t s p => net_snr_at ifos sr pols psd hcut lcut t s p ^ 2) (Rsum ni (fun i => v i * full_snr_sq hp hc psd sr hcut lcut T i)) /\
    Rabs (Rsum ni (fun i => v i * full_snr_sq hp hc psd sr hcut lcut T i) - Rsum ni (full_snr_sq hp hc psd sr hcut lcut T) / 5)
      <= / 10 ^ 7 * Rsum ni (full_snr_sq hp hc psd sr hcut lcut T).
Proof.
  intros Hne Hk ni.
  destruct (sky_moments_builtin ifos Hne Hk) as (D & V & E & M).
  destruct (get_ifo_geometry_spec ifos Hne Hk) as (D' & V' & E' & SD & _). rewrite E in E'. injection E' as <- <-.
  set (v := fun i => 2 / 5 * (contract (sym (det D i)) (sym (det D i)) - trace (det D i) * trace (det D i) / 3)).
  exists v.
  assert (Hv : forall i, (i < ni)%nat -> Rabs (v i - 1 / 5) <= 1 / 10 ^ 7).
  { intros i Hi. destruct (M i Hi) as (w & _ & M1 & _ & M2 & _). destruct (sky_moments D ni i i SD Hi Hi) as (M1' & _).
    replace (v i) with w; [exact M2|]. eapply sky_mean_unique; [exact M1|]. eapply sky_ext; [|exact M1']. intros; cbn beta; ring. }
  split; [exact Hv|]. intros hp hc psd pols sr hcut lcut T (_ & _ & Sp & Sc & Hb & HT & Hsr & Hpsd & Hh & Hl & Hw).
  assert (HF : forall i, 0 <= full_snr_sq hp hc psd sr hcut lcut T i \/ ~ (i < ni)%nat).
  { intros i. destruct (lt_dec i ni) as [Hi|Hi]; [left|right; exact Hi]. unfold full_snr_sq. apply Rplus_le_le_0_compat; apply snr_sq_nonneg; try assumption;
      intros k Hk'; apply (eff_psd_pos psd 1 ni); (assumption || lia). }
  assert (AT : forall t s p, exists X rho r, strains ifos sr pols t s p = Ok X /\ compute_ifo_snr X psd sr hcut lcut = Ok rho /\
    compute_network_snr X psd sr hcut lcut = Ok r /\
    (forall i, (i < ni)%nat -> let Sn := eff_psd psd (rbins T) 0 i in let g k := hp_weight T sr hcut k * lp_weight T sr lcut k in
       elt rho [0; i]%nat ^ 2 = response D i "plus" t s p ^ 2 * snr_sq T sr (fun t => elt hp [0%nat; t]) Sn g
         + 2 * (response D i "plus" t s p * response D i "cross" t s p) * snr_cross T sr (fun t => elt hp [0%nat; t]) (fun t => elt hc [0%nat; t]) Sn g
         + response D i "cross" t s p ^ 2 * snr_sq T sr (fun t => elt hc [0%nat; t]) Sn g) /\
    elt r [0%nat] ^ 2 = Rsum ni (fun i => elt rho [0; i]%nat ^ 2)).
  { intros t s p.
    destruct (projected_snr ifos (mk [1%nat] (fun _ => PI / 2 - t)) (mk [1%nat] (fun _ => s)) (mk [1%nat] (fun _ => p)) hp hc psd pols sr hcut lcut 1 T)
      as (D' & V' & m & X & rho & r & E' & Em & EX & SX & Er & En & _ & _ & G & _).
    { repeat split; assumption. }
    rewrite E in E'. injection E' as <- <-. exists X, rho, r. split; [unfold strains; rewrite Em; exact EX|]. split; [exact Er|]. split; [exact En|]. split.
    - intros i Hi Sn g. destruct (G 0%nat i ltac:(lia) Hi) as (_ & -> & _). unfold factor. cbn [elt].
      replace (PI / 2 - (PI / 2 - t)) with t by ring. rewrite !(response_ok D i _ ni) by (assumption || (unfold known_mode; auto)). unfold det. fold Sn. fold g. ring.
    - destruct (network_snr_spec X psd sr hcut lcut 1 ni T SX HT Hsr Hpsd Hh Hl) as (r' & rho' & En' & Er' & _ & _ & Gn).
      rewrite En in En'. rewrite Er in Er'. injection En' as <-. injection Er' as <-. pose proof (Gn 0%nat ltac:(lia)) as Ge. apply get_some in Ge. destruct Ge as [_ ->].
      rewrite pow2_sqrt by (apply Rsum_nonneg; intros; apply pow2_ge_0). reflexivity. }
  assert (MI : forall i, (i < ni)%nat -> sky_mean (fun t s p => ifo_snr_at ifos sr pols psd hcut lcut i t s p ^ 2) (v i * full_snr_sq hp hc psd sr hcut lcut T i)).
  { intros i Hi. destruct (sky_moments D ni i i SD Hi Hi) as (M1 & M2 & M3 & _). fold (v i) in M1, M2. unfold full_snr_sq.
    set (P := snr_sq T sr (fun t => elt hp [0%nat; t]) _ _). set (Q := snr_sq T sr (fun t => elt hc [0%nat; t]) _ _).
    set (K := snr_cross T sr (fun t => elt hp [0%nat; t]) (fun t => elt hc [0%nat; t]) (eff_psd psd (rbins T) 0 i) (fun k => hp_weight T sr hcut k * lp_weight T sr lcut k)).
    apply (sky_mean_val _ (P * v i + (2 * K * 0 + (Q * v i + 0)))); [ring|].
    eapply sky_ext; [|apply sky_lin; [exact M1|apply sky_lin; [exact M3|apply sky_lin; [exact M2|apply (sky_const (fun _ _ => 0)), dir_zero]]]].
    intros t s p. cbn beta. unfold ifo_snr_at. destruct (AT t s p) as (X & rho & r & -> & Er & _ & G & _). cbn [bind]. rewrite Er.
    rewrite (G i Hi). unfold P, Q, K. ring. }
  split; [exact MI|]. split.
  - eapply sky_ext; [|apply (sky_sum ni _ _ MI)]. intros t s p. cbn beta. unfold net_snr_at, ifo_snr_at.
    destruct (AT t s p) as (X & rho & r & -> & Er & En & _ & G). cbn [bind]. rewrite Er, En. symmetry. exact G.
  - unfold Rdiv at 1. rewrite <- Rsum_scal_r, <- Rsum_minus. rewrite <- Rsum_scal. apply Rabs_le. split.
    + replace (- Rsum ni (fun i => / 10 ^ 7 * full_snr_sq hp hc psd sr hcut lcut T i)) with (-1 * Rsum ni (fun i => / 10 ^ 7 * full_snr_sq hp hc psd sr hcut lcut T i)) by ring.
      rewrite <- Rsum_scal. apply Rsum_le. intros i Hi. specialize (Hv i Hi). apply Rabs_le_inv in Hv. destruct (HF i) as [P|P]; [|lia].
      set (f := full_snr_sq _ _ _ _ _ _ _ _) in *. clearbody f. nra.
    + apply Rsum_le. intros i Hi. specialize (Hv i Hi). apply Rabs_le_inv in Hv. destruct (HF i) as [P|P]; [|lia].
      set (f := full_snr_sq _ _ _ _ _ _ _ _) in *. clearbody f. nra.
Qed.
Example sky_snr_example : setting ["H1"; "L1"]%string (mk [1; 4]%nat (fun i => INR (last i 0%nat))) (mk [1; 4]%nat (fun _ => 1))
  (mk [3%nat] (fun _ => 2)) [("plus"%string, mk [1; 4]%nat (fun i => INR (last i 0%nat))); ("cross"%string, mk [1; 4]%nat (fun _ => 1))]
  2 (Freq (/ 2)) NoCut 4.
Proof.
  split; [discriminate|]. split; [intros f [<-|[<-|[]]]; unfold known_ifo; cbn; auto|]. do 2 (split; [reflexivity|]).
  split; [left; reflexivity|]. split; [lia|]. split; [lra|]. split; [|split; [exact I|split; [exact I|]]].
  - exists 1%nat, 1%nat, 3%nat. split; [reflexivity|]. split; [auto|]. split; [auto|]. split; [lia|]. intros; cbn; lra.
  - intros k Hk. cbn [hp_weight lp_weight]. destruct (Rle_dec _ _); lra.
Qed.
