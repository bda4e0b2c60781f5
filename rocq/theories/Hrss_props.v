(** Property C54, continued: hrss is the root-sum-square of the sine-Gaussian. The integrals are over the whole time axis
    (the module samples the same functions at n points of [-duration/2, duration/2)). *)
From Coq Require Import Reals Lra.
From Coquelicot Require Import Coquelicot.
From Verif Require Import Base Tensor Conv_model Conv_props Wave_model Wave_props Gauss.
Local Open Scope R_scope.

(** energy of a real signal over the real line *)
Definition energy (h : R -> R) (e : R) : Prop := is_lim (fun T => RInt (fun t => h t ^ 2) (- T) T) p_infty e.

(** the damped cosine: amplitude^2 times quadrature q f (cos 2 ph) *)
Lemma damped_energy q f ph A : 0 < q -> 0 < f ->
  energy (fun t => A * exp (- ((2 * PI * f * t) ^ 2) / (2 * q ^ 2)) * cos (2 * PI * f * t - ph)) (A ^ 2 * quadrature q f (cos (2 * ph))).
Proof.
  intros Hq Hf. pose proof PI_RGT_0 as HP. set (k := 2 * PI * f / q). assert (Pk : 0 < k) by (unfold k; apply Rdiv_lt_0_compat; [apply Rmult_lt_0_compat; lra|exact Hq]).
  (* the squared signal in x = k t *)
  set (g := fun x => A ^ 2 / 2 * (cE 0 x + cos (2 * ph) * cE q x + sin (2 * ph) * sE q x)).
  assert (Gc : forall x, continuous g x). { intros x. unfold g. apply (ex_derive_continuous (V := R_NormedModule)). unfold cE, sE, E. auto_derive. exact I. }
  assert (Gi : forall u v, ex_RInt g u v) by (intros; apply (ex_RInt_continuous (V := R_CompleteNormedModule)); intros; apply Gc).
  assert (SQ : forall t, (A * exp (- ((2 * PI * f * t) ^ 2) / (2 * q ^ 2)) * cos (2 * PI * f * t - ph)) ^ 2 = g (k * t + 0)).
  { intros t. rewrite Rplus_0_r. unfold g, cE, sE, E. set (w := 2 * PI * f * t). replace (k * t) with (w / q) by (unfold k, w; field; lra).
    replace (2 * q * (w / q)) with (2 * w) by (field; lra). rewrite Rmult_0_r, Rmult_0_l, cos_0.
    replace (exp (- (w / q * (w / q)))) with (exp (- w ^ 2 / (2 * q ^ 2)) * exp (- w ^ 2 / (2 * q ^ 2))) by (rewrite <- exp_plus; f_equal; field; lra).
    set (e := exp (- w ^ 2 / (2 * q ^ 2))). assert (C2 : cos (2 * (w - ph)) = cos (2 * w) * cos (2 * ph) + sin (2 * w) * sin (2 * ph)) by (replace (2 * (w - ph)) with (2 * w - 2 * ph) by ring; apply cos_minus).
    rewrite cos_2a_cos in C2. transitivity (A ^ 2 / 2 * (e * e) * (1 + (2 * cos (w - ph) * cos (w - ph) - 1))); [field|]. rewrite C2. ring. }
  assert (GL : is_lim (fun X => RInt g (- X) X) p_infty (A ^ 2 / 2 * (sqrt PI + cos (2 * ph) * (sqrt PI * exp (- (q * q)))))).
  { apply (is_lim_ext (fun X => A ^ 2 / 2 * (RInt (cE 0) (- X) X + cos (2 * ph) * RInt (cE q) (- X) X))).
    - intros X. symmetry. apply is_RInt_unique.
      assert (I0 : is_RInt (cE 0) (- X) X (RInt (cE 0) (- X) X)) by (apply (RInt_correct (V := R_CompleteNormedModule)), cE_RInt).
      assert (I1 : is_RInt (cE q) (- X) X (RInt (cE q) (- X) X)) by (apply (RInt_correct (V := R_CompleteNormedModule)), cE_RInt).
      assert (I2 : is_RInt (sE q) (- X) X 0) by (rewrite <- (gauss_sin q X); apply (RInt_correct (V := R_CompleteNormedModule)), sE_RInt).
      pose proof (is_RInt_scal (V := R_NormedModule) _ _ _ (cos (2 * ph)) _ I1) as J1. pose proof (is_RInt_scal (V := R_NormedModule) _ _ _ (sin (2 * ph)) _ I2) as J2.
      pose proof (is_RInt_plus (V := R_NormedModule) _ _ _ _ _ _ (is_RInt_plus (V := R_NormedModule) _ _ _ _ _ _ I0 J1) J2) as P.
      pose proof (is_RInt_scal (V := R_NormedModule) _ _ _ (A ^ 2 / 2) _ P) as Q. evar_last; [apply (is_RInt_ext (V := R_NormedModule)) with (2 := Q)|].
      + intros x _. unfold g, scal, plus. cbn. unfold mult. cbn. reflexivity.
      + unfold scal, plus. cbn. unfold mult. cbn. ring.
    - apply (is_lim_scal_l _ _ p_infty (sqrt PI + cos (2 * ph) * (sqrt PI * exp (- (q * q))))).
      apply (is_lim_plus' _ _ p_infty (sqrt PI) (cos (2 * ph) * (sqrt PI * exp (- (q * q))))).
      + pose proof (gauss_cos 0) as L. rewrite Rmult_0_l, Ropp_0, exp_0, Rmult_1_r in L. exact L.
      + apply (is_lim_scal_l _ _ p_infty (sqrt PI * exp (- (q * q)))). exact (gauss_cos q). }
  unfold energy. apply (is_lim_ext (fun T => / k * RInt g (- (k * T)) (k * T))).
  - intros T. symmetry. rewrite (RInt_ext _ (fun t => g (k * t + 0))) by (intros t _; apply SQ).
    pose proof (RInt_comp_lin (V := R_CompleteNormedModule) g k 0 (- T) T (Gi _ _)) as L. rewrite !Rplus_0_r in L. replace (k * - T) with (- (k * T)) in L by ring. rewrite <- L.
    pose proof (RInt_scal (V := R_CompleteNormedModule) (fun y => g (k * y + 0)) (- T) T k) as M. cbv beta in M.
    assert (ex : ex_RInt (fun y => g (k * y + 0)) (- T) T). { apply (ex_RInt_continuous (V := R_CompleteNormedModule)). intros x _. unfold g, cE, sE, E. apply (ex_derive_continuous (V := R_NormedModule)). auto_derive. exact I. }
    specialize (M ex). etransitivity; [|symmetry; exact (f_equal (fun z => / k * z) M)]. unfold scal. cbn. unfold mult. cbn. field. lra.
  - replace (A ^ 2 * quadrature q f (cos (2 * ph))) with (/ k * (A ^ 2 / 2 * (sqrt PI + cos (2 * ph) * (sqrt PI * exp (- (q * q)))))).
    + apply (is_lim_scal_l _ _ p_infty (A ^ 2 / 2 * (sqrt PI + cos (2 * ph) * (sqrt PI * exp (- (q * q)))))).
      apply (is_lim_comp (fun X => RInt g (- X) X) (fun T => k * T) p_infty _ p_infty); [exact GL| |exists 0; intros; discriminate].
      evar_last; [apply (is_lim_scal_l (fun T => T) k p_infty p_infty), is_lim_id|]. cbn. unfold Rbar_mult, Rbar_mult'. destruct (Rle_dec 0 k) as [h|h]; [|lra]. destruct (Rle_lt_or_eq_dec 0 k h); [reflexivity|lra].
    + unfold quadrature, k. replace (- (q * q)) with (- q ^ 2) by ring. assert (PS : 0 < sqrt PI) by (apply sqrt_lt_R0; lra). assert (EP : sqrt PI * sqrt PI = PI) by (apply sqrt_sqrt; lra).
      replace (/ (2 * PI * f / q)) with (q / (2 * (sqrt PI * sqrt PI) * f)) by (rewrite EP; field; repeat split; lra). field. repeat split; lra.
Qed.
(** hrss: each polarisation carries its share of hrss^2, and together they carry hrss^2 *)
Theorem sg_energy q f hrss ph e : 0 < q -> 0 < f -> 0 <= e <= 1 -> let (a, b) := semi_major_minor e in
  energy (fun t => snd (sg_sample q f hrss ph e t)) ((hrss * a) ^ 2) /\ energy (fun t => fst (sg_sample q f hrss ph e t)) ((hrss * b) ^ 2) /\ (hrss * a) ^ 2 + (hrss * b) ^ 2 = hrss ^ 2.
Proof.
  intros Hq Hf He. pose proof (sg_weights e He) as W. assert (EA : semi_major_minor e = (1 / sqrt (2 - e ^ 2), sqrt (1 - e ^ 2) / sqrt (2 - e ^ 2))). { unfold semi_major_minor. cbv zeta. replace (e * e) with (e ^ 2) by ring. f_equal. unfold Rdiv. ring. }
  rewrite EA in W |- *. set (a := 1 / sqrt (2 - e ^ 2)) in *. set (b := sqrt (1 - e ^ 2) / sqrt (2 - e ^ 2)) in *. cbv beta iota in W |- *. destruct W as [W _].
  pose proof (COS_bound (2 * ph)) as CB. assert (Q1 : 0 < quadrature q f (cos (2 * ph))) by (apply quadrature_pos; assumption). assert (Q2 : 0 < quadrature q f (- cos (2 * ph))) by (apply quadrature_pos; try assumption; lra).
  split; [|split].
  - pose proof (damped_energy q f ph (hrss * a / sqrt (quadrature q f (cos (2 * ph)))) Hq Hf) as D. unfold energy in *.
    replace ((hrss * a) ^ 2) with ((hrss * a / sqrt (quadrature q f (cos (2 * ph)))) ^ 2 * quadrature q f (cos (2 * ph))).
    2:{ set (Q := quadrature q f (cos (2 * ph))) in *. assert (0 < sqrt Q) by (apply sqrt_lt_R0; exact Q1). replace Q with (sqrt Q * sqrt Q) at 2 by (apply sqrt_sqrt; lra). field. lra. }
    eapply is_lim_ext; [|exact D]. intros T. apply (RInt_ext (V := R_CompleteNormedModule)). intros t _. rewrite sg_sample_spec by assumption. cbn [snd]. fold a. reflexivity.
  - pose proof (damped_energy q f (ph + PI / 2) (hrss * b / sqrt (quadrature q f (- cos (2 * ph)))) Hq Hf) as D. replace (2 * (ph + PI / 2)) with (2 * ph + PI) in D by field. rewrite neg_cos in D. unfold energy in *.
    replace ((hrss * b) ^ 2) with ((hrss * b / sqrt (quadrature q f (- cos (2 * ph)))) ^ 2 * quadrature q f (- cos (2 * ph))).
    2:{ set (Q := quadrature q f (- cos (2 * ph))) in *. assert (0 < sqrt Q) by (apply sqrt_lt_R0; exact Q2). replace Q with (sqrt Q * sqrt Q) at 2 by (apply sqrt_sqrt; lra). field. lra. }
    eapply is_lim_ext; [|exact D]. intros T. apply (RInt_ext (V := R_CompleteNormedModule)). intros t _. rewrite sg_sample_spec by assumption. cbn [fst]. fold b.
    replace (2 * PI * f * t - (ph + PI / 2)) with (2 * PI * f * t - ph - PI / 2) by ring. rewrite (cos_minus _ (PI / 2)), cos_PI2, sin_PI2. f_equal. ring.
  - transitivity (hrss ^ 2 * (a ^ 2 + b ^ 2)); [ring|]. rewrite W. ring.
Qed.
