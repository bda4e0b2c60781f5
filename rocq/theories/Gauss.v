(** Gaussian integrals: int exp(-x^2) cos(2 b x) dx = sqrt(pi) exp(-b^2) over the real line, as limits of integrals over [-X, X]. *)
From Coq Require Import Reals Lra.
From Coquelicot Require Import Coquelicot.
Local Open Scope R_scope.

Definition E (x : R) : R := exp (- (x * x)).
Lemma E_pos x : 0 < E x. Proof. apply exp_pos. Qed.
Lemma E_cont x : continuous E x.
Proof. apply (ex_derive_continuous (V := R_NormedModule)). unfold E. auto_derive. exact I. Qed.
Definition Fg (X : R) : R := RInt E 0 X.
Lemma E_RInt a b : ex_RInt E a b.
Proof. apply (ex_RInt_continuous (V := R_CompleteNormedModule)). intros. apply E_cont. Qed.
Lemma Fg_derive (X : R) : is_derive Fg X (E X).
Proof.
  unfold Fg. apply (is_derive_RInt E (fun x => RInt E 0 x) 0 X).
  - apply filter_forall. intros y. apply (RInt_correct (V := R_CompleteNormedModule)). apply E_RInt.
  - apply E_cont.
Qed.
Definition kf (X y : R) : R := exp (- (X * X * (1 + y * y))) / (1 + y * y).
Definition Kg (X : R) : R := RInt (kf X) 0 1.
Lemma y2 y : 0 < 1 + y * y. Proof. nra. Qed.
Lemma kf_derive (X y : R) : is_derive (fun x => kf x y) X (- 2 * X * E X * E (X * y)).
Proof.
  unfold kf, E. pose proof (y2 y) as H. auto_derive; [lra|].
  replace (- (X * X * (1 + y * y))) with (- (X * X) + - (X * y * (X * y))) by ring. rewrite exp_plus. field. lra.
Qed.
Lemma kf_cont X y : continuous (kf X) y.
Proof. apply (ex_derive_continuous (V := R_NormedModule)). unfold kf. auto_derive. pose proof (y2 y). lra. Qed.
Lemma kf_RInt X : ex_RInt (kf X) 0 1.
Proof. apply (ex_RInt_continuous (V := R_CompleteNormedModule)). intros. apply kf_cont. Qed.
Lemma cont2 X y : continuity_2d_pt (fun u v => Derive (fun z => kf z v) u) X y.
Proof.
  apply continuity_2d_pt_ext with (fun u v => - 2 * u * E u * E (u * v)).
  - intros u v. symmetry. apply is_derive_unique, kf_derive.
  - apply continuity_2d_pt_mult; [apply continuity_2d_pt_mult; [apply continuity_2d_pt_mult; [apply continuity_2d_pt_const|apply continuity_2d_pt_id1]|]|].
    + apply (continuity_1d_2d_pt_comp E (fun u _ => u)); [|apply continuity_2d_pt_id1]. apply continuity_pt_filterlim, E_cont.
    + apply (continuity_1d_2d_pt_comp E (fun u v => u * v)); [|apply continuity_2d_pt_mult; [apply continuity_2d_pt_id1|apply continuity_2d_pt_id2]]. apply continuity_pt_filterlim, E_cont.
Qed.
Lemma Kg_derive (X : R) : is_derive Kg X (- 2 * E X * Fg X).
Proof.
  assert (D : is_derive Kg X (RInt (fun t => Derive (fun u => kf u t) X) 0 1)).
  { unfold Kg. apply is_derive_RInt_param.
    - apply filter_forall. intros y t _. exists (- 2 * y * E y * E (y * t)). apply kf_derive.
    - intros t _. apply cont2.
    - apply filter_forall. intros y. apply kf_RInt. }
  replace (- 2 * E X * Fg X) with (RInt (fun t => Derive (fun u => kf u t) X) 0 1); [exact D|].
  pose proof (RInt_comp_lin (V := R_CompleteNormedModule) E X 0 0 1 (E_RInt _ _)) as A.
  pose proof (RInt_scal (V := R_CompleteNormedModule) (fun y => scal X (E (X * y + 0))) 0 1 (- 2 * E X) (ex_RInt_comp_lin (V := R_NormedModule) E X 0 0 1 (E_RInt _ _))) as B.
  rewrite (RInt_ext _ (fun t => scal (- 2 * E X) (scal X (E (X * t + 0))))).
  - etransitivity; [exact B|]. etransitivity; [exact (f_equal (fun z => scal (- 2 * E X) z) A)|]. unfold scal. cbn. unfold mult. cbn. unfold Fg. rewrite Rmult_0_r, Rplus_0_r, Rmult_1_r, Rplus_0_r. reflexivity.
  - intros t _. etransitivity; [exact (is_derive_unique _ _ _ (kf_derive X t))|]. unfold scal. cbn. unfold mult. cbn. rewrite Rplus_0_r. ring.
Qed.
Lemma derive_zero_const (f : R -> R) x : (forall t, is_derive f t 0) -> f x = f 0.
Proof.
  intros H. destruct (MVT_gen f 0 x (fun _ => 0)) as [c [_ K]].
  - intros t _. apply H.
  - intros t _. apply continuity_pt_filterlim, (ex_derive_continuous (V := R_NormedModule)). exists 0. apply H.
  - lra.
Qed.
Lemma gauss_identity X : Fg X ^ 2 + Kg X = PI / 4.
Proof.
  assert (Z : forall t, is_derive (fun x => Fg x ^ 2 + Kg x) t 0).
  { intros t. replace 0 with (2 * E t * Fg t + - 2 * E t * Fg t) by ring. apply (is_derive_plus (fun x => Fg x ^ 2) Kg); [|apply Kg_derive].
    evar_last; [apply is_derive_pow, Fg_derive|]. cbn. ring. }
  rewrite (derive_zero_const _ X Z). unfold Fg at 1. rewrite RInt_point. unfold Kg. rewrite (RInt_ext _ (fun y => / (1 + y ^ 2))).
  - assert (A : RInt (fun y => / (1 + y ^ 2)) 0 1 = PI / 4).
    { apply is_RInt_unique. replace (PI / 4) with (minus (atan 1) (atan 0)) by (rewrite atan_0, atan_1; unfold minus, plus, opp; cbn; ring).
      apply (is_RInt_derive (V := R_CompleteNormedModule) atan).
      - intros y _. apply is_derive_Reals. evar_last; [apply derivable_pt_lim_atan|]. reflexivity.
      - intros y _. apply (ex_derive_continuous (V := R_NormedModule)). auto_derive. nra. }
    rewrite A. unfold zero. cbn. ring.
  - intros y _. unfold kf. rewrite !Rmult_0_l, Ropp_0, exp_0. unfold Rdiv. rewrite Rmult_1_l. f_equal. ring.
Qed.
Lemma Kg_bound X : 0 <= Kg X <= E X.
Proof.
  split.
  - unfold Kg. apply RInt_ge_0; [lra|apply kf_RInt|]. intros y _. unfold kf. apply Rlt_le, Rdiv_lt_0_compat; [apply exp_pos|apply y2].
  - replace (E X) with (RInt (fun _ => E X) 0 1) by (rewrite RInt_const; unfold scal; cbn; unfold mult; cbn; ring).
    unfold Kg. apply RInt_le; [lra|apply kf_RInt|apply ex_RInt_const|]. intros y _. unfold kf, E. pose proof (y2 y).
    apply Rle_trans with (exp (- (X * X * (1 + y * y))) * 1).
    + unfold Rdiv. apply Rmult_le_compat_l; [apply Rlt_le, exp_pos|]. rewrite <- Rinv_1 at 2. apply Rinv_le_contravar; nra.
    + rewrite Rmult_1_r. destruct (Req_dec (X * X * (1 + y * y)) (X * X)) as [e|e]; [rewrite e; lra|]. apply Rlt_le, exp_increasing. assert (X * X <= X * X * (1 + y * y)); nra.
Qed.
Lemma E_lim : is_lim E p_infty 0.
Proof.
  apply (is_lim_le_le_loc (fun _ => 0) (fun x => exp (- x)) E p_infty 0).
  - exists 1. intros x Hx. split; [apply Rlt_le, E_pos|]. unfold E. destruct (Req_dec x (x * x)) as [e|e]; [rewrite <- e; lra|]. apply Rlt_le, exp_increasing. nra.
  - apply is_lim_const.
  - apply (is_lim_comp exp Ropp p_infty 0 m_infty); [apply is_lim_exp_m|apply (is_lim_opp (fun x => x) p_infty p_infty), is_lim_id|]. exists 0. intros y _. discriminate.
Qed.
Theorem half_gauss : is_lim Fg p_infty (sqrt PI / 2).
Proof.
  assert (K0 : is_lim Kg p_infty 0).
  { apply (is_lim_le_le_loc (fun _ => 0) E Kg p_infty 0); [exists 0; intros; apply Kg_bound|apply is_lim_const|apply E_lim]. }
  assert (S : is_lim (fun X => sqrt (PI / 4 - Kg X)) p_infty (sqrt (PI / 4))).
  { apply (is_lim_comp_continuous (fun X => PI / 4 - Kg X) sqrt p_infty (PI / 4)).
    - replace (PI / 4) with (PI / 4 - 0) at 1 by ring. apply (is_lim_minus' (fun _ => PI / 4) Kg p_infty (PI / 4) 0); [apply is_lim_const|exact K0].
    - apply continuous_sqrt. }
  assert (V : sqrt (PI / 4) = sqrt PI / 2). { rewrite sqrt_div_alt by lra. f_equal. replace 4 with (2 * 2) by ring. apply sqrt_square. lra. }
  rewrite <- V. apply (is_lim_ext_loc (fun X => sqrt (PI / 4 - Kg X))); [|exact S]. exists 0. intros X HX.
  replace (PI / 4 - Kg X) with (Fg X * Fg X) by (pose proof (gauss_identity X); nra). apply sqrt_square. unfold Fg. apply RInt_ge_0; [lra|apply E_RInt|]. intros. apply Rlt_le, E_pos.
Qed.
(** ** with a cosine *)
Definition cE (b x : R) : R := E x * cos (2 * b * x).
Definition sE (b x : R) : R := E x * sin (2 * b * x).
Lemma cE_cont b x : continuous (cE b) x.
Proof. apply (ex_derive_continuous (V := R_NormedModule)). unfold cE, E. auto_derive. exact I. Qed.
Lemma sE_cont b x : continuous (sE b) x.
Proof. apply (ex_derive_continuous (V := R_NormedModule)). unfold sE, E. auto_derive. exact I. Qed.
Lemma cE_RInt b u v : ex_RInt (cE b) u v.
Proof. apply (ex_RInt_continuous (V := R_CompleteNormedModule)). intros. apply cE_cont. Qed.
Lemma sE_RInt b u v : ex_RInt (sE b) u v.
Proof. apply (ex_RInt_continuous (V := R_CompleteNormedModule)). intros. apply sE_cont. Qed.
Definition Cg (X b : R) : R := RInt (cE b) (- X) X.
Lemma cE_derive (b x : R) : is_derive (fun c => cE c x) b (- (2 * x) * E x * sin (2 * b * x)).
Proof. unfold cE. auto_derive; [exact I|ring]. Qed.
Lemma cE_cont2 b x : continuity_2d_pt (fun u v => Derive (fun z => cE z v) u) b x.
Proof.
  apply continuity_2d_pt_ext with (fun u v => - (2 * v) * E v * sin (2 * u * v)).
  - intros u v. symmetry. apply is_derive_unique, cE_derive.
  - apply continuity_2d_pt_mult; [apply continuity_2d_pt_mult|].
    + apply continuity_2d_pt_opp, continuity_2d_pt_mult; [apply continuity_2d_pt_const|apply continuity_2d_pt_id2].
    + apply (continuity_1d_2d_pt_comp E (fun _ v => v)); [|apply continuity_2d_pt_id2]. apply continuity_pt_filterlim, E_cont.
    + apply (continuity_1d_2d_pt_comp sin (fun u v => 2 * u * v)); [apply continuity_sin|].
      apply continuity_2d_pt_mult; [apply continuity_2d_pt_mult; [apply continuity_2d_pt_const|apply continuity_2d_pt_id1]|apply continuity_2d_pt_id2].
Qed.
(** integration by parts *)
Lemma Cg_derive (X b : R) : is_derive (Cg X) b (2 * E X * sin (2 * b * X) - 2 * b * Cg X b).
Proof.
  assert (D : is_derive (Cg X) b (RInt (fun t => Derive (fun u => cE u t) b) (- X) X)).
  { unfold Cg. apply is_derive_RInt_param.
    - apply filter_forall. intros y t _. eexists. apply cE_derive.
    - intros t _. apply cE_cont2.
    - apply filter_forall. intros y. apply cE_RInt. }
  evar_last; [exact D|].
  assert (P : is_RInt (fun x => - (2 * x) * E x * sin (2 * b * x) + 2 * b * cE b x) (- X) X (minus (sE b X) (sE b (- X)))).
  { apply (is_RInt_derive (V := R_CompleteNormedModule) (sE b)).
    - intros x _. unfold sE, cE, E. auto_derive; [exact I|ring].
    - intros x _. apply (ex_derive_continuous (V := R_NormedModule)). unfold cE, E. auto_derive. exact I. }
  assert (Q : is_RInt (fun x => 2 * b * cE b x) (- X) X (2 * b * Cg X b)).
  { apply (is_RInt_scal (V := R_NormedModule) (cE b) (- X) X (2 * b) (Cg X b)). apply (RInt_correct (V := R_CompleteNormedModule)), cE_RInt. }
  pose proof (is_RInt_minus (V := R_NormedModule) _ _ _ _ _ _ P Q) as M. apply is_RInt_unique.
  evar_last; [apply (is_RInt_ext (V := R_NormedModule)) with (2 := M)|].
  - intros x _. unfold minus, plus, opp. cbn. etransitivity; [|symmetry; exact (is_derive_unique _ _ _ (cE_derive b x))]. ring.
  - unfold minus, plus, opp, sE, E. cbn. replace (2 * b * - X) with (- (2 * b * X)) by ring. rewrite sin_neg. replace (- X * - X) with (X * X) by ring. ring.
Qed.
Definition Gg (X b : R) : R := exp (b * b) * Cg X b.
Lemma Gg_derive (X b : R) : is_derive (Gg X) b (exp (b * b) * (2 * E X * sin (2 * b * X))).
Proof.
  unfold Gg. assert (D : is_derive (fun c => exp (c * c)) b (2 * b * exp (b * b))) by (auto_derive; [exact I|ring]).
  evar_last; [apply (is_derive_mult (K := R_AbsRing) _ _ _ _ _ D (Cg_derive X b)); intros; apply Rmult_comm|]. unfold plus, mult. cbn. ring.
Qed.
Lemma Gg_bound X b : Rabs (Gg X b - Gg X 0) <= 2 * Rabs b * exp (b * b) * E X.
Proof.
  destruct (MVT_gen (Gg X) 0 b (fun c => exp (c * c) * (2 * E X * sin (2 * c * X)))) as [c [Hc K]].
  - intros t _. apply Gg_derive.
  - intros t _. apply continuity_pt_filterlim, (ex_derive_continuous (V := R_NormedModule)). eexists. apply Gg_derive.
  - rewrite K, Rminus_0_r, Rabs_mult, !Rabs_mult. rewrite (Rabs_right (exp _)) by (apply Rle_ge, Rlt_le, exp_pos). rewrite (Rabs_right 2) by lra. rewrite (Rabs_right (E X)) by (apply Rle_ge, Rlt_le, E_pos).
    assert (B1 : exp (c * c) <= exp (b * b)).
    { assert (c * c <= b * b) by (unfold Rmin, Rmax in Hc; destruct (Rle_dec 0 b); nra). destruct (Req_dec (c * c) (b * b)) as [e|e]; [rewrite e; lra|]. apply Rlt_le, exp_increasing. lra. }
    assert (B2 : Rabs (sin (2 * c * X)) <= 1) by (apply Rabs_le; split; apply SIN_bound).
    pose proof (E_pos X) as PE. pose proof (Rabs_pos b) as PB. pose proof (exp_pos (c * c)) as PC. pose proof (Rabs_pos (sin (2 * c * X))) as PS.
    replace (2 * Rabs b * exp (b * b) * E X) with (exp (b * b) * (2 * E X * 1) * Rabs b) by ring. apply Rmult_le_compat_r; [exact PB|]. apply Rmult_le_compat; try lra; [apply Rmult_le_pos; lra|]. apply Rmult_le_compat_l; lra.
Qed.
Lemma Cg_0 X : Cg X 0 = 2 * Fg X.
Proof.
  unfold Cg. transitivity (RInt E (- X) X); [apply (RInt_ext (V := R_CompleteNormedModule)); intros x _; unfold cE; rewrite Rmult_0_r, Rmult_0_l, cos_0; apply Rmult_1_r|].
  rewrite <- (RInt_Chasles (V := R_CompleteNormedModule) E (- X) 0 X) by apply E_RInt.
  assert (H : RInt E (- X) 0 = Fg X).
  { apply is_RInt_unique. assert (A : is_RInt E X 0 (opp (Fg X))) by (apply (is_RInt_swap (V := R_NormedModule)), (RInt_correct (V := R_CompleteNormedModule)), E_RInt).
    assert (B : is_RInt (fun y => opp (E (- y))) (- X) 0 (opp (Fg X))) by (apply (is_RInt_comp_opp (V := R_NormedModule)); rewrite Ropp_involutive, Ropp_0; exact A).
    pose proof (is_RInt_opp (V := R_NormedModule) _ _ _ _ B) as D. rewrite opp_opp in D. apply (is_RInt_ext (V := R_NormedModule)) with (2 := D).
    intros y _. rewrite opp_opp. unfold E. f_equal. f_equal. ring. }
  rewrite H. unfold plus. cbn. unfold Fg. ring.
Qed.
(** int exp(-x^2) cos(2bx) = sqrt(pi) exp(-b^2) *)
Theorem gauss_cos b : is_lim (fun X => RInt (fun x => exp (- (x * x)) * cos (2 * b * x)) (- X) X) p_infty (sqrt PI * exp (- (b * b))).
Proof.
  change (is_lim (fun X => Cg X b) p_infty (sqrt PI * exp (- (b * b)))).
  assert (G0 : is_lim (fun X => Gg X 0) p_infty (sqrt PI)).
  { apply (is_lim_ext (fun X => 2 * Fg X)); [intros X; unfold Gg; rewrite Cg_0, Rmult_0_l, exp_0; ring|]. replace (sqrt PI) with (2 * (sqrt PI / 2)) by field.
    apply (is_lim_scal_l Fg 2 p_infty (sqrt PI / 2)), half_gauss. }
  assert (DL : is_lim (fun X => Gg X b - Gg X 0) p_infty 0).
  { assert (BL : is_lim (fun X => 2 * Rabs b * exp (b * b) * E X) p_infty 0).
    { replace 0 with (2 * Rabs b * exp (b * b) * 0) by ring. apply (is_lim_scal_l E _ p_infty 0), E_lim. }
    apply (is_lim_le_le_loc (fun X => - (2 * Rabs b * exp (b * b) * E X)) (fun X => 2 * Rabs b * exp (b * b) * E X)); [|replace 0 with (- 0) by ring; apply (is_lim_opp _ p_infty 0), BL|exact BL].
    exists 0. intros X _. apply Rabs_le_between, Gg_bound. }
  assert (GB : is_lim (fun X => Gg X b) p_infty (sqrt PI)).
  { apply (is_lim_ext (fun X => (Gg X b - Gg X 0) + Gg X 0)); [intros; ring|]. replace (sqrt PI) with (0 + sqrt PI) by ring. apply (is_lim_plus' _ _ p_infty 0 (sqrt PI)); assumption. }
  apply (is_lim_ext (fun X => exp (- (b * b)) * Gg X b)).
  - intros X. unfold Gg. rewrite <- Rmult_assoc, <- exp_plus, Rplus_opp_l, exp_0. ring.
  - rewrite (Rmult_comm (sqrt PI)). apply (is_lim_scal_l _ _ p_infty (sqrt PI)), GB.
Qed.
(** the sine part vanishes by symmetry *)
Theorem gauss_sin b X : RInt (fun x => exp (- (x * x)) * sin (2 * b * x)) (- X) X = 0.
Proof.
  change (RInt (sE b) (- X) X = 0). set (v := RInt (sE b) (- X) X).
  assert (A : is_RInt (sE b) (- X) X v) by (apply (RInt_correct (V := R_CompleteNormedModule)), sE_RInt).
  assert (B : is_RInt (fun y => opp (sE b (- y))) X (- X) v) by (apply (is_RInt_comp_opp (V := R_NormedModule)); rewrite Ropp_involutive; exact A).
  apply (is_RInt_swap (V := R_NormedModule)) in B.
  assert (D : is_RInt (sE b) (- X) X (opp v)).
  { apply (is_RInt_ext (V := R_NormedModule)) with (2 := B). intros y _. unfold sE, E, opp. cbn. replace (2 * b * - y) with (- (2 * b * y)) by ring. rewrite sin_neg. replace (- y * - y) with (y * y) by ring. ring. }
  apply (is_RInt_unique (V := R_CompleteNormedModule)) in D. fold v in D. change (v = - v) in D. clear A B. clearbody v. lra.
Qed.
