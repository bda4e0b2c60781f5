(** Property C57: IMRPhenomD's phase and amplitude are continuously differentiable; what its join constants are for. *)
From Coq Require Import Reals Lra.
From Coquelicot Require Import Coquelicot.
From Verif Require Import Base Rutil Conv_model Conv_props Wave_props Tf2_model Tf2_props Phd_fits Phd_data Phd_delta Phd_model.
Local Open Scope R_scope.

(** ** piecewise functions *)
Definition piece3 (a b : R) (f g h : R -> R) (x : R) : R := if Rle_dec x a then f x else if Rle_dec x b then g x else h x.
Lemma is_derive_glue (f g : R -> R) (a d : R) : f a = g a -> is_derive f a d -> is_derive g a d -> is_derive (fun x => if Rle_dec x a then f x else g x) a d.
Proof.
  intros E Hf Hg. apply is_derive_Reals in Hf. apply is_derive_Reals in Hg. apply is_derive_Reals. intros eps He. destruct (Hf eps He) as [d1 H1]. destruct (Hg eps He) as [d2 H2].
  exists (mkposreal (Rmin d1 d2) (Rmin_stable_in_posreal d1 d2)). cbn. intros h Hn Hh. destruct (Rle_dec a a) as [_|N]; [|lra].
  destruct (Rle_dec (a + h) a) as [_|_]; [apply H1; [exact Hn|]|rewrite E; apply H2; [exact Hn|]]; eapply Rlt_le_trans; [exact Hh|apply Rmin_l|exact Hh|apply Rmin_r].
Qed.
Lemma cont_glue (f g : R -> R) (a : R) : f a = g a -> continuous f a -> continuous g a -> continuous (fun x => if Rle_dec x a then f x else g x) a.
Proof.
  intros E Hf Hg. intros P HP. destruct (Rle_dec a a) as [_|N]; [|lra]. specialize (Hf P HP). rewrite E in HP. specialize (Hg P HP). unfold filtermap in *. generalize (filter_and _ _ Hf Hg). apply filter_imp. intros x [Q1 Q2]. destruct (Rle_dec x a); assumption.
Qed.
Lemma loc_lt (x a : R) : x < a -> locally x (fun y => y < a).
Proof. intros H. assert (Hp : 0 < a - x) by lra. exists (mkposreal _ Hp). intros y Hy. change (Rabs (y - x) < a - x) in Hy. apply Rabs_def2 in Hy. lra. Qed.
Lemma loc_gt (x a : R) : a < x -> locally x (fun y => a < y).
Proof. intros H. assert (Hp : 0 < x - a) by lra. exists (mkposreal _ Hp). intros y Hy. change (Rabs (y - x) < x - a) in Hy. apply Rabs_def2 in Hy. lra. Qed.
(** C1 on the positive half line *)
Definition C1 (f df : R -> R) : Prop := forall x, 0 < x -> is_derive f x (df x) /\ continuous df x.
(** three C1 pieces that agree to first order at the two joins make a C1 function *)
Lemma piece3_C1 a b f g h df dg dh : 0 < a -> a < b -> C1 f df -> C1 g dg -> C1 h dh -> f a = g a -> df a = dg a -> g b = h b -> dg b = dh b ->
  C1 (piece3 a b f g h) (piece3 a b df dg dh).
Proof.
  intros Ha Hab Hf Hg Hh E1 E2 E3 E4 x Hx.
  destruct (Rtotal_order x a) as [L|[EQ|G]].
  - split.
    + apply (is_derive_ext_loc f); [apply (filter_imp (fun y => y < a)); [|apply loc_lt, L]|]; [intros y Hy; unfold piece3; destruct (Rle_dec y a); [reflexivity|lra]|]. unfold piece3. destruct (Rle_dec x a); [apply Hf, Hx|lra].
    + apply (continuous_ext_loc _ df); [apply (filter_imp (fun y => y < a)); [|apply loc_lt, L]|apply Hf, Hx]. intros y Hy. unfold piece3. destruct (Rle_dec y a); [reflexivity|lra].
  - subst x. assert (LB : locally a (fun y => y < b)) by (apply loc_lt, Hab). split.
    + apply (is_derive_ext_loc (fun x => if Rle_dec x a then f x else g x)); [apply (filter_imp (fun y => y < b)); [|exact LB]|].
      * intros y Hy. unfold piece3. destruct (Rle_dec y a); [reflexivity|]. destruct (Rle_dec y b); [reflexivity|lra].
      * apply is_derive_glue; [exact E1| |]; unfold piece3; (destruct (Rle_dec a a); [|lra]); [apply Hf, Ha|rewrite E2; apply Hg, Ha].
    + apply (continuous_ext_loc _ (fun x => if Rle_dec x a then df x else dg x)); [apply (filter_imp (fun y => y < b)); [|exact LB]|].
      * intros y Hy. unfold piece3. destruct (Rle_dec y a); [reflexivity|]. destruct (Rle_dec y b); [reflexivity|lra].
      * apply cont_glue; [exact E2|apply Hf, Ha|apply Hg, Ha].
  - assert (LA : locally x (fun y => a < y)) by (apply loc_gt, G).
    destruct (Rtotal_order x b) as [L|[EQ|G2]].
    + assert (LAB : locally x (fun y => a < y /\ y < b)) by (apply filter_and; [exact LA|apply loc_lt, L]). split.
      * apply (is_derive_ext_loc g); [apply (filter_imp (fun y => a < y /\ y < b)); [|exact LAB]|]; [intros y Hy; unfold piece3; destruct (Rle_dec y a); [lra|]; destruct (Rle_dec y b); [reflexivity|lra]|]. unfold piece3. destruct (Rle_dec x a); [lra|]. destruct (Rle_dec x b); [apply Hg, Hx|lra].
      * apply (continuous_ext_loc _ dg); [apply (filter_imp (fun y => a < y /\ y < b)); [|exact LAB]|apply Hg, Hx]. intros y Hy. unfold piece3. destruct (Rle_dec y a); [lra|]. destruct (Rle_dec y b); [reflexivity|lra].
    + subst x. split.
      * apply (is_derive_ext_loc (fun x => if Rle_dec x b then g x else h x)); [apply (filter_imp (fun y => a < y)); [|exact LA]|].
        -- intros y Hy. unfold piece3. destruct (Rle_dec y a); [lra|]. reflexivity.
        -- apply is_derive_glue; [exact E3| |]; unfold piece3; (destruct (Rle_dec b a); [lra|]); (destruct (Rle_dec b b); [|lra]); [apply Hg, Hx|rewrite E4; apply Hh, Hx].
      * apply (continuous_ext_loc _ (fun x => if Rle_dec x b then dg x else dh x)); [apply (filter_imp (fun y => a < y)); [|exact LA]|].
        -- intros y Hy. unfold piece3. destruct (Rle_dec y a); [lra|]. reflexivity.
        -- apply cont_glue; [exact E4|apply Hg, Hx|apply Hh, Hx].
    + assert (LB : locally x (fun y => b < y)) by (apply loc_gt, G2). split.
      * apply (is_derive_ext_loc h); [apply (filter_imp (fun y => b < y)); [|exact LB]|]; [intros y Hy; unfold piece3; destruct (Rle_dec y a); [lra|]; destruct (Rle_dec y b); [lra|reflexivity]|]. unfold piece3. destruct (Rle_dec x a); [lra|]. destruct (Rle_dec x b); [lra|apply Hh, Hx].
      * apply (continuous_ext_loc _ dh); [apply (filter_imp (fun y => b < y)); [|exact LB]|apply Hh, Hx]. intros y Hy. unfold piece3. destruct (Rle_dec y a); [lra|]. destruct (Rle_dec y b); [lra|reflexivity].
Qed.
(** the Heaviside sums of the code *)
Lemma theta_piece3 a b f g h x : a < b -> theta (le_ x a) * f x + theta (gt_ x a) * g x * theta (le_ x b) + theta (gt_ x b) * h x = piece3 a b f g h x.
Proof. intros H. unfold piece3, le_, gt_, theta. destruct (Rle_dec x a); destruct (Rlt_dec a x); try lra; destruct (Rle_dec x b); destruct (Rlt_dec b x); lra. Qed.
(** if the second join came first the pieces would overlap and be added *)
Lemma theta_overlap a b f g h x : b < x -> x <= a -> theta (le_ x a) * f x + theta (gt_ x a) * g x * theta (le_ x b) + theta (gt_ x b) * h x = f x + h x.
Proof. intros H1 H2. unfold le_, gt_, theta. destruct (Rle_dec x a); destruct (Rlt_dec a x); try lra; destruct (Rle_dec x b); destruct (Rlt_dec b x); lra. Qed.

(** ** the pieces *)
Lemma C1_intro f df : (forall x, 0 < x -> is_derive f x (df x)) -> (forall x, 0 < x -> ex_derive df x) -> C1 f df.
Proof. intros H1 H2 x Hx. split; [apply H1, Hx|]. apply (ex_derive_continuous (V := R_NormedModule)). apply H2, Hx. Qed.
Lemma ex_derive_ext_pos (f g : R -> R) x : 0 < x -> (forall y, 0 < y -> f y = g y) -> ex_derive f x -> ex_derive g x.
Proof. intros Hx E H. apply (ex_derive_ext_loc f); [|exact H]. apply (filter_imp (fun y => 0 < y)); [exact E|apply loc_gt, Hx]. Qed.
Lemma Rpower_unfold x y : Rpower x y = exp (y * ln x). Proof. reflexivity. Qed.
Lemma Rpower_minus1 x y : 0 < x -> Rpower x (y - 1) = Rpower x y / x.
Proof. intros H. unfold Rminus. rewrite Rpower_plus, Rpower_Ropp, Rpower_1 by exact H. reflexivity. Qed.
Lemma is_derive_Rpower x y : 0 < x -> is_derive (fun t => Rpower t y) x (y * Rpower x (y - 1)).
Proof. intros H. rewrite Rpower_minus1 by exact H. unfold Rpower. auto_derive; [exact H|]. field. lra. Qed.
Ltac nzt := repeat split; try lra; try (apply pow_nonzero; lra); try (repeat (apply Rmult_integral_contrapositive_currified); lra).
Section One.
Variable p : dpar.
Hypothesis He : 0 < d_eta p.
Let eta := d_eta p. Let eta2 := eta * eta. Let xi := d_xi p. Let fRD := d_fRD p. Let fDM := d_fDM p.
(** the second component returned for each piece is the derivative of (the first over eta) *)
Theorem int_phase_derivative : C1 (fun x => fst (int_phase p x) / eta) (fun x => snd (int_phase p x)).
Proof.
  unfold int_phase. cbn [fst snd]. fold eta eta2 xi. set (b1 := beta1Fit _ _ _). set (b2 := beta2Fit _ _ _). set (b3 := beta3Fit _ _ _). apply C1_intro; intros x Hx.
  - assert (eta <> 0) by (unfold eta; lra). auto_derive; [nzt|]. field. split; lra.
  - auto_derive. nzt.
Qed.
Theorem mrd_phase_derivative : fDM <> 0 -> C1 (fun x => fst (mrd_phase p x) / eta) (fun x => snd (mrd_phase p x)).
Proof.
  intros HD. assert (HE : eta <> 0) by (unfold eta; lra). unfold mrd_phase. cbn [fst snd]. fold eta eta2 xi fRD fDM. set (a1 := alpha1Fit _ _ _). set (a2 := alpha2Fit _ _ _). set (a3 := alpha3Fit _ _ _). set (a4 := alpha4Fit _ _ _). set (a5 := alpha5Fit _ _ _). apply C1_intro; intros x Hx.
  - assert (PQ : 0 < (x - a5 * fRD) ^ 2 + fDM ^ 2) by (pose proof (pow2_ge_0 (x - a5 * fRD)); pose proof (pow2_gt_0 fDM HD); lra).
    replace (- (1 / 4)) with (3 / 4 - 1) by lra. rewrite (Rpower_minus1 x (3/4) Hx). unfold Rpower. auto_derive; [repeat split; lra|]. field. repeat split; try lra; intros E; apply (Rgt_not_eq _ _ PQ); rewrite <- E; ring.
  - assert (PQ : 0 < (x - a5 * fRD) ^ 2 + fDM ^ 2) by (pose proof (pow2_ge_0 (x - a5 * fRD)); pose proof (pow2_gt_0 fDM HD); lra).
    unfold Rpower. auto_derive. nzt; intros E; apply (Rgt_not_eq _ _ PQ); rewrite <- E; ring.
Qed.
(** the inspiral phase: TaylorF2's without its 3PN spin-spin term, plus four calibrated powers *)
Definition drop_ss3 (c : tf2c) (ss : R) : tf2c := mktf (p_N c) (p2 c) (p3 c) (p4 c) (p5 c) (p5l c) (p6 c - ss) (p6l c) (p7 c).
Definition eta_is : Prop := eta = d_m1 p * d_m2 p / (d_m1 p + d_m2 p) / (d_m1 p + d_m2 p).
Definition ss3 : R := pn_ss3 eta (d_m1 p / (d_m1 p + d_m2 p)) (d_m2 p / (d_m1 p + d_m2 p)) (d_chi1 p) (d_chi2 p).
Definition ins_c : tf2c := drop_ss3 (tf2_coeffs (d_m1 p) (d_m2 p) (d_chi1 p) (d_chi2 p)) ss3.
Theorem ins_phase_tf2 Mf : eta_is -> 0 < Mf -> ins_phase p Mf =
  (fst (tf2_phase ins_c Mf) + (sigma1Fit eta eta2 xi * Mf + 3 / 4 * sigma2Fit eta eta2 xi * Rpower Mf (4 / 3) + 3 / 5 * sigma3Fit eta eta2 xi * Rpower Mf (5 / 3) + 1 / 2 * sigma4Fit eta eta2 xi * Mf ^ 2) / eta,
   snd (tf2_phase ins_c Mf) + (sigma1Fit eta eta2 xi + sigma2Fit eta eta2 xi * Rpower Mf (1 / 3) + sigma3Fit eta eta2 xi * Rpower Mf (2 / 3) + sigma4Fit eta eta2 xi * Mf) / eta).
Proof.
  intros HE Hf. assert (NE : eta <> 0) by (unfold eta; lra). unfold ins_phase, sub3PNSS. cbv zeta. fold eta eta2 xi ss3. set (c := tf2_coeffs _ _ _ _). unfold ins_c. fold c. unfold tf2_phase. cbv zeta. cbn [fst snd]. unfold drop_ss3. cbn [p_N p2 p3 p4 p5 p5l p6 p6l p7].
  assert (EN : p_N c = 3 / (128 * eta)) by (unfold c, tf2_coeffs; cbv zeta; cbn [p_N]; rewrite HE; reflexivity). rewrite EN.
  assert (Hv : 0 < Rpower (PI * Mf) (1 / 3)) by apply Rpower_pos. set (v := Rpower (PI * Mf) (1 / 3)) in *. set (lv := ln v). set (x43 := Rpower Mf (4/3)). set (x53 := Rpower Mf (5/3)). set (x13 := Rpower Mf (1/3)). set (x23 := Rpower Mf (2/3)).
  set (s1 := sigma1Fit _ _ _). set (s2 := sigma2Fit _ _ _). set (s3 := sigma3Fit _ _ _). set (s4 := sigma4Fit _ _ _). f_equal; field; split; lra.
Qed.
Lemma tf2_C1 c : C1 (fun x => fst (tf2_phase c x)) (fun x => snd (tf2_phase c x)).
Proof.
  apply C1_intro; intros x Hx; [apply tf2_phase_derivative, Hx|].
  assert (Hv : 0 < Rpower (PI * x) (1 / 3)) by apply Rpower_pos.
  set (F := fun v => (2 * v ^ 7 * p7 c + v ^ 6 * (p6 c + p6l c) + v ^ 6 * ln v * p6l c + v ^ 5 * p5l c + - (1) * v ^ 4 * p4 c + - (2) * v ^ 3 * p3 c + - (3) * v ^ 2 * p2 c - 5) / (3 * v ^ 8) * PI * p_N c).
  assert (EF : forall y : R, F (Rpower (PI * y) (1 / 3)) = snd (tf2_phase c y)).
  { intros y. unfold F, tf2_phase. cbv zeta. cbn [snd]. set (v := Rpower (PI * y) (1 / 3)). assert (0 < v) by apply Rpower_pos. field. lra. }
  apply (ex_derive_ext (fun x => F (Rpower (PI * x) (1 / 3)))).
  - exact EF.
  - apply (ex_derive_comp F). 
    + unfold F. auto_derive. nzt.
    + eexists. apply (v_derive x Hx).
Qed.
Theorem ins_phase_derivative : eta_is -> C1 (fun x => fst (ins_phase p x)) (fun x => snd (ins_phase p x)).
Proof.
  intros HE. assert (NE : eta <> 0) by (unfold eta; lra).
  set (s1 := sigma1Fit eta eta2 xi). set (s2 := sigma2Fit eta eta2 xi). set (s3 := sigma3Fit eta eta2 xi). set (s4 := sigma4Fit eta eta2 xi).
  set (G := fun x => (s1 * x + 3 / 4 * s2 * Rpower x (4 / 3) + 3 / 5 * s3 * Rpower x (5 / 3) + 1 / 2 * s4 * x ^ 2) / eta).
  set (dG := fun x => (s1 + s2 * Rpower x (1 / 3) + s3 * Rpower x (2 / 3) + s4 * x) / eta).
  assert (CG : C1 G dG).
  { apply C1_intro; intros x Hx.
    - unfold G, dG. replace (1 / 3) with (4 / 3 - 1) by lra. replace (2 / 3) with (5 / 3 - 1) by lra. rewrite !Rpower_minus1 by exact Hx. unfold Rpower. auto_derive; [repeat split; lra|]. field. split; lra.
    - unfold dG, Rpower. auto_derive. repeat split; lra. }
  intros x Hx. destruct (tf2_C1 ins_c x Hx) as [D1 K1]. destruct (CG x Hx) as [D2 K2]. assert (LP := loc_gt x 0 Hx). split.
  - apply (is_derive_ext_loc (fun x => fst (tf2_phase ins_c x) + G x)).
    + apply (filter_imp (fun y => 0 < y)); [|exact LP]. intros y Hy. rewrite (ins_phase_tf2 y HE Hy). reflexivity.
    + rewrite (ins_phase_tf2 x HE Hx). cbn [snd]. apply (is_derive_plus (V := R_NormedModule)); assumption.
  - apply (continuous_ext_loc _ (fun x => snd (tf2_phase ins_c x) + dG x)).
    + apply (filter_imp (fun y => 0 < y)); [|exact LP]. intros y Hy. rewrite (ins_phase_tf2 y HE Hy). reflexivity.
    + apply (continuous_plus (V := R_NormedModule)); assumption.
Qed.
(** ** the full phase is C1 (0.018 < fRD / 2); the derivative that is returned with it omits the join slopes *)
Definition pd_slope (x : R) : R := piece3 phi_join (rd_join p) (fun x => snd (ins_phase p x)) (fun x => snd (int_phase p x) + C2Int p) (fun x => snd (mrd_phase p x) + C2MRD p) x.
Lemma C1_affine f df c d : C1 f df -> C1 (fun x => f x + c + x * d) (fun x => df x + d).
Proof.
  intros H x Hx. destruct (H x Hx) as [H1 H2]. split.
  - apply (is_derive_ext (fun x => f x + (c + x * d))); [intros t; symmetry; apply Rplus_assoc|]. apply (is_derive_plus (V := R_NormedModule) f); [exact H1|]. auto_derive; [exact I|ring].
  - apply (continuous_plus (V := R_NormedModule) df); [exact H2|apply continuous_const].
Qed.
Theorem phase_C1 : eta_is -> fDM <> 0 -> phi_join < rd_join p -> C1 (fun x => fst (pd_phase p x)) pd_slope.
Proof.
  intros HE HD HJ. assert (P0 : 0 < phi_join) by (unfold phi_join; lra).
  assert (HC := piece3_C1 phi_join (rd_join p) (fun x => fst (ins_phase p x)) (fun x => fst (int_phase p x) / eta + C1Int p + x * C2Int p) (fun x => fst (mrd_phase p x) / eta + C1MRD p + x * C2MRD p)
     (fun x => snd (ins_phase p x)) (fun x => snd (int_phase p x) + C2Int p) (fun x => snd (mrd_phase p x) + C2MRD p) P0 HJ (ins_phase_derivative HE)
     (C1_affine _ _ _ _ int_phase_derivative) (C1_affine _ _ _ _ (mrd_phase_derivative HD))).
  assert (HC' : C1 (piece3 phi_join (rd_join p) (fun x => fst (ins_phase p x)) (fun x => fst (int_phase p x) / eta + C1Int p + x * C2Int p) (fun x => fst (mrd_phase p x) / eta + C1MRD p + x * C2MRD p)) pd_slope).
  { apply HC; cbv beta; unfold C1MRD, C2MRD, C1Int, C2Int; fold eta; ring. }
  intros x Hx. destruct (HC' x Hx) as [A B]. split; [|exact B]. revert A. apply is_derive_ext. intros y. symmetry. unfold pd_phase. cbn [fst]. fold eta. apply (theta_piece3 phi_join (rd_join p) (fun y => fst (ins_phase p y)) (fun y => fst (int_phase p y) / eta + C1Int p + y * C2Int p) (fun y => fst (mrd_phase p y) / eta + C1MRD p + y * C2MRD p) y HJ).
Qed.
Theorem phase_returned_slope x : phi_join < rd_join p ->
  snd (pd_phase p x) = pd_slope x - (if Rle_dec x phi_join then 0 else if Rle_dec x (rd_join p) then C2Int p else C2MRD p).
Proof.
  intros HJ. unfold pd_phase. cbn [snd]. rewrite (theta_piece3 phi_join (rd_join p) (fun y => snd (ins_phase p y)) (fun y => snd (int_phase p y)) (fun y => snd (mrd_phase p y)) x HJ). unfold pd_slope, piece3. destruct (Rle_dec x phi_join); [ring|]. destruct (Rle_dec x (rd_join p)); ring.
Qed.
(** ** amplitude *)
Let g1 := gamma1_fun eta eta2 xi. Let g2 := gamma2_fun eta eta2 xi. Let g3 := gamma3_fun eta eta2 xi.
Theorem mrd_amp_derivative : fDM * g3 <> 0 -> C1 (fun x => fst (mrd_amp p x)) (fun x => snd (mrd_amp p x)).
Proof.
  intros HG. unfold mrd_amp. cbn [fst snd]. fold eta eta2 xi fRD fDM g1 g2 g3. set (fg := fDM * g3) in *.
  assert (PQ : forall x, 0 < (x - fRD) ^ 2 + fg * fg). { intros x. pose proof (pow2_ge_0 (x - fRD)). pose proof (pow2_gt_0 fg HG). lra. }
  apply C1_intro; intros x Hx; assert (Q := PQ x); assert (EP := exp_pos ((x - fRD) * g2 / fg)).
  - assert (Q' : x + - fRD <> 0 \/ x + - fRD = 0) by lra. assert (Q2 : (x + - fRD) * ((x + - fRD) * 1) + fg * fg <> 0) by (intros Z; apply (Rgt_not_eq _ _ Q); rewrite <- Z; ring).
    auto_derive; [repeat split; try exact HG; apply Rmult_integral_contrapositive_currified; [apply Rgt_not_eq, exp_pos|exact Q2]|].
    change (exp ((x + - fRD) * g2 * / fg)) with (exp ((x - fRD) * g2 / fg)). set (E := exp _) in *. clearbody E. clear Q' PQ.
    assert (fDM <> 0) by (intros Z; apply HG; unfold fg; rewrite Z; ring). assert (g3 <> 0) by (intros Z; apply HG; unfold fg; rewrite Z; ring).
    unfold fg in *. clearbody g1 g2 g3 fRD fDM. clear fg. field. repeat split; try lra; try assumption; intros Z; apply (Rgt_not_eq _ _ Q); rewrite <- Z; ring.
  - assert (Q2 : (x + - fRD) * (x + - fRD) + fg * fg <> 0) by (intros Z; apply (Rgt_not_eq _ _ Q); rewrite <- Z; ring). assert (Q3 : (x + - fRD) * ((x + - fRD) * 1) + fg * fg <> 0) by (intros Z; apply (Rgt_not_eq _ _ Q); rewrite <- Z; ring).
    auto_derive. repeat split; try assumption. apply Rmult_integral_contrapositive_currified; [apply Rgt_not_eq, exp_pos|exact Q3].
Qed.
Lemma cube_root x : 0 < x -> x = Rpower x (1 / 3) ^ 3.
Proof. intros H. rewrite <- Rpower_pow by apply Rpower_pos. rewrite Rpower_mult. replace (1 / 3 * INR 3) with 1 by (cbn; lra). symmetry. apply Rpower_1, H. Qed.
Lemma cube_root_derive x : 0 < x -> is_derive (fun t => Rpower t (1 / 3)) x (/ (3 * Rpower x (1 / 3) ^ 2)).
Proof.
  intros H. assert (Hv : 0 < Rpower x (1 / 3)) by apply Rpower_pos. replace (/ (3 * Rpower x (1 / 3) ^ 2)) with (1 / 3 * Rpower x (1 / 3 - 1)); [apply is_derive_Rpower, H|].
  rewrite Rpower_minus1 by exact H. rewrite (cube_root x H) at 2. field. lra.
Qed.
Theorem ins_amp_derivative : C1 (fun x => fst (ins_amp p x)) (fun x => snd (ins_amp p x)).
Proof.
  unfold ins_amp. cbv zeta. cbn [fst snd]. set (q2 := prefactors_two_thirds _ _ _ _ _ _ _ _). set (q4 := prefactors_four_thirds _ _ _ _ _ _ _ _). set (q5 := prefactors_five_thirds _ _ _ _ _ _ _ _). set (q7 := prefactors_seven_thirds _ _ _ _ _ _ _ _). set (q8 := prefactors_eight_thirds _ _ _ _ _ _ _ _). set (q1 := prefactors_one _ _ _ _ _ _ _ _). set (q6 := prefactors_two _ _ _ _ _ _ _ _). set (q9 := prefactors_three _ _ _ _ _ _ _ _).
  set (F := fun t => 1 + (t ^ 2 * q2 + t ^ 4 * q4 + t ^ 5 * q5 + t ^ 7 * q7 + t ^ 8 * q8 + t ^ 3 * q1 + t ^ 6 * q6 + t ^ 9 * q9)).
  set (dF := fun t => 2 * t * q2 + 4 * t ^ 3 * q4 + 5 * t ^ 4 * q5 + 7 * t ^ 6 * q7 + 8 * t ^ 7 * q8 + 3 * t ^ 2 * q1 + 6 * t ^ 5 * q6 + 9 * t ^ 8 * q9).
  apply C1_intro; intros x Hx; assert (Hv : 0 < Rpower x (1 / 3)) by apply Rpower_pos.
  - assert (EX : forall y, 0 < y -> F (Rpower y (1 / 3)) = 1 + (Rpower y (1 / 3) * Rpower y (1 / 3) * q2 + Rpower y (1 / 3) * Rpower y (1 / 3) * (Rpower y (1 / 3) * Rpower y (1 / 3)) * q4 + Rpower y (1 / 3) * Rpower y (1 / 3) * (Rpower y (1 / 3) * Rpower y (1 / 3)) * Rpower y (1 / 3) * q5 + Rpower y (1 / 3) * Rpower y (1 / 3) * (Rpower y (1 / 3) * Rpower y (1 / 3)) * Rpower y (1 / 3) * (Rpower y (1 / 3) * Rpower y (1 / 3)) * q7 + Rpower y (1 / 3) * Rpower y (1 / 3) * (Rpower y (1 / 3) * Rpower y (1 / 3)) * Rpower y (1 / 3) * (Rpower y (1 / 3) * Rpower y (1 / 3)) * Rpower y (1 / 3) * q8 + y * q1 + y * y * q6 + y * y * y * q9)).
    { intros y Hy. assert (EC := cube_root y Hy). set (t := Rpower y (1 / 3)) in *. clearbody t. rewrite EC. unfold F. ring. }
    apply (is_derive_ext_loc (fun y => F (Rpower y (1 / 3)))); [apply (filter_imp (fun y => 0 < y)); [exact EX|apply loc_gt, Hx]|].
    assert (DF : is_derive F (Rpower x (1 / 3)) (dF (Rpower x (1 / 3)))) by (unfold F, dF; auto_derive; [exact I|ring]).
    assert (DC := is_derive_comp F (fun y => Rpower y (1 / 3)) x _ _ DF (cube_root_derive x Hx)). refine (eq_ind _ (fun d => is_derive _ x d) DC _ _).
    change (/ (3 * Rpower x (1 / 3) ^ 2) * dF (Rpower x (1 / 3)) = 2 / 3 / Rpower x (1 / 3) * q2 + 4 / 3 * Rpower x (1 / 3) * q4 + 5 / 3 * (Rpower x (1 / 3) * Rpower x (1 / 3)) * q5 + 7 / 3 * (Rpower x (1 / 3) * Rpower x (1 / 3) * (Rpower x (1 / 3) * Rpower x (1 / 3))) * q7 + 8 / 3 * (Rpower x (1 / 3) * Rpower x (1 / 3) * (Rpower x (1 / 3) * Rpower x (1 / 3)) * Rpower x (1 / 3)) * q8 + q1 + 2 * x * q6 + 3 * (x * x) * q9).
    assert (EC := cube_root x Hx). set (t := Rpower x (1 / 3)) in *. clearbody t. rewrite EC. unfold dF. field. lra.
  - unfold Rpower in *. auto_derive. repeat split; try lra.
Qed.
Lemma int_amp_poly x : int_amp p x = (poly amp_join (amp_join + 5 / 10 * (pd_peak p - amp_join)) (pd_peak p) (fst (ins_amp p amp_join)) (AmpIntColFitCoeff eta eta2 xi) (fst (mrd_amp p (pd_peak p))) (snd (ins_amp p amp_join)) (snd (mrd_amp p (pd_peak p))) x,
   dpoly amp_join (amp_join + 5 / 10 * (pd_peak p - amp_join)) (pd_peak p) (fst (ins_amp p amp_join)) (AmpIntColFitCoeff eta eta2 xi) (fst (mrd_amp p (pd_peak p))) (snd (ins_amp p amp_join)) (snd (mrd_amp p (pd_peak p))) x).
Proof. unfold int_amp. destruct (ins_amp p amp_join) as [a b]. destruct (mrd_amp p (pd_peak p)) as [c d]. reflexivity. Qed.
Theorem int_amp_derivative : C1 (fun x => fst (int_amp p x)) (fun x => snd (int_amp p x)).
Proof.
  apply C1_intro; intros x Hx.
  - rewrite int_amp_poly. cbn [snd]. apply (is_derive_ext (poly amp_join (amp_join + 5 / 10 * (pd_peak p - amp_join)) (pd_peak p) (fst (ins_amp p amp_join)) (AmpIntColFitCoeff eta eta2 xi) (fst (mrd_amp p (pd_peak p))) (snd (ins_amp p amp_join)) (snd (mrd_amp p (pd_peak p))))); [intros t; rewrite int_amp_poly; reflexivity|].
    apply poly_derive.
  - apply (ex_derive_ext (dpoly amp_join (amp_join + 5 / 10 * (pd_peak p - amp_join)) (pd_peak p) (fst (ins_amp p amp_join)) (AmpIntColFitCoeff eta eta2 xi) (fst (mrd_amp p (pd_peak p))) (snd (ins_amp p amp_join)) (snd (mrd_amp p (pd_peak p))))); [intros t; rewrite int_amp_poly; reflexivity|].
    apply dpoly_ex.
Qed.
(** the amplitude is C1 and the second value returned is its derivative everywhere; half way between the joins it takes the calibrated value *)
Theorem amp_C1 : fDM * g3 <> 0 -> amp_join < pd_peak p -> C1 (fun x => fst (pd_amp p x)) (fun x => snd (pd_amp p x)).
Proof.
  intros HG HJ. assert (P0 : 0 < amp_join) by (unfold amp_join; lra).
  assert (N12 : amp_join <> amp_join + 5 / 10 * (pd_peak p - amp_join)) by lra. assert (N13 : amp_join <> pd_peak p) by lra. assert (N23 : amp_join + 5 / 10 * (pd_peak p - amp_join) <> pd_peak p) by lra.
  assert (HC : C1 (piece3 amp_join (pd_peak p) (fun x => fst (ins_amp p x)) (fun x => fst (int_amp p x)) (fun x => fst (mrd_amp p x))) (piece3 amp_join (pd_peak p) (fun x => snd (ins_amp p x)) (fun x => snd (int_amp p x)) (fun x => snd (mrd_amp p x)))).
  { apply (piece3_C1 amp_join (pd_peak p) _ _ _ _ _ _ P0 HJ ins_amp_derivative int_amp_derivative (mrd_amp_derivative HG)); rewrite int_amp_poly; cbn [fst snd]; symmetry; [apply delta_at_f1|apply delta_slope_f1|symmetry; apply delta_at_f3|symmetry; apply delta_slope_f3]; assumption. }
  intros x Hx. destruct (HC x Hx) as [A B]. split.
  - assert (ES : snd (pd_amp p x) = piece3 amp_join (pd_peak p) (fun x => snd (ins_amp p x)) (fun x => snd (int_amp p x)) (fun x => snd (mrd_amp p x)) x) by (unfold pd_amp; cbn [snd]; apply theta_piece3 with (f := fun x => snd (ins_amp p x)) (g := fun x => snd (int_amp p x)) (h := fun x => snd (mrd_amp p x)); exact HJ). rewrite ES.
    revert A. apply is_derive_ext. intros y. symmetry. unfold pd_amp. cbn [fst]. apply theta_piece3 with (f := fun x => fst (ins_amp p x)) (g := fun x => fst (int_amp p x)) (h := fun x => fst (mrd_amp p x)). exact HJ.
  - revert B. apply continuous_ext. intros y. symmetry. unfold pd_amp. cbn [snd]. apply theta_piece3 with (f := fun x => snd (ins_amp p x)) (g := fun x => snd (int_amp p x)) (h := fun x => snd (mrd_amp p x)). exact HJ.
Qed.
Theorem amp_collocation : amp_join < pd_peak p -> fst (pd_amp p (amp_join + 5 / 10 * (pd_peak p - amp_join))) = AmpIntColFitCoeff eta eta2 xi.
Proof.
  intros HJ. unfold pd_amp. cbn [fst]. set (x := amp_join + 5 / 10 * (pd_peak p - amp_join)). rewrite (theta_piece3 amp_join (pd_peak p) (fun x => fst (ins_amp p x)) (fun x => fst (int_amp p x)) (fun x => fst (mrd_amp p x)) x HJ).
  unfold piece3. destruct (Rle_dec x amp_join); [unfold x in *; lra|]. destruct (Rle_dec x (pd_peak p)); [|unfold x in *; lra]. rewrite int_amp_poly. cbn [fst]. apply delta_at_f2; unfold x; lra.
Qed.
End One.
