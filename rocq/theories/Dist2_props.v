(** C77: which parameters and values the distributions accept, and what log_prob returns at every value. *)
From Coquelicot Require Import Coquelicot.
From Coq Require Import Reals Lra.
From Verif Require Import Base Gauss Dist2_model.
Local Open Scope R_scope.

Ltac dec := repeat match goal with
  | |- context [Rlt_dec ?a ?b] => destruct (Rlt_dec a b); try lra
  | |- context [Rle_dec ?a ?b] => destruct (Rle_dec a b); try lra
  | |- context [Req_EM_T ?a ?b] => destruct (Req_EM_T a b); try lra end.

Lemma elog_pos x : 0 < x -> elog (EF x) = EF (ln x).
Proof. intros. unfold elog. dec. reflexivity. Qed.
Lemma elog_0 : elog (EF 0) = EM.
Proof. unfold elog. dec. reflexivity. Qed.
Lemma elog_neg x : x < 0 -> elog (EF x) = EN.
Proof. intros. unfold elog. dec. reflexivity. Qed.
Lemma elt_fin x y : elt (EF x) (EF y) = true <-> x < y.
Proof. unfold elt. destruct (Rlt_dec x y); split; intros; try lra; try discriminate; reflexivity. Qed.
Lemma ele_fin x y : ele (EF x) (EF y) = true <-> x <= y.
Proof. unfold ele. destruct (Rle_dec x y); split; intros; try lra; try discriminate; reflexivity. Qed.
Lemma elt_fin_f x y : elt (EF x) (EF y) = false <-> y <= x.
Proof. unfold elt. destruct (Rlt_dec x y); split; intros; try lra; try discriminate; reflexivity. Qed.
Lemma ele_fin_f x y : ele (EF x) (EF y) = false <-> y < x.
Proof. unfold ele. destruct (Rle_dec x y); split; intros; try lra; try discriminate; reflexivity. Qed.
Lemma ln_le' x y : 0 < x -> x <= y -> ln x <= ln y.
Proof. intros H [L| ->]; [left; apply ln_increasing; assumption|right; reflexivity]. Qed.

(** Uniform with finite increasing bounds *)
Lemma uniform_fin lo hi x : lo < hi ->
  (lo <= x < hi -> forall c, uniform_log_prob (mku (EF lo) (EF hi) c) (EF x) = Ok (EF (- ln (hi - lo)))) /\
  (x = hi -> forall c, uniform_log_prob (mku (EF lo) (EF hi) c) (EF x) = Ok EM) /\
  (x < lo \/ hi < x -> uniform_log_prob (mku (EF lo) (EF hi) true) (EF x) = Err ValueError /\
     uniform_log_prob (mku (EF lo) (EF hi) false) (EF x) = Ok EM).
Proof.
  intros L. unfold uniform_log_prob; cbn [un_low un_high un_chk]. cbn [esub eneg eadd].
  assert (P : elog (EF (hi + - lo)) = EF (ln (hi - lo))) by (replace (hi + - lo) with (hi - lo) by ring; apply elog_pos; lra). rewrite P.
  repeat split; intros.
  - assert (A : ele (EF lo) (EF x) = true) by (apply ele_fin; lra). assert (B : ele (EF x) (EF hi) = true) by (apply ele_fin; lra).
    assert (D : elt (EF x) (EF hi) = true) by (apply elt_fin; lra). rewrite A, B, D. cbn [andb negb ind]. rewrite Bool.andb_false_r.
    replace (1 * 1) with 1 by ring. rewrite elog_pos, ln_1 by lra. cbn. do 2 f_equal. ring.
  - subst x. assert (A : ele (EF lo) (EF hi) = true) by (apply ele_fin; lra). assert (B : ele (EF hi) (EF hi) = true) by (apply ele_fin; lra).
    assert (D : elt (EF hi) (EF hi) = false) by (apply elt_fin_f; lra). rewrite A, B, D. cbn [andb negb ind]. rewrite Bool.andb_false_r.
    rewrite Rmult_0_r, elog_0. reflexivity.
  - assert (A : ele (EF lo) (EF x) && ele (EF x) (EF hi) = false).
    { apply Bool.andb_false_iff. destruct H; [left|right]; apply ele_fin_f; lra. } rewrite A. reflexivity.
  - assert (A : ind (ele (EF lo) (EF x)) * ind (elt (EF x) (EF hi)) = 0).
    { destruct H as [H|H].
      - assert (E : ele (EF lo) (EF x) = false) by (apply ele_fin_f; lra). rewrite E. cbn [ind]. ring.
      - assert (E : elt (EF x) (EF hi) = false) by (apply elt_fin_f; lra). rewrite E. cbn [ind]. ring. }
    cbn [andb]. rewrite A, elog_0. reflexivity.
Qed.

(** ** LogUniform *)
(** with validation on (the default) the bounds are accepted exactly when 0 <= low < high *)
Theorem loguniform_accepts_iff low high v : checked v = true ->
  (0 <= low < high <-> is_ok (logu_create low high v)) /\
  (~ 0 <= low < high -> logu_create low high v = Err ValueError).
Proof.
  intros V. unfold logu_create, uniform_create. rewrite V. cbn [andb].
  assert (E : elt (elog (EF low)) (elog (EF high)) = true <-> 0 <= low < high).
  { unfold elog. destruct (Rlt_dec 0 low) as [P|P].
    - destruct (Rlt_dec 0 high) as [Q|Q].
      + rewrite elt_fin. split; intros; [split; [lra|apply ln_lt_inv; lra]|apply ln_increasing; lra].
      + destruct (Req_EM_T high 0); cbn; split; intros; try discriminate; lra.
    - destruct (Req_EM_T low 0) as [->|Z].
      + destruct (Rlt_dec 0 high) as [Q|Q]; [cbn; split; intros; [lra|reflexivity]|].
        destruct (Req_EM_T high 0); cbn; split; intros; try discriminate; lra.
      + cbn. split; intros; [discriminate|lra]. }
  destruct (elt (elog (EF low)) (elog (EF high))); cbn [negb bind].
  - split; [|intros N; exfalso; apply N, E; reflexivity]. split; intros _; [eexists; reflexivity|apply E; reflexivity].
  - split; [|reflexivity]. split; [intros H; apply E in H; discriminate|intros [? H]; discriminate].
Qed.

(** a lower bound of 0 is accepted, and then every sample is NaN *)
Theorem loguniform_zero_low_refuted high v : 0 < high ->
  exists s, logu_create 0 high v = Ok s /\ forall u, 0 <= u < 1 -> logu_sample s u = EN.
Proof.
  intros H. unfold logu_create, uniform_create. rewrite elog_0, elog_pos by assumption. cbn [elt]. rewrite Bool.andb_false_r. cbn [bind].
  eexists; split; [reflexivity|]. intros u Hu. unfold logu_sample, uniform_rsample. cbn [lu_base un_low un_high esub eneg eadd emul].
  unfold sgn_inf. dec; reflexivity.
Qed.

(** what log_prob returns at every value, for proper bounds: the log-density on [low, high), -inf at [high] itself; elsewhere an exception
    if values are checked (the default), -inf (positive values) or NaN (others) if they are not *)
Theorem loguniform_log_prob_total low high v : 0 < low -> low < high ->
  exists s, logu_create low high v = Ok s /\
   (forall u, 0 <= u < 1 -> exists x, logu_sample s u = EF x /\ low <= x < high /\ (ln x - ln low) / (ln high - ln low) = u) /\
   (forall y, low <= y < high -> logu_log_prob s y = Ok (EF (ln (1 / (y * ln (high / low)))))) /\
   logu_log_prob s high = Ok EM /\
   (forall y, y < low \/ high < y ->
      logu_log_prob s y = if checked v then Err ValueError else Ok (if Rlt_dec 0 y then EM else EN)).
Proof.
  intros H0 H1. assert (L : ln low < ln high) by (apply ln_increasing; lra).
  exists (mklu (mku (EF (ln low)) (EF (ln high)) (checked v)) (checked v)).
  assert (D : ln (high / low) = ln high - ln low) by (unfold Rdiv; rewrite ln_mult, ln_Rinv by (try apply Rinv_0_lt_compat; lra); ring).
  split; [|split; [|split; [|split]]].
  - unfold logu_create, uniform_create. rewrite !elog_pos by lra.
    assert (E : elt (EF (ln low)) (EF (ln high)) = true) by (apply elt_fin; lra). rewrite E, Bool.andb_false_r. reflexivity.
  - intros u Hu. unfold logu_sample, uniform_rsample. cbn [lu_base un_low un_high esub eneg eadd emul eexp].
    eexists; split; [reflexivity|]. rewrite ln_exp. split; [split|field; lra].
    + rewrite <- (exp_ln low) at 1 by lra. destruct (Req_dec u 0) as [->|]; [right; f_equal; ring|]. left. apply exp_increasing. nra.
    + rewrite <- (exp_ln high) at 2 by lra. apply exp_increasing. nra.
  - intros y Hy. unfold logu_log_prob. cbn [lu_chk lu_base]. assert (P : elt (EF 0) (EF y) = true) by (apply elt_fin; lra).
    rewrite P, Bool.andb_false_r, elog_pos by lra. assert (ln low <= ln y) by (apply ln_le'; lra). assert (ln y < ln high) by (apply ln_increasing; lra).
    rewrite (proj1 (uniform_fin _ _ (ln y) L)) by lra. cbn. do 2 f_equal.
    rewrite D. unfold Rdiv. rewrite Rmult_1_l, ln_Rinv, ln_mult by (try apply Rmult_lt_0_compat; lra). ring.
  - unfold logu_log_prob. cbn [lu_chk lu_base]. assert (P : elt (EF 0) (EF high) = true) by (apply elt_fin; lra).
    rewrite P, Bool.andb_false_r, elog_pos by lra. rewrite (proj1 (proj2 (uniform_fin _ _ (ln high) L))) by reflexivity. reflexivity.
  - intros y Hy. unfold logu_log_prob. cbn [lu_chk lu_base]. destruct (Rlt_dec 0 y) as [P|P].
    + assert (E : elt (EF 0) (EF y) = true) by (apply elt_fin; lra). rewrite E, Bool.andb_false_r, elog_pos by lra.
      assert (O : ln y < ln low \/ ln high < ln y) by (destruct Hy; [left|right]; apply ln_increasing; lra).
      destruct (proj2 (proj2 (uniform_fin _ _ (ln y) L)) O) as [A B]. destruct (checked v); [rewrite A|rewrite B]; reflexivity.
    + assert (E : elt (EF 0) (EF y) = false) by (apply elt_fin_f; lra). rewrite E. destruct (checked v); [reflexivity|].
      cbn [andb negb]. destruct (Req_dec y 0) as [->|Z].
      * rewrite elog_0. unfold uniform_log_prob. cbn [un_chk andb un_low un_high ele elt ind esub eneg eadd]. rewrite Rmult_0_l, elog_0.
        replace (ln high + - ln low) with (ln high - ln low) by ring. rewrite elog_pos by lra. reflexivity.
      * rewrite elog_neg by lra. unfold uniform_log_prob. cbn [un_chk andb un_low un_high ele elt ind esub eneg eadd bind]. reflexivity.
Qed.

(** ** LogNormal *)
(** scale > 0 is required when arguments are checked *)
Theorem lognormal_accepts_iff mean std low v : checked v = true ->
  (0 < std -> exists s, logn_create mean std low v = Ok s) /\ (std <= 0 -> logn_create mean std low v = Err ValueError).
Proof.
  intros V. unfold logn_create, normal_create. rewrite V. cbn [andb]. split; intros H.
  - assert (E : elt (EF 0) (EF std) = true) by (apply elt_fin; lra). rewrite E. eexists; reflexivity.
  - assert (E : elt (EF 0) (EF std) = false) by (apply elt_fin_f; lra). rewrite E. reflexivity.
Qed.

(** [low] is ignored by the sampler: the samples are those without it, and for every positive value there is a draw that gives it,
    however large [low] is - although the support the object announces is value > low *)
Theorem lognormal_low_refuted mean std l v s : 0 < std -> 0 < l -> logn_create mean std (Some l) v = Ok s ->
  (exists s', logn_create mean std None v = Ok s' /\ forall e, logn_sample s e = logn_sample s' e) /\
  (forall x, 0 < x -> exists e, logn_sample s e = x) /\
  (exists ok e, logn_support s = Some ok /\ ok (logn_sample s e) = false /\ logn_sample s e < l).
Proof.
  intros Hs Hl E. unfold logn_create in *. unfold normal_create in *. assert (P : elt (EF 0) (EF std) = true) by (apply elt_fin; lra).
  rewrite P, Bool.andb_false_r in *. cbn [bind] in *. injection E as <-.
  assert (Rch : forall x, 0 < x -> exists e, exp (mean + e * std) = x).
  { intros x Hx. exists ((ln x - mean) / std). replace (mean + (ln x - mean) / std * std) with (ln x) by (field; lra). apply exp_ln, Hx. }
  split; [eexists; split; [reflexivity|intros; reflexivity]|]. split; [exact Rch|].
  destruct (Rch (l / 2) ltac:(lra)) as [e He].
  eexists _, e. unfold logn_support, logn_sample, normal_rsample. cbn [ln_low ln_base no_loc no_scale]. split; [reflexivity|]. rewrite He.
  split; [apply elt_fin_f; lra|lra].
Qed.

(** with values checked (the default) log_prob raises, whatever the parameters and the value *)
Theorem lognormal_log_prob_refuted mean std low v y : checked v = true -> 0 < std ->
  exists s, logn_create mean std low v = Ok s /\ logn_log_prob s y = Err AttributeError.
Proof.
  intros V Hs. unfold logn_create, normal_create. rewrite V. assert (E : elt (EF 0) (EF std) = true) by (apply elt_fin; lra). rewrite E. cbn.
  eexists; split; reflexivity.
Qed.

Definition lognormal_pdf (mean std y : R) : R := exp (- (ln y - mean) ^ 2 / (2 * std ^ 2)) / (y * std * sqrt (2 * PI)).
(** without checks it is the log-density of the untruncated log-normal law, also below [low] *)
Theorem lognormal_unchecked_density mean std low y : 0 < std ->
  exists s, logn_create mean std low (Some false) = Ok s /\
    (0 < y -> logn_log_prob s y = Ok (EF (ln (lognormal_pdf mean std y)))).
Proof.
  intros Hs. unfold logn_create, normal_create. cbn [checked andb bind]. eexists; split; [reflexivity|]. intros Hy.
  unfold logn_log_prob. cbn [ln_chk ln_base]. rewrite elog_pos by lra. unfold normal_log_prob. cbn [no_chk no_scale no_loc andb].
  rewrite elog_pos by lra. cbn [esub eneg eadd emul ediv]. dec; [exfalso; nra|]. cbn [esub eneg eadd bind]. do 2 f_equal.
  unfold lognormal_pdf. assert (S2 : 0 < sqrt (2 * PI)) by (apply sqrt_lt_R0; pose proof PI_RGT_0; lra).
  unfold Rdiv at 2. rewrite ln_mult; [|apply exp_pos|apply Rinv_0_lt_compat; repeat apply Rmult_lt_0_compat; lra].
  rewrite ln_exp, ln_Rinv by (repeat apply Rmult_lt_0_compat; lra). rewrite !ln_mult by (try apply Rmult_lt_0_compat; lra).
  field. lra.
Qed.

Definition std_normal_pdf (z : R) : R := exp (- z ^ 2 / 2) / sqrt (2 * PI).
Lemma std_normal_cont z : continuous std_normal_pdf z.
Proof. apply (ex_derive_continuous std_normal_pdf). unfold std_normal_pdf. auto_derive. trivial. Qed.
Lemma lognormal_cont mean std y : 0 < std -> 0 < y -> continuous (lognormal_pdf mean std) y.
Proof.
  intros Hs Hy. apply (ex_derive_continuous (lognormal_pdf mean std)). unfold lognormal_pdf.
  assert (S2 : 0 < sqrt (2 * PI)) by (apply sqrt_lt_R0; pose proof PI_RGT_0; lra).
  auto_derive. repeat split; try lra. apply Rgt_not_eq. repeat apply Rmult_lt_0_compat; lra.
Qed.
Lemma exp_le' a b : a <= b -> exp a <= exp b.
Proof. intros [H| ->]; [left; apply exp_increasing, H|right; reflexivity]. Qed.

(** the mass that density gives to [exp(mean + std a), exp(mean + std b)] is the standard normal mass of [a, b], of total 1 *)
Theorem lognormal_mass mean std : 0 < std ->
  (forall a b, a <= b -> is_RInt (lognormal_pdf mean std) (exp (mean + std * a)) (exp (mean + std * b)) (RInt std_normal_pdf a b)) /\
  is_lim (fun X => RInt std_normal_pdf (- X) X) p_infty 1.
Proof.
  intros Hs. assert (S2 : 0 < sqrt (2 * PI)) by (apply sqrt_lt_R0; pose proof PI_RGT_0; lra). split.
  - intros a b Hab.
    assert (Ex : ex_RInt (lognormal_pdf mean std) (exp (mean + std * a)) (exp (mean + std * b))).
    { apply (ex_RInt_continuous (V := R_CompleteNormedModule)). intros z Hz. apply lognormal_cont; [exact Hs|].
      rewrite Rmin_left in Hz by (apply exp_le'; nra). pose proof (exp_pos (mean + std * a)). lra. }
    replace (RInt std_normal_pdf a b) with (RInt (lognormal_pdf mean std) (exp (mean + std * a)) (exp (mean + std * b))); [apply (RInt_correct (V := R_CompleteNormedModule)), Ex|].
    set (g := fun t => exp (mean + std * t)). set (dg := fun t => std * exp (mean + std * t)).
    assert (C1 : is_RInt (fun y => scal (dg y) (lognormal_pdf mean std (g y))) a b (RInt (lognormal_pdf mean std) (g a) (g b))).
    { apply (is_RInt_comp (V := R_CompleteNormedModule) (lognormal_pdf mean std) g dg).
      - intros x _. apply lognormal_cont; [exact Hs|apply exp_pos].
      - intros x _. split; [unfold g, dg; auto_derive; [trivial|ring]|]. apply (ex_derive_continuous dg). unfold dg. auto_derive. trivial. }
    change (RInt (lognormal_pdf mean std) (g a) (g b) = RInt std_normal_pdf a b). symmetry. apply is_RInt_unique.
    apply (is_RInt_ext (V := R_CompleteNormedModule) (fun y => scal (dg y) (lognormal_pdf mean std (g y)))); [|exact C1].
    intros t _. unfold scal, dg, g, lognormal_pdf, std_normal_pdf. cbn. rewrite ln_exp. pose proof (exp_pos (mean + std * t)) as P.
    match goal with |- ?u = ?w => change (@eq R u w) end. unfold mult; cbn.
    replace (- ((mean + std * t - mean) * ((mean + std * t - mean) * 1)) / (2 * (std * (std * 1)))) with (- (t * (t * 1)) / 2) by (field; lra).
    field. repeat split; lra.
  - assert (G := gauss_cos 0). pose proof PI_RGT_0 as PI0. assert (Q2 : 0 < sqrt 2) by (apply sqrt_lt_R0; lra). assert (QP : 0 < sqrt PI) by (apply sqrt_lt_R0; lra).
    assert (E2 : sqrt 2 * sqrt 2 = 2) by (apply sqrt_sqrt; lra).
    assert (EQ : forall X, RInt std_normal_pdf (- X) X = / sqrt PI * RInt (fun x => exp (- (x * x)) * cos (2 * 0 * x)) (- (X / sqrt 2)) (X / sqrt 2)).
    { intros X. set (f := fun x => exp (- (x * x)) * cos (2 * 0 * x)).
      assert (Cf : forall x, continuous f x) by (intros x; apply (ex_derive_continuous f); unfold f; auto_derive; trivial).
      rewrite <- (RInt_scal (V := R_CompleteNormedModule) f) by (apply (ex_RInt_continuous (V := R_CompleteNormedModule)); intros; apply Cf).
      set (g := fun t => t / sqrt 2). set (dg := fun _ : R => / sqrt 2). set (F := fun y => scal (/ sqrt PI) (f y)).
      assert (C1 : is_RInt (fun y => scal (dg y) (F (g y))) (- X) X (RInt F (g (- X)) (g X))).
      { apply (is_RInt_comp (V := R_CompleteNormedModule) F g dg).
        - intros x _. apply (continuous_scal_r (V := R_CompleteNormedModule)). apply Cf.
        - intros x _. split; [unfold g, dg; auto_derive; [trivial|field; lra]|]. apply continuous_const. }
      replace (- (X / sqrt 2)) with (g (- X)) by (unfold g; field; lra). change (X / sqrt 2) with (g X). 
      apply is_RInt_unique. apply (is_RInt_ext (V := R_CompleteNormedModule) (fun y => scal (dg y) (F (g y)))); [|exact C1].
      intros t _. unfold scal, F, f, dg, g, std_normal_pdf. cbn. unfold mult; cbn.
      replace (2 * 0 * (t / sqrt 2)) with 0 by ring. rewrite cos_0.
      replace (- (t / sqrt 2 * (t / sqrt 2))) with (- (t * (t * 1)) / 2) by (field_simplify_eq; [rewrite <- !Rsqr_pow2; unfold Rsqr; nra|lra]).
      rewrite sqrt_mult by lra. match goal with |- ?u = ?w => change (@eq R u w) end. field. split; lra. }
    apply (is_lim_ext (fun X => / sqrt PI * RInt (fun x => exp (- (x * x)) * cos (2 * 0 * x)) (- (X / sqrt 2)) (X / sqrt 2))); [intros; symmetry; apply EQ|].
    assert (E1 : / sqrt PI * (sqrt PI * exp (- (0 * 0))) = 1) by (replace (- (0 * 0)) with 0 by ring; rewrite exp_0; field; lra).
    rewrite <- E1.
    apply (is_lim_scal_l _ (/ sqrt PI) p_infty (sqrt PI * exp (- (0 * 0)))).
    apply (is_lim_comp (fun X => RInt (fun x => exp (- (x * x)) * cos (2 * 0 * x)) (- X) X) (fun X => X / sqrt 2) p_infty _ p_infty).
    + exact G.
    + unfold Rdiv. assert (EM' : Rbar_mult p_infty (/ sqrt 2) = p_infty).
      { cbn. assert (0 < / sqrt 2) by (apply Rinv_0_lt_compat, Q2). destruct (Rle_dec 0 (/ sqrt 2)); [|lra]. destruct (Rle_lt_or_eq_dec _ _ _); [reflexivity|lra]. }
      assert (W := is_lim_scal_r (fun x => x) (/ sqrt 2) p_infty p_infty (is_lim_id p_infty)). rewrite EM' in W. exact W.
    + exists 0. intros; discriminate.
Qed.

(** ** PowerLaw *)
(** a primitive of x^index on the positive numbers, continued to 0 (for index > -1) *)
Definition prim (index x : R) : R :=
  if Req_EM_T index (-1) then ln x else if Req_EM_T x 0 then 0 else Rpower x (index + 1) / (index + 1).
Lemma prim_derive index x : 0 < x -> is_derive (prim index) x (Rpower x index).
Proof.
  intros Hx. unfold prim. destruct (Req_EM_T index (-1)) as [E|E].
  - subst index. auto_derive; [lra|]. replace (-1) with (- (1)) by ring. rewrite Rpower_Ropp, Rpower_1 by lra. ring.
  - apply (is_derive_ext_loc (fun x => exp ((index + 1) * ln x) / (index + 1))).
    + exists (mkposreal x Hx). intros t Ht. cbn in Ht. unfold ball in Ht; cbn in Ht. unfold AbsRing_ball, abs, minus, plus, opp in Ht; cbn in Ht.
      destruct (Req_EM_T t 0); [subst t; exfalso; apply Rabs_def2 in Ht; lra|reflexivity].
    + auto_derive; [lra|]. replace (Rpower x index) with (Rpower x (index + 1) / x) by (rewrite Rpower_plus, Rpower_1 by lra; field; lra).
      unfold Rpower. field. lra.
Qed.
Lemma prim_mono index x y : 0 <= x -> (x = 0 -> -1 < index) -> x < y -> prim index x < prim index y.
Proof.
  intros Hx H0 Hxy. unfold prim. destruct (Req_EM_T index (-1)) as [E|E].
  - apply ln_increasing; [|exact Hxy]. destruct Hx as [Hx|Hx]; [exact Hx|]. symmetry in Hx. specialize (H0 Hx). lra.
  - destruct (Req_EM_T y 0); [lra|]. destruct (Req_EM_T x 0) as [Z|Z].
    + specialize (H0 Z). apply Rdiv_lt_0_compat; [apply exp_pos|lra].
    + assert (L : ln x < ln y) by (apply ln_increasing; lra). unfold Rpower. destruct (Rlt_dec 0 (index + 1)).
      * apply Rmult_lt_compat_r; [apply Rinv_0_lt_compat; lra|]. apply exp_increasing. nra.
      * unfold Rdiv. assert (/ (index + 1) < 0) by (apply Rinv_lt_0_compat; lra). assert (exp ((index + 1) * ln y) < exp ((index + 1) * ln x)) by (apply exp_increasing; nra). nra.
Qed.
Lemma prim_inj index x y : 0 <= x -> 0 <= y -> (x = 0 \/ y = 0 -> -1 < index) -> prim index x <= prim index y -> x <= y.
Proof. intros Hx Hy H0 L. destruct (Rle_dec x y) as [|N]; [assumption|]. exfalso. assert (prim index y < prim index x) by (apply prim_mono; [lra|intros Z; apply H0; right; exact Z|lra]). lra. Qed.

(** the parameters of a PowerLaw that is defined on [0, inf): the lower bound is 0 only for indices above -1 *)
Definition pl_domain (index x : R) : Prop := 0 <= x /\ (x = 0 -> -1 < index).
Lemma pl_create_ok minimum maximum index v : pl_domain index minimum -> pl_domain index maximum -> index <> 0 ->
  pl_create minimum maximum index v = Ok (mkpl index (mku (EF (prim index minimum)) (EF (prim index maximum)) false) (checked v)).
Proof.
  intros [M0 M1] [N0 N1] Hi. unfold pl_create, prim. destruct (Req_EM_T index 0); [contradiction|]. destruct (Req_EM_T index (-1)) as [E|E].
  - assert (0 < minimum) by (destruct M0 as [|Z]; [assumption|symmetry in Z; specialize (M1 Z); lra]).
    assert (0 < maximum) by (destruct N0 as [|Z]; [assumption|symmetry in Z; specialize (N1 Z); lra]).
    rewrite !elog_pos by assumption. reflexivity.
  - unfold pypow. cbn zeta.
    destruct (Rlt_dec 0 minimum), (Rlt_dec 0 maximum), (Req_EM_T minimum 0), (Req_EM_T maximum 0); try lra; cbn [bind];
      repeat match goal with |- context [Rlt_dec 0 (index + 1)] => destruct (Rlt_dec 0 (index + 1)); cbn [bind] end;
      try (exfalso; first [specialize (M1 ltac:(assumption)); lra|specialize (N1 ltac:(assumption)); lra]);
      unfold uniform_create; cbn [checked andb bind]; unfold Rdiv; rewrite ?Rmult_0_l; reflexivity.
Qed.

(** the sample for a draw u: the point at which the primitive has run through the fraction u of its range; the bounds may be in any order *)
Lemma pl_sample_prim minimum maximum index u c c' : pl_domain index minimum -> pl_domain index maximum -> 0 <= u <= 1 ->
  exists x, pl_sample (mkpl index (mku (EF (prim index minimum)) (EF (prim index maximum)) c) c') u = EF x /\ pl_domain index x /\
    prim index x = prim index minimum + u * (prim index maximum - prim index minimum).
Proof.
  intros Dm DM Hu. unfold pl_sample, uniform_rsample. cbn [pl_base pl_index un_low un_high esub eneg eadd emul].
  set (w := prim index minimum + u * (prim index maximum + - prim index minimum)).
  assert (Ew : w = prim index minimum + u * (prim index maximum - prim index minimum)) by (unfold w; ring).
  destruct (Req_EM_T index (-1)) as [E|E].
  - cbn [eexp]. exists (exp w). split; [reflexivity|]. pose proof (exp_pos w). split; [split; lra|]. rewrite <- Ew. unfold prim. destruct (Req_EM_T index (-1)); [apply ln_exp|contradiction].
  - cbn [eadd]. set (a := index + 1). assert (Ha : a <> 0) by (unfold a; lra).
    assert (Sg : forall x, pl_domain index x -> 0 <= a * prim index x /\ (a < 0 -> 0 < a * prim index x)).
    { intros x [X0 X1]. unfold prim. destruct (Req_EM_T index (-1)); [contradiction|]. destruct (Req_EM_T x 0) as [Z|Z].
      - specialize (X1 Z). unfold a. split; intros; lra.
      - fold a. replace (a * (Rpower x a / a)) with (Rpower x a) by (field; exact Ha). pose proof (exp_pos (a * ln x)). unfold Rpower. split; intros; lra. }
    destruct (Sg _ Dm) as [P1 P2]. destruct (Sg _ DM) as [Q1 Q2].
    assert (Eaw : a * w = (1 - u) * (a * prim index minimum) + u * (a * prim index maximum)) by (rewrite Ew; ring).
    assert (W : 0 <= a * w /\ (a < 0 -> 0 < a * w)).
    { rewrite Eaw. split; [nra|]. intros N. specialize (P2 N). specialize (Q2 N). destruct (Rlt_dec u 1); nra. }
    destruct W as [W1 W2]. unfold epow. rewrite Rplus_0_l. destruct (Rlt_dec 0 (a * w)) as [L|L].
    + eexists; split; [reflexivity|]. pose proof (exp_pos (1 / a * ln (a * w))) as Px. fold (Rpower (a * w) (1 / a)) in Px.
      split; [split; lra|]. rewrite <- Ew. unfold prim. destruct (Req_EM_T index (-1)); [contradiction|]. destruct (Req_EM_T _ 0); [lra|]. fold a.
      rewrite Rpower_mult. replace (1 / a * a) with 1 by (field; exact Ha). rewrite Rpower_1 by exact L. field. exact Ha.
    + assert (Z : a * w = 0) by lra. destruct (Req_EM_T (a * w) 0); [|contradiction].
      assert (0 < a). { destruct (Rlt_dec 0 a); [assumption|]. exfalso. assert (N : a < 0) by lra. specialize (W2 N). lra. }
      destruct (Rlt_dec 0 (1 / a)) as [_|B]; [|exfalso; apply B, Rdiv_lt_0_compat; lra].
      eexists; split; [reflexivity|]. split; [split; [lra|intros _; unfold a in *; lra]|]. rewrite <- Ew.
      unfold prim. destruct (Req_EM_T index (-1)); [contradiction|]. destruct (Req_EM_T 0 0); [|lra].
      symmetry. apply Rmult_integral in Z. destruct Z; [contradiction|assumption].
Qed.

Lemma pl_log_prob_pos index b c y : 0 < y -> 
  pl_log_prob (mkpl index b c) y = let* l := uniform_log_prob b (EF (prim index y)) in Ok (eadd (EF (ln (Rpower y index))) l).
Proof.
  intros Hy. unfold pl_log_prob. cbn [pl_chk pl_index pl_base]. assert (E0 : ele (EF 0) (EF y) = true) by (apply ele_fin; lra).
  rewrite E0, Bool.andb_false_r. unfold prim. destruct (Req_EM_T index (-1)) as [E|E].
  - rewrite elog_pos by lra. cbn [esub eneg eadd]. unfold Rpower. rewrite ln_exp, E. replace (0 + - ln y) with (-1 * ln y) by ring. reflexivity.
  - destruct (Req_EM_T y 0); [lra|]. set (a := index + 1). assert (Ha : a <> 0) by (unfold a; lra).
    replace (1 / (1 / a)) with a by (field; exact Ha). unfold epow. destruct (Rlt_dec 0 y); [|lra].
    assert (Px : 0 < Rpower y a) by apply exp_pos. cbn [emul ediv]. destruct (Req_EM_T (Rpower y a) 0); [lra|]. cbn [eabs esub eneg eadd ediv].
    destruct (Req_EM_T a 0); [contradiction|]. replace (Rpower y a + - 0) with (Rpower y a) by ring.
    assert (Ab : Rabs (1 / a * y / Rpower y a) = y / (Rabs a * Rpower y a)).
    { unfold Rdiv. rewrite !Rabs_mult, !Rabs_inv, Rabs_R1, (Rabs_pos_eq y), (Rabs_pos_eq (Rpower y a)) by lra. field. split; [lra|apply Rabs_no_R0, Ha]. }
    assert (Pa : 0 < Rabs a) by (apply Rabs_pos_lt, Ha).
    rewrite Ab, elog_pos by (apply Rdiv_lt_0_compat; [lra|apply Rmult_lt_0_compat; lra]). cbn [esub eneg eadd].
    replace (0 + - ln (y / (Rabs a * Rpower y a)) + - ln (Rabs a)) with (ln (Rpower y index)); [reflexivity|].
    unfold Rdiv. rewrite ln_mult, ln_Rinv, ln_mult by (try apply Rinv_0_lt_compat; try apply Rmult_lt_0_compat; lra).
    unfold Rpower. rewrite !ln_exp. unfold a. ring.
Qed.

(** what log_prob returns at every value, for proper bounds: the normalised log-density on [minimum, maximum) away from 0, -inf at other
    positive values, NaN at 0 (which the declared support contains), and an exception at negative values if values are checked *)
Theorem powerlaw_log_prob_total minimum maximum index v :
  pl_domain index minimum -> minimum < maximum -> index <> 0 ->
  exists s, pl_create minimum maximum index v = Ok s /\
    (forall u, 0 <= u < 1 -> exists x, pl_sample s u = EF x /\ minimum <= x < maximum /\
       (prim index x - prim index minimum) / (prim index maximum - prim index minimum) = u) /\
    (forall y, 0 < y -> minimum <= y < maximum -> pl_log_prob s y = Ok (EF (ln (Rpower y index / (prim index maximum - prim index minimum))))) /\
    (forall y, 0 < y -> y < minimum \/ maximum <= y -> pl_log_prob s y = Ok EM) /\
    pl_log_prob s 0 = Ok EN /\
    (forall y, y < 0 -> checked v = true -> pl_log_prob s y = Err ValueError).
Proof.
  intros Dm Hlt Hi. assert (M0 : 0 <= minimum) by apply Dm. assert (DM : pl_domain index maximum) by (destruct Dm; split; [lra|intros; lra]).
  assert (L : prim index minimum < prim index maximum) by (destruct Dm; apply prim_mono; assumption).
  eexists; split; [apply pl_create_ok; assumption|].
  split; [|split; [|split; [|split]]].
  - intros u Hu. destruct (pl_sample_prim minimum maximum index u false (checked v) Dm DM ltac:(lra)) as [x [-> [Dx Ex]]].
    exists x. split; [reflexivity|]. split; [|rewrite Ex; field; lra]. split.
    + apply (prim_inj index); [apply Dm|apply Dx| |rewrite Ex; nra]. intros [Z|Z]; [apply Dm, Z|apply Dx, Z].
    + destruct (Rlt_dec x maximum) as [|N]; [assumption|]. exfalso. assert (prim index maximum <= prim index x).
      { destruct (Req_dec x maximum) as [->|]; [lra|]. left. apply prim_mono; [apply DM|apply DM|lra]. } rewrite Ex in H. nra.
  - intros y Hy Hr. rewrite pl_log_prob_pos by exact Hy.
    assert (A : prim index minimum <= prim index y) by (destruct (Req_dec minimum y) as [->|]; [lra|left; apply prim_mono; [apply Dm|apply Dm|lra]]).
    assert (B : prim index y < prim index maximum) by (apply prim_mono; lra).
    rewrite (proj1 (uniform_fin _ _ (prim index y) L)) by lra. cbn [bind eadd]. do 2 f_equal.
    assert (PP : 0 < Rpower y index) by apply exp_pos. unfold Rdiv. rewrite ln_mult, ln_Rinv by (try apply Rinv_0_lt_compat; lra). ring.
  - intros y Hy Hr. rewrite pl_log_prob_pos by exact Hy. destruct (uniform_fin _ _ (prim index y) L) as [_ [U1 U2]].
    destruct Hr as [Hr|Hr].
    + rewrite (proj2 (U2 (or_introl (prim_mono index y minimum ltac:(lra) ltac:(lra) Hr)))). reflexivity.
    + destruct (Req_dec maximum y) as [E|N].
      * rewrite U1 by (rewrite E; reflexivity). reflexivity.
      * rewrite (proj2 (U2 (or_intror (prim_mono index maximum y ltac:(lra) ltac:(lra) ltac:(lra))))). reflexivity.
  - unfold pl_log_prob. cbn [pl_chk pl_index pl_base]. assert (E0 : ele (EF 0) (EF 0) = true) by (apply ele_fin; lra). rewrite E0, Bool.andb_false_r.
    destruct (Req_EM_T index (-1)) as [E|E].
    + rewrite elog_0. unfold uniform_log_prob. cbn [un_chk andb un_low un_high ele elt ind esub eneg eadd]. rewrite Rmult_0_l, elog_0.
      replace (prim index maximum + - prim index minimum) with (prim index maximum - prim index minimum) by ring. rewrite elog_pos by lra. reflexivity.
    + set (a := index + 1). assert (Ha : a <> 0) by (unfold a; lra). replace (1 / (1 / a)) with a by (field; exact Ha).
      unfold epow. destruct (Rlt_dec 0 0); [lra|]. destruct (Req_EM_T 0 0); [|lra]. destruct (Rlt_dec 0 a) as [P|P].
      * cbn [emul ediv]. rewrite Rmult_0_r. destruct (Req_EM_T 0 0); [|lra]. unfold sgn_inf. destruct (Rlt_dec 0 0); [lra|]. cbn [eabs elog esub eneg eadd].
        destruct (uniform_log_prob _ _) as [l|] eqn:U; [reflexivity|]. exfalso. unfold uniform_log_prob in U. cbn [un_chk andb] in U. discriminate.
      * cbn [emul ediv eabs]. rewrite Rabs_R0, elog_0. cbn [esub eneg eadd]. unfold ediv. destruct (Rlt_dec a 0); [|lra].
        unfold uniform_log_prob. cbn [un_chk andb un_low un_high ele elt ind esub eneg eadd]. rewrite Rmult_0_l, elog_0.
        replace (prim index maximum + - prim index minimum) with (prim index maximum - prim index minimum) by ring. rewrite elog_pos by lra. reflexivity.
  - intros y Hy V. unfold pl_log_prob. cbn [pl_chk]. rewrite V. assert (E0 : ele (EF 0) (EF y) = false) by (apply ele_fin_f; lra). rewrite E0. reflexivity.
Qed.

(** bounds in the wrong order (or equal) are accepted: samples then run from [minimum] down to [maximum], and log_prob is NaN everywhere *)
Theorem powerlaw_reversed_bounds_refuted minimum maximum index v :
  pl_domain index maximum -> maximum <= minimum -> index <> 0 ->
  exists s, pl_create minimum maximum index v = Ok s /\
    (forall u, 0 <= u <= 1 -> exists x, pl_sample s u = EF x /\ maximum <= x <= minimum) /\
    (forall y, 0 < y -> pl_log_prob s y = Ok EN).
Proof.
  intros DM Hle Hi. assert (M0 : 0 <= maximum) by apply DM. assert (Dm : pl_domain index minimum) by (destruct DM; split; [lra|intros; apply H0; lra]).
  assert (L : prim index maximum <= prim index minimum) by (destruct (Req_dec maximum minimum) as [->|]; [lra|left; destruct DM; apply prim_mono; lra]).
  eexists; split; [apply pl_create_ok; assumption|]. split.
  - intros u Hu. destruct (pl_sample_prim minimum maximum index u false (checked v) Dm DM Hu) as [x [-> [Dx Ex]]].
    exists x. split; [reflexivity|]. split; apply (prim_inj index); try (apply Dm || apply Dx || apply DM); try (rewrite Ex; nra).
    + intros [Z|Z]; [apply DM, Z|apply Dx, Z].
    + intros [Z|Z]; [apply Dx, Z|apply Dm, Z].
  - intros y Hy. rewrite pl_log_prob_pos by exact Hy. unfold uniform_log_prob. cbn [un_chk andb un_low un_high esub eneg eadd].
    assert (E : ind (ele (EF (prim index minimum)) (EF (prim index y))) * ind (elt (EF (prim index y)) (EF (prim index maximum))) = 0).
    { destruct (ele _ _) eqn:A; cbn [ind]; [|ring]. apply ele_fin in A. assert (B : elt (EF (prim index y)) (EF (prim index maximum)) = false) by (apply elt_fin_f; lra).
      rewrite B. cbn [ind]. ring. }
    rewrite E, elog_0. replace (prim index maximum + - prim index minimum) with (prim index maximum - prim index minimum) by ring.
    destruct (Req_dec (prim index maximum - prim index minimum) 0) as [->|]; [rewrite elog_0; reflexivity|]. rewrite elog_neg by lra. reflexivity.
Qed.

(** a lower bound of 0: an exception for indices below -1, NaN samples for index -1 *)
Theorem powerlaw_zero_minimum maximum index v : 0 < maximum ->
  (index < -1 -> pl_create 0 maximum index v = Err ZeroDivisionError) /\
  (index = -1 -> exists s, pl_create 0 maximum index v = Ok s /\ forall u, 0 <= u < 1 -> pl_sample s u = EN).
Proof.
  intros H. unfold pl_create. split; intros Hi.
  - dec. unfold pypow. dec. reflexivity.
  - subst index. dec. rewrite elog_0, elog_pos by assumption. unfold uniform_create. cbn [checked andb bind]. eexists; split; [reflexivity|].
    intros u Hu. unfold pl_sample, uniform_rsample. cbn [pl_base pl_index un_low un_high esub eneg eadd emul]. dec. unfold sgn_inf. dec; reflexivity.
Qed.

(** instances: SNRs above 8 with p ~ x^-4; a log-uniform prior *)
Example powerlaw_instance : pl_domain (-4) 8 /\ 8 < 100 /\ -4 <> 0. Proof. unfold pl_domain. repeat split; lra. Qed.
Example powerlaw_volume_instance : pl_domain 2 0 /\ 0 < 1000 /\ 2 <> 0. Proof. unfold pl_domain. repeat split; lra. Qed.
Example distributions_default : checked None = true. Proof. reflexivity. Qed.
