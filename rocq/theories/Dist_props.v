(** C24-C26 (and C62): closed-form samplers. *)
From Coquelicot Require Import Coquelicot.
From Verif Require Import Base Rutil Dist_model.
Local Open Scope R_scope.

Lemma sin_strict a b : - (PI / 2) <= a -> a < b -> b <= PI / 2 -> sin a < sin b.
Proof. intros. apply sin_increasing_1; lra. Qed.

(** ** C24 *)
(** The sampler inverts the CDF (sin t - sin low) / (sin high - sin low) on [low, high]. *)
Theorem cosine_rsample_spec low high u :
  - (PI / 2) <= low -> low < high -> high <= PI / 2 -> 0 <= u <= 1 ->
  let th := cos_rsample low high u in
  low <= th <= high /\ (sin th - sin low) / (sin high - sin low) = u.
Proof.
  intros Hl Hlh Hh Hu. cbn zeta. pose proof (sin_strict low high Hl Hlh Hh) as Hs.
  pose proof (SIN_bound low) as Bl. pose proof (SIN_bound high) as Bh.
  unfold cos_rsample. replace (u / cos_norm low high + sin low) with (sin low + u * (sin high - sin low)) by (unfold cos_norm; field; lra).
  set (v := sin low + u * (sin high - sin low)).
  assert (Hv : sin low <= v <= sin high) by (unfold v; nra).
  assert (E : sin (asin v) = v) by (apply sin_asin; lra).
  pose proof (asin_bound v) as Ba.
  split.
  - split.
    + destruct (Rle_dec low (asin v)) as [|N]; [assumption|]. exfalso.
      assert (sin (asin v) < sin low) by (apply sin_strict; lra). lra.
    + destruct (Rle_dec (asin v) high) as [|N]; [assumption|]. exfalso.
      assert (sin high < sin (asin v)) by (apply sin_strict; lra). lra.
  - rewrite E. unfold v. field. lra.
Qed.

Theorem cosine_rsample_mono low high u v :
  - (PI / 2) <= low -> low < high -> high <= PI / 2 -> 0 <= u -> u < v -> v <= 1 ->
  cos_rsample low high u < cos_rsample low high v.
Proof.
  intros Hl Hlh Hh Hu Huv Hv.
  destruct (cosine_rsample_spec low high u Hl Hlh Hh ltac:(lra)) as [Bu Eu].
  destruct (cosine_rsample_spec low high v Hl Hlh Hh ltac:(lra)) as [Bv Ev].
  cbn zeta in *. pose proof (sin_strict low high Hl Hlh Hh) as Hs.
  set (a := cos_rsample low high u) in *. set (b := cos_rsample low high v) in *.
  destruct (Rlt_dec a b) as [|N]; [assumption|]. exfalso.
  assert (sin b <= sin a).
  { destruct (Req_dec a b) as [->|]; [lra|]. apply Rlt_le, sin_strict; lra. }
  assert (Eu' : sin a - sin low = u * (sin high - sin low)) by (rewrite <- Eu; field; lra).
  assert (Ev' : sin b - sin low = v * (sin high - sin low)) by (rewrite <- Ev; field; lra).
  nra.
Qed.

Theorem sine_rsample_spec low high u :
  0 <= low -> low < high -> high <= PI -> 0 <= u <= 1 ->
  let th := sin_rsample low high u in
  low <= th <= high /\ (cos low - cos th) / (cos low - cos high) = u.
Proof.
  intros Hl Hlh Hh Hu. cbn zeta.
  destruct (cosine_rsample_spec (low - PI / 2) (high - PI / 2) u ltac:(lra) ltac:(lra) ltac:(lra) Hu) as [B E]. cbn zeta in B, E.
  unfold sin_rsample. set (c := cos_rsample (low - PI / 2) (high - PI / 2) u) in *. split; [lra|].
  assert (S : forall x, sin (x - PI / 2) = - cos x).
  { intros x. rewrite sin_minus, cos_PI2, sin_PI2. ring. }
  rewrite !S in E. rewrite <- E. replace (PI / 2 + 1 * c) with (c + PI / 2) by ring.
  replace (cos (c + PI / 2)) with (- sin c) by (rewrite cos_plus, cos_PI2, sin_PI2; ring).
  assert (cos high < cos low) by (apply cos_decreasing_1; lra). field. lra.
Qed.

(** ** C25 *)
Lemma cos_pos_in x : - (PI / 2) <= x <= PI / 2 -> 0 <= cos x.
Proof. intros. apply cos_ge_0; lra. Qed.

Lemma cos_density low high x : - (PI / 2) <= low -> high <= PI / 2 -> low <= x <= high ->
  xexp (cos_log_prob low high x) = cos x.
Proof.
  intros Hl Hh Hx. unfold cos_log_prob, inside.
  destruct (Rle_dec low x); [|lra]. destruct (Rle_dec x high); [|lra]. rewrite Rmult_1_r.
  pose proof (cos_pos_in x ltac:(lra)). unfold xlog. destruct (Rlt_dec 0 (cos x)) as [L|L].
  - cbn. apply exp_ln, L.
  - destruct (Req_EM_T (cos x) 0) as [E|E]; cbn; lra.
Qed.

(** exp(log_prob) integrates to sin high - sin low over the support (and vanishes outside it) *)
Theorem cosine_log_prob_integral low high :
  - (PI / 2) <= low -> low < high -> high <= PI / 2 ->
  is_RInt (fun x => xexp (cos_log_prob low high x)) low high (sin high - sin low) /\
  (forall x, x < low \/ high < x -> cos_log_prob low high x = MInf).
Proof.
  intros Hl Hlh Hh. split.
  - apply (is_RInt_ext cos).
    + intros x Hx. rewrite Rmin_left, Rmax_right in Hx by lra. symmetry. apply cos_density; lra.
    + apply (is_RInt_derive sin cos).
      * intros x _. auto_derive; [trivial|]. ring.
      * intros x _. apply continuity_pt_filterlim, derivable_continuous_pt, derivable_pt_cos.
  - intros x Hx. unfold cos_log_prob, inside.
    assert (E : (if Rle_dec low x then if Rle_dec x high then 1 else 0 else 0) = 0).
    { destruct (Rle_dec low x); [|reflexivity]. destruct (Rle_dec x high); [lra|reflexivity]. }
    rewrite E, Rmult_0_r. unfold xlog. destruct (Rlt_dec 0 0); [lra|]. destruct (Req_EM_T 0 0); [reflexivity|lra].
Qed.

(** so it is normalised iff sin high - sin low = 1; never for the default bounds, where the total mass is 2 *)
Theorem cosine_log_prob_normalised_iff low high :
  - (PI / 2) <= low -> low < high -> high <= PI / 2 ->
  is_RInt (fun x => xexp (cos_log_prob low high x)) low high 1 <-> sin high - sin low = 1.
Proof.
  intros Hl Hlh Hh. destruct (cosine_log_prob_integral low high Hl Hlh Hh) as [I _]. split.
  - intros J. apply (@is_RInt_unique R_CompleteNormedModule) in I. apply (@is_RInt_unique R_CompleteNormedModule) in J. congruence.
  - intros E. rewrite <- E. exact I.
Qed.
Theorem cosine_log_prob_default_refuted :
  is_RInt (fun x => xexp (cos_log_prob (- PI / 2) (PI / 2) x)) (- PI / 2) (PI / 2) 2 /\
  ~ is_RInt (fun x => xexp (cos_log_prob (- PI / 2) (PI / 2) x)) (- PI / 2) (PI / 2) 1.
Proof.
  pose proof PI_RGT_0.
  assert (E : sin (PI / 2) - sin (- PI / 2) = 2).
  { replace (- PI / 2) with (- (PI / 2)) by field. rewrite sin_neg, sin_PI2. ring. }
  destruct (cosine_log_prob_integral (- PI / 2) (PI / 2)) as [I _]; try lra. rewrite E in I. split; [exact I|].
  intros J. apply (@is_RInt_unique R_CompleteNormedModule) in I. apply (@is_RInt_unique R_CompleteNormedModule) in J. lra.
Qed.
(** the Sine distribution inherits it: density sin on [low, high] *)
Theorem sine_log_prob_integral low high :
  0 <= low -> low < high -> high <= PI ->
  is_RInt (fun x => xexp (sin_log_prob low high x)) low high (cos low - cos high).
Proof.
  intros Hl Hlh Hh. apply (is_RInt_ext sin).
  - intros x Hx. rewrite Rmin_left, Rmax_right in Hx by lra. symmetry. unfold sin_log_prob.
    rewrite Rdiv_1. rewrite cos_density by lra. rewrite cos_minus, cos_PI2, sin_PI2. match goal with |- ?a = ?b => change (@eq R a b) end. ring.
  - replace (cos low - cos high) with (minus ((fun x => - cos x) high) ((fun x => - cos x) low)) by (unfold minus, plus, opp; cbn; ring).
    apply (is_RInt_derive (fun x => - cos x) sin).
    + intros x _. auto_derive; [trivial|]. ring.
    + intros x _. apply continuity_pt_filterlim, derivable_continuous_pt, derivable_pt_sin.
Qed.

(** ** C26 *)
Theorem loguniform_rsample_spec low high u : 0 < low -> low < high -> 0 <= u <= 1 ->
  let x := logu_rsample low high u in
  low <= x <= high /\ (ln x - ln low) / (ln high - ln low) = u.
Proof.
  intros Hl Hlh Hu. cbn zeta. unfold logu_rsample, uni_rsample. assert (L : ln low < ln high) by (apply ln_increasing; lra).
  rewrite ln_exp. split; [split|].
  - rewrite <- (exp_ln low) at 1 by lra. destruct (Req_dec u 0) as [->|]; [right; f_equal; ring|]. left. apply exp_increasing. nra.
  - rewrite <- (exp_ln high) at 2 by lra. destruct (Req_dec u 1) as [->|]; [right; f_equal; ring|]. left. apply exp_increasing. nra.
  - field. lra.
Qed.

(** exp(log_prob) of LogUniform: 1 / (y log(high/low)) on the support, 0 outside, and it integrates to the sampler's
    distribution function (so to 1 over the support) *)
Theorem loguniform_density_spec low high : 0 < low -> low < high ->
  (forall y, low <= y < high -> logu_density low high y = 1 / (y * ln (high / low))) /\
  (forall y, 0 < y -> y < low \/ high <= y -> logu_density low high y = 0) /\
  (forall x, low <= x <= high -> is_RInt (logu_density low high) low x ((ln x - ln low) / (ln high - ln low))).
Proof.
  intros Hl Hlh. assert (L : ln low < ln high) by (apply ln_increasing; lra).
  assert (D : ln (high / low) = ln high - ln low) by (unfold Rdiv; rewrite ln_mult, ln_Rinv by (try apply Rinv_0_lt_compat; lra); ring).
  assert (I : forall y, low <= y < high -> logu_density low high y = 1 / (y * ln (high / low))).
  { intros y [H1 H2]. unfold logu_density, uni_density.
    assert (ln low <= ln y) by (destruct H1 as [H1| <-]; [left; apply ln_increasing; lra|lra]).
    assert (ln y < ln high) by (apply ln_increasing; lra).
    destruct (Rle_dec (ln low) (ln y)); [|lra]. destruct (Rlt_dec (ln y) (ln high)); [|lra]. rewrite D. field. lra. }
  split; [exact I|]. split.
  - intros y Hy H. unfold logu_density, uni_density. destruct H as [H|H].
    + assert (ln y < ln low) by (apply ln_increasing; lra). destruct (Rle_dec (ln low) (ln y)); [lra|]. unfold Rdiv. ring.
    + assert (ln high <= ln y) by (destruct H as [H| ->]; [left; apply ln_increasing; lra|lra]).
      destruct (Rle_dec (ln low) (ln y)); [destruct (Rlt_dec (ln y) (ln high)); [lra|]|]; unfold Rdiv; ring.
  - intros x Hx. apply (is_RInt_ext (fun y => / y / (ln high - ln low))).
    + intros y Hy. rewrite Rmin_left, Rmax_right in Hy by lra. rewrite I, D by lra. match goal with |- ?a = ?b => change (@eq R a b) end. field. lra.
    + replace ((ln x - ln low) / (ln high - ln low)) with (minus ((fun y => ln y / (ln high - ln low)) x) ((fun y => ln y / (ln high - ln low)) low)) by (unfold minus, plus, opp; cbn; field; lra).
      apply (is_RInt_derive (fun y => ln y / (ln high - ln low))).
      * intros y Hy. rewrite Rmin_left, Rmax_right in Hy by lra. auto_derive; [lra|]. field. lra.
      * intros y Hy. rewrite Rmin_left, Rmax_right in Hy by lra. apply continuity_pt_filterlim. unfold Rdiv.
        apply continuity_pt_mult; [apply continuity_pt_inv; [apply derivable_continuous_pt, derivable_pt_id|unfold id; lra]|apply continuity_pt_const; intros ? ?; reflexivity].
Qed.

Lemma tpow_pos x y : 0 < x -> tpow x y = Rpower x y /\ 0 < Rpower x y.
Proof. intros H. split; [|apply exp_pos]. unfold tpow. destruct (Req_EM_T x 0); [lra|reflexivity]. Qed.
Lemma tpow_0 y : 0 < y -> tpow 0 y = 0.
Proof. intros H. unfold tpow. destruct (Req_EM_T 0 0); [|lra]. destruct (Rlt_dec 0 y); [reflexivity|lra]. Qed.
Lemma tpow_nonneg x y : 0 <= x -> 0 < y -> 0 <= tpow x y.
Proof. intros Hx Hy. destruct (Req_dec x 0) as [->|]; [rewrite tpow_0; lra|]. destruct (tpow_pos x y); lra. Qed.
Lemma tpow_lt x x' y : 0 <= x -> x < x' -> 0 < y -> tpow x y < tpow x' y.
Proof.
  intros Hx Hxx Hy. destruct (tpow_pos x' y) as [E' P']; [lra|]. rewrite E'.
  destruct (Req_dec x 0) as [->|N]; [rewrite tpow_0; lra|]. destruct (tpow_pos x y) as [E P]; [lra|]. rewrite E.
  unfold Rpower. apply exp_increasing. apply Rmult_lt_compat_l; [lra|]. apply ln_increasing; lra.
Qed.
Lemma tpow_lt_neg x x' y : 0 < x -> x < x' -> y < 0 -> tpow x' y < tpow x y.
Proof.
  intros Hx Hxx Hy. destruct (tpow_pos x' y) as [-> P']; [lra|]. destruct (tpow_pos x y) as [-> P]; [lra|].
  unfold Rpower. apply exp_increasing. assert (ln x < ln x') by (apply ln_increasing; lra). nra.
Qed.
Lemma tpow_inv x a : 0 <= x -> a <> 0 -> (x = 0 -> 0 < a) -> tpow (tpow x a) (1 / a) = x.
Proof.
  intros Hx Ha H0. destruct (Req_dec x 0) as [->|N].
  - specialize (H0 eq_refl). rewrite (tpow_0 a H0). apply tpow_0. apply Rdiv_lt_0_compat; lra.
  - destruct (tpow_pos x a) as [-> P]; [lra|]. destruct (tpow_pos (Rpower x a) (1 / a)) as [-> _]; [exact P|].
    rewrite Rpower_mult. replace (a * (1 / a)) with 1 by (field; exact Ha). apply Rpower_1. lra.
Qed.

(** Every PowerLaw sample lies in [minimum, maximum] and its power-law CDF value is the uniform draw.
    minimum = 0 is allowed for index > -1. *)
Theorem powerlaw_rsample_spec minimum maximum index u :
  0 <= minimum -> (minimum = 0 -> -1 < index) -> minimum < maximum -> 0 <= u <= 1 -> index <> 0 ->
  exists x, pl_rsample minimum maximum index u = Ok x /\ minimum <= x <= maximum /\
    (index = -1 -> (ln x - ln minimum) / (ln maximum - ln minimum) = u) /\
    (index <> -1 -> (tpow x (index + 1) - tpow minimum (index + 1)) / (tpow maximum (index + 1) - tpow minimum (index + 1)) = u).
Proof.
  intros Hm H0 Hmm Hu Hi. unfold pl_rsample. destruct (Req_EM_T index 0); [contradiction|].
  destruct (Req_EM_T index (-1)) as [E|E].
  - assert (0 < minimum) by (destruct (Req_dec minimum 0); [specialize (H0 H); lra|lra]).
    destruct (loguniform_rsample_spec minimum maximum u H Hmm Hu) as [B D]. eexists; split; [reflexivity|]. split; [exact B|].
    split; [intros _; exact D|intros; contradiction].
  - set (a := index + 1). assert (Ha : a <> 0) by (unfold a; lra).
    set (p := tpow minimum a). set (q := tpow maximum a).
    assert (Eb : 0 + a * uni_rsample (p / a) (q / a) u = p + u * (q - p)) by (unfold uni_rsample; field; exact Ha). rewrite Eb.
    set (v := p + u * (q - p)). eexists; split; [reflexivity|].
    assert (Hq : 0 < q) by (unfold q; destruct (tpow_pos maximum a); lra).
    assert (Hmin0 : minimum = 0 -> 0 < a) by (unfold a; intros Z; specialize (H0 Z); lra).
    assert (Hp : 0 <= p /\ (a < 0 -> 0 < p)).
    { destruct (Req_dec minimum 0) as [Z|Z].
      - specialize (Hmin0 Z). unfold p. rewrite Z, tpow_0 by assumption. lra.
      - unfold p. destruct (tpow_pos minimum a); lra. }
    assert (Hpq : (0 < a /\ p < q) \/ (a < 0 /\ q < p)).
    { destruct (Rlt_dec 0 a); [left|right]; (split; [lra|]).
      - apply tpow_lt; lra.
      - apply tpow_lt_neg; [|lra|lra]. destruct (Req_dec minimum 0) as [Z|Z]; [specialize (Hmin0 Z)|]; lra. }
    assert (Hv : 0 <= v /\ (a < 0 -> 0 < v)) by (unfold v; destruct Hpq as [[? ?]|[? ?]]; split; intros; nra).
    assert (Ev : tpow (tpow v (1 / a)) a = v).
    { replace a with (1 / (1 / a)) at 2 by (field; exact Ha). apply tpow_inv.
      - apply Hv.
      - unfold Rdiv. rewrite Rmult_1_l. apply Rinv_neq_0_compat, Ha.
      - intros Z. destruct Hpq as [[? ?]|[? ?]]; [apply Rdiv_lt_0_compat; lra|]. destruct Hv as [_ Hv]. specialize (Hv H). lra. }
    assert (Hx : 0 <= tpow v (1 / a)).
    { destruct (Req_dec v 0) as [Z|Z].
      - rewrite Z. destruct Hpq as [[? ?]|[? ?]]; [|destruct Hv as [_ Hv]; specialize (Hv H); lra]. rewrite tpow_0 by (apply Rdiv_lt_0_compat; lra). lra.
      - destruct (tpow_pos v (1 / a)); lra. }
    split; [|split; [intros; contradiction|intros _; fold a; fold p q; rewrite Ev; unfold v; field; destruct Hpq as [[? ?]|[? ?]]; lra]].
    set (x := tpow v (1 / a)) in *.
    destruct Hpq as [[Hap Hlt]|[Han Hlt]].
    + split; (destruct (Rle_dec minimum x); [|exfalso; assert (tpow x a < p) by (apply tpow_lt; lra); unfold v in Ev; nra]); [lra|].
      destruct (Rle_dec x maximum); [lra|]. exfalso. assert (q < tpow x a) by (apply tpow_lt; lra). unfold v in Ev; nra.
    + assert (Hmpos : 0 < minimum) by (destruct (Req_dec minimum 0) as [Z|Z]; [specialize (Hmin0 Z)|]; lra).
      assert (Hxpos : 0 < x) by (unfold x; destruct (tpow_pos v (1 / a)); [apply Hv, Han|lra]).
      split; (destruct (Rle_dec minimum x); [|exfalso; assert (p < tpow x a) by (apply tpow_lt_neg; lra); unfold v in Ev; nra]); [lra|].
      destruct (Rle_dec x maximum); [lra|]. exfalso. assert (tpow x a < q) by (apply tpow_lt_neg; lra). unfold v in Ev; nra.
Qed.

Theorem powerlaw_index0_rejected minimum maximum u y :
  pl_rsample minimum maximum 0 u = Err ValueError /\ pl_density minimum maximum 0 y = Err ValueError.
Proof. unfold pl_rsample, pl_density. destruct (Req_EM_T 0 0); [split; reflexivity|lra]. Qed.

Lemma uni_density_in low high v : low <= v -> v < high -> uni_density low high v = 1 / (high - low).
Proof. intros. unfold uni_density. destruct (Rle_dec low v); [|lra]. destruct (Rlt_dec v high); [reflexivity|lra]. Qed.

(** exp(log_prob) is the normalised power law: (index+1) y^index / (max^(index+1) - min^(index+1)), or 1/(y log(max/min)) *)
Theorem powerlaw_density_spec minimum maximum index y :
  0 < minimum -> minimum <= y -> y < maximum -> index <> 0 ->
  exists p, pl_density minimum maximum index y = Ok p /\
    (index = -1 -> p = 1 / (y * (ln maximum - ln minimum))) /\
    (index <> -1 -> p = (index + 1) * Rpower y index / (Rpower maximum (index + 1) - Rpower minimum (index + 1))).
Proof.
  intros Hm Hy Hyx Hi. unfold pl_density. destruct (Req_EM_T index 0); [contradiction|].
  assert (Hl : ln minimum <= ln y) by (destruct (Req_dec minimum y) as [->|]; [lra|apply Rlt_le, ln_increasing; lra]).
  assert (Hl2 : ln y < ln maximum) by (apply ln_increasing; lra).
  destruct (Req_EM_T index (-1)) as [E|E].
  - eexists; split; [reflexivity|]. split; [intros _|intros; contradiction].
    rewrite uni_density_in by lra. field. lra.
  - set (a := index + 1). assert (Ha : a <> 0) by (unfold a; lra).
    replace (1 / (1 / a)) with a by (field; exact Ha).
    destruct (tpow_pos y a) as [-> Py]; [lra|]. destruct (tpow_pos minimum a) as [-> Pm]; [lra|]. destruct (tpow_pos maximum a) as [-> Px]; [lra|].
    eexists; split; [reflexivity|]. split; [intros; contradiction|intros _].
    assert (Hy0 : y <> 0) by lra.
    assert (M : (0 < a /\ Rpower minimum a <= Rpower y a < Rpower maximum a) \/ (a < 0 /\ Rpower maximum a < Rpower y a <= Rpower minimum a)).
    { assert (Mle : forall s t, s <= t -> exp s <= exp t) by (intros s t [L| ->]; [left; apply exp_increasing, L|right; reflexivity]).
      unfold Rpower. destruct (Rlt_dec 0 a); [left|right]; (split; [lra|]); split; try apply exp_increasing; try apply Mle; nra. }
    assert (D : Rpower y a = y * Rpower y index).
    { unfold a. rewrite Rpower_plus, Rpower_1 by lra. ring. }
    set (P := Rpower minimum a) in *. set (Q := Rpower maximum a) in *. set (X := Rpower y a) in *.
    rewrite Rminus_0_r.
    assert (B : P / a <= X / a < Q / a).
    { destruct M as [[A1 A2]|[A1 A2]].
      - assert (0 < / a) by (apply Rinv_0_lt_compat; lra). unfold Rdiv. nra.
      - assert (/ a < 0) by (apply Rinv_lt_0_compat; lra). unfold Rdiv. nra. }
    rewrite uni_density_in by apply B.
    assert (HX : X <> 0) by lra.
    replace (Rabs (1 / a * y / X)) with (y / (Rabs a * X)).
    2:{ unfold Rdiv. rewrite !Rabs_mult, Rabs_inv, Rabs_inv, Rabs_R1, (Rabs_pos_eq y) by lra. rewrite (Rabs_pos_eq X) by lra. field. split; [exact HX|apply Rabs_no_R0, Ha]. }
    assert (HQP : Q - P <> 0) by (destruct M as [[? ?]|[? ?]]; lra).
    assert (HA : Rabs a <> 0) by (apply Rabs_no_R0, Ha).
    replace (Rpower y index) with (X / y) by (rewrite D; field; exact Hy0).
    field. repeat split; try assumption.
Qed.

(** and it integrates to one *)
Theorem powerlaw_normalised minimum maximum index :
  0 < minimum -> minimum < maximum -> index <> 0 ->
  is_RInt (fun y => match pl_density minimum maximum index y with Ok p => p | Err _ => 0 end) minimum maximum 1.
Proof.
  intros Hm Hmm Hi.
  set (F := fun y => if Req_EM_T index (-1) then ln y / (ln maximum - ln minimum)
                     else Rpower y (index + 1) / (Rpower maximum (index + 1) - Rpower minimum (index + 1))).
  set (f := fun y => if Req_EM_T index (-1) then 1 / (y * (ln maximum - ln minimum))
                     else (index + 1) * Rpower y index / (Rpower maximum (index + 1) - Rpower minimum (index + 1))).
  assert (L : ln minimum < ln maximum) by (apply ln_increasing; lra).
  assert (Dn : index <> -1 -> Rpower maximum (index + 1) - Rpower minimum (index + 1) <> 0).
  { intros N Z. assert (E : (index + 1) * ln maximum = (index + 1) * ln minimum).
    { apply exp_inv. unfold Rpower in Z. lra. } assert (ln maximum = ln minimum) by (apply Rmult_eq_reg_l with (index + 1); lra). lra. }
  apply (is_RInt_ext f).
  - intros y Hy. rewrite Rmin_left, Rmax_right in Hy by lra.
    destruct (powerlaw_density_spec minimum maximum index y Hm ltac:(lra) ltac:(lra) Hi) as [p [-> [A B]]].
    unfold f. destruct (Req_EM_T index (-1)) as [E|E]; [rewrite A by exact E|rewrite B by exact E]; reflexivity.
  - assert (E1 : 1 = minus (F maximum) (F minimum)).
    { unfold minus, plus, opp, F; cbn. destruct (Req_EM_T index (-1)) as [E|E]; [field; lra|field; apply Dn, E]. }
    rewrite E1. apply (is_RInt_derive F f).
    + intros y Hy. rewrite Rmin_left, Rmax_right in Hy by lra. unfold F, f. destruct (Req_EM_T index (-1)) as [E|E].
      * auto_derive; [lra|]. field. lra.
      * unfold Rpower at 1. specialize (Dn E). set (K := Rpower maximum (index + 1) - Rpower minimum (index + 1)) in *.
        auto_derive; [lra|].
        replace (Rpower y index) with (Rpower y (index + 1) / y) by (rewrite Rpower_plus, Rpower_1 by lra; field; lra).
        unfold Rpower. field. split; [lra|exact Dn].
    + intros y Hy. rewrite Rmin_left, Rmax_right in Hy by lra. unfold f. destruct (Req_EM_T index (-1)) as [E|E].
      * apply (ex_derive_continuous (fun y => 1 / (y * (ln maximum - ln minimum)))). auto_derive. apply Rmult_integral_contrapositive; lra.
      * apply (ex_derive_continuous (fun y => (index + 1) * Rpower y index / (Rpower maximum (index + 1) - Rpower minimum (index + 1)))).
        unfold Rpower at 1. auto_derive. lra.
Qed.

(** DeltaFunction: every one of the n samples is the peak *)
Theorem delta_rsample_spec peak n : length (delta_rsample peak n) = n /\ forall x, In x (delta_rsample peak n) -> x = peak.
Proof.
  unfold delta_rsample. rewrite map_length, repeat_length. split; [reflexivity|]. intros x H. apply in_map_iff in H.
  destruct H as [o [E H]]. apply repeat_spec in H. subst. ring.
Qed.


Example dist_nonvacuous :
  (- (PI / 2) <= 0 /\ 0 < PI / 2 /\ PI / 2 <= PI / 2) /\ exists x, pl_rsample 0 2 2 (1 / 8) = Ok x /\ 0 <= x <= 2.
Proof.
  pose proof PI_RGT_0. split; [lra|].
  destruct (powerlaw_rsample_spec 0 2 2 (1 / 8)) as [x [E [B _]]]; try lra. eauto.
Qed.
