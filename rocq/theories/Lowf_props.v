(** C82: at low frequency IMRPhenomD and TaylorF2 give the same waveform, up to one constant phase. *)
From Coq Require Import Reals Lra Lia List.
From Coquelicot Require Import Coquelicot.
From Verif Require Import Base Conv_model Conv_props Tf2_model Tf2_props Phd_fits Phd_data Phd_model Phd_props Phd_main Relabel_props.
Local Open Scope R_scope.
(** ** chords of the unit circle *)
Lemma sin_abs_le x : Rabs (sin x) <= Rabs x.
Proof.
  assert (P : forall y, 0 <= y -> Rabs (sin y) <= y).
  { intros y Hy. destruct (Req_dec y 0) as [->|N]; [rewrite sin_0, Rabs_R0; lra|]. apply Rabs_le. split.
    - destruct (Rle_dec y 1) as [H|H]; [|pose proof (SIN_bound y); lra]. pose proof PI2_1. assert (0 <= sin y) by (apply sin_ge_0; lra). lra.
    - apply Rlt_le, sin_lt_x. lra. }
  destruct (Rle_dec 0 x) as [H|H]; [rewrite (Rabs_right x) by lra; apply P; exact H|]. rewrite (Rabs_left x) by lra. rewrite <- (Ropp_involutive x) at 1. rewrite sin_neg, Rabs_Ropp. apply P. lra.
Qed.
Definition cise (a : R) : Complex.C := (cos a, sin a).
Lemma cise_mod a : Cmod (cise a) = 1. Proof. unfold cise. rewrite <- (Rmult_1_l (cos a)), <- (Rmult_1_l (sin a)), Cmod_polar. apply Rabs_R1. Qed.
Lemma cise_plus a b : cise (a + b) = Cmult (cise a) (cise b). Proof. unfold cise, Cmult. cbn [fst snd]. rewrite cos_plus, sin_plus. f_equal; ring. Qed.
Lemma chord a b : Cmod (Cminus (cise a) (cise b)) <= Rabs (a - b).
Proof.
  replace (Cminus (cise a) (cise b)) with ((- 2 * sin ((a - b) / 2) * sin ((a + b) / 2), 2 * sin ((a - b) / 2) * cos ((a + b) / 2)) : Complex.C).
  2:{ unfold cise, Cminus, Cplus, Copp. cbn [fst snd]. remember ((a - b) / 2) as d eqn:Ed. remember ((a + b) / 2) as m eqn:Em. assert (Ea : a = m + d) by lra. assert (Eb : b = m - d) by lra.
      rewrite Ea, Eb, cos_plus, sin_plus, cos_minus, sin_minus. f_equal; ring. }
  set (s := sin ((a - b) / 2)). set (t := (a + b) / 2). assert (E : Cmod (- 2 * s * sin t, 2 * s * cos t) = Rabs (2 * s)).
  { unfold Cmod. cbn [fst snd]. replace ((- 2 * s * sin t) ^ 2 + (2 * s * cos t) ^ 2) with (Rsqr (2 * s) * (sin t * sin t + cos t * cos t)) by (unfold Rsqr; ring). pose proof (sin2_cos2 t) as Z. unfold Rsqr at 1 2 in Z. rewrite Z, Rmult_1_r. apply sqrt_Rsqr_abs. }
  rewrite E, Rabs_mult, (Rabs_right 2) by lra. pose proof (sin_abs_le ((a - b) / 2)) as L. fold s in L. unfold Rdiv in L. rewrite Rabs_mult, (Rabs_right (/ 2)) in L by lra. lra.
Qed.
(** ** the phases differ by O(f^(1/3)) *)
Lemma ins_tf2_close P : exists K, 0 < K /\ forall x t, 0 < x <= phi_join -> phi_join < rd_join P -> t = Rpower x (1 / 3) ->
  Rabs (fst (pd_phase P x) - fst (tf2_phase (tf2_coeffs (d_m1 P) (d_m2 P) (d_chi1 P) (d_chi2 P)) x)) <= K * t.
Proof.
  set (ss := pn_ss3 (d_eta P) (d_m1 P / (d_m1 P + d_m2 P)) (d_m2 P / (d_m1 P + d_m2 P)) (d_chi1 P) (d_chi2 P)). set (N := 3 / (128 * d_eta P)).
  set (s1 := sigma1Fit (d_eta P) (d_eta P * d_eta P) (d_xi P) / d_eta P). set (s2 := sigma2Fit (d_eta P) (d_eta P * d_eta P) (d_xi P) / d_eta P). set (s3 := sigma3Fit (d_eta P) (d_eta P * d_eta P) (d_xi P) / d_eta P). set (s4 := sigma4Fit (d_eta P) (d_eta P * d_eta P) (d_xi P) / d_eta P).
  set (K := Rpower PI (1 / 3) * Rabs (ss * N) + Rabs s1 + Rabs s2 + Rabs s3 + Rabs s4). assert (PP : 0 < Rpower PI (1 / 3)) by apply Rpower_pos.
  assert (NN : forall x, 0 <= Rabs x) by apply Rabs_pos. exists (K + 1). split. { unfold K. pose proof (NN s1). pose proof (NN s2). pose proof (NN s3). pose proof (NN s4). pose proof (Rmult_le_pos _ _ (Rlt_le _ _ PP) (NN (ss * N))). lra. }
  intros x t Hx HJ Et. assert (T0 : 0 < t) by (rewrite Et; apply Rpower_pos). assert (T3 : t * t * t = x) by (rewrite Et, <- !Rpower_plus; replace (1 / 3 + 1 / 3 + 1 / 3) with 1 by field; apply Rpower_1; lra).
  assert (T1 : t <= 1). { unfold phi_join in Hx. destruct (Rle_dec t 1); [assumption|]. exfalso. assert (1 < t) by lra. assert (1 < t * t) by nra. nra. }
  assert (EP : fst (pd_phase P x) = fst (ins_phase P x)).
  { unfold pd_phase. cbn [fst]. assert (L : le_ x phi_join = true) by (unfold le_; destruct (Rle_dec x phi_join); [reflexivity|lra]). assert (G : gt_ x phi_join = false) by (unfold gt_; destruct (Rlt_dec phi_join x); [lra|reflexivity]).
    assert (G2 : gt_ x (rd_join P) = false) by (unfold gt_; destruct (Rlt_dec (rd_join P) x); [lra|reflexivity]). rewrite L, G, G2. unfold theta. ring. }
  rewrite EP. unfold ins_phase, sub3PNSS. cbv zeta. cbn [fst snd]. fold ss N. set (tf := fst (tf2_phase _ x)). clearbody tf.
  assert (EV : Rpower (PI * x) (1 / 3) = Rpower PI (1 / 3) * t) by (rewrite Et; symmetry; apply Rpower_mult_distr; [apply PI_RGT_0|lra]). rewrite EV. set (u := Rpower PI (1 / 3)) in *.
  assert (E43 : Rpower x (4 / 3) = t ^ 4). { rewrite Et. rewrite <- Rpower_pow by (apply Rpower_pos). rewrite Rpower_mult. f_equal. cbn. field. }
  assert (E53 : Rpower x (5 / 3) = t ^ 5). { rewrite Et. rewrite <- Rpower_pow by (apply Rpower_pos). rewrite Rpower_mult. f_equal. cbn. field. }
  rewrite E43, E53, <- T3.
  match goal with |- Rabs ?e <= _ => replace e with (t * (- (u * (ss * N)) + t ^ 2 * s1 + t ^ 3 * (75 / 100 * s2) + t ^ 4 * (6 / 10 * s3) + t ^ 5 * (5 / 10 * s4))) end.
  2:{ unfold s1, s2, s3, s4. assert (UT : (u * t) ^ 5 <> 0) by (apply pow_nonzero; nra). replace ((u * t) ^ 6 * ss / (u * t) ^ 5 * N) with (u * t * (ss * N)) by (clearbody N; field; split; lra). unfold Rdiv. ring. }
  rewrite Rabs_mult, (Rabs_right t), (Rmult_comm (K + 1)) by lra. apply Rmult_le_compat_l; [lra|].
  assert (TP : forall n c k, 0 <= k <= 1 -> Rabs (t ^ n * (k * c)) <= Rabs c).
  { intros n c k Hk. rewrite !Rabs_mult. assert (0 <= t ^ n <= 1). { split; [apply pow_le; lra|]. rewrite <- (pow1 n). apply pow_incr. lra. } rewrite (Rabs_right (t ^ n)), (Rabs_right k) by lra. pose proof (Rabs_pos c). set (w := Rabs c) in *. set (tn := t ^ n) in *. clearbody w tn. assert (k * w <= w) by nra. assert (0 <= k * w) by nra. nra. }
  assert (Q1 : Rabs (t ^ 2 * s1) <= Rabs s1) by (rewrite <- (Rmult_1_l s1) at 1; apply TP; lra). pose proof (TP 3%nat s2 (75 / 100) ltac:(lra)) as Q2. pose proof (TP 4%nat s3 (6 / 10) ltac:(lra)) as Q3. pose proof (TP 5%nat s4 (5 / 10) ltac:(lra)) as Q4.
  assert (Q0 : Rabs (- (u * (ss * N))) <= u * Rabs (ss * N)) by (rewrite Rabs_Ropp, Rabs_mult, (Rabs_right u) by lra; lra).
  assert (TRI : forall a b U W, Rabs a <= U -> Rabs b <= W -> Rabs (a + b) <= U + W) by (intros a b U W A B; eapply Rle_trans; [apply Rabs_triang|lra]).
  apply Rle_trans with K; [|lra]. unfold K. exact (TRI _ _ _ _ (TRI _ _ _ _ (TRI _ _ _ _ (TRI _ _ _ _ Q0 Q1) Q2) Q3) Q4).
Qed.
Lemma amp_close P : amp_join < pd_peak P -> exists K, 0 < K /\ forall y t, 0 < y <= amp_join -> t = Rpower y (1 / 3) -> Rabs (fst (pd_amp P y) - 1) <= K * t.
Proof.
  intros HK. destruct (amp_small2 P HK) as (K & PK & H). set (a := ((- 969) + 1804 * d_eta P) * (Rpower PI (2 / 3)) / 672) in *. set (b := (d_chi1 P * _ + _) * PI / 48) in *. clearbody a b.
  exists (K + Rabs a + Rabs b). pose proof (Rabs_pos a). pose proof (Rabs_pos b). split; [lra|]. intros y t Hy Et. specialize (H y t Hy Et).
  assert (T0 : 0 < t) by (rewrite Et; apply Rpower_pos). assert (T3 : t * t * t = y) by (rewrite Et, <- !Rpower_plus; replace (1 / 3 + 1 / 3 + 1 / 3) with 1 by field; apply Rpower_1; lra).
  assert (T1 : t <= 1). { unfold amp_join in Hy. destruct (Rle_dec t 1); [assumption|]. exfalso. assert (1 < t) by lra. assert (1 < t * t) by nra. nra. }
  replace (fst (pd_amp P y) - 1) with ((fst (pd_amp P y) - (1 + t ^ 2 * a + t ^ 3 * b)) + t * (t * a) + t * (t ^ 2 * b)) by ring.
  assert (TP : forall n c, Rabs (t * (t ^ n * c)) <= t * Rabs c).
  { intros n c. rewrite !Rabs_mult. assert (0 <= t ^ n <= 1). { split; [apply pow_le; lra|]. rewrite <- (pow1 n). apply pow_incr. lra. } rewrite (Rabs_right (t ^ n)), (Rabs_right t) by lra. apply Rmult_le_compat_l; [lra|]. pose proof (Rabs_pos c). nra. }
  pose proof (TP 1%nat a) as Q1. rewrite pow_1 in Q1. pose proof (TP 2%nat b) as Q2. assert (t ^ 4 <= t). { replace (t ^ 4) with (t * (t * t * t)) by ring. nra. }
  eapply Rle_trans; [eapply Rle_trans; [apply Rabs_triang|apply Rplus_le_compat; [apply Rabs_triang|apply Rle_refl]]|]. assert (K * t ^ 4 <= K * t) by (apply Rmult_le_compat_l; lra). lra.
Qed.
(** ** the waveforms *)
Section Low.
Variables mc q chi1 chi2 : R.
Hypothesis Hm : 0 < mc.
Hypothesis Hq : 0 < q.
Hypothesis H1 : - 1 <= chi1 <= 1.
Hypothesis H2 : - 1 <= chi2 <= 1.
(** every relative accuracy [eps] is reached below some frequency, with one phase [th] that does not depend on the frequency, the distance, the coalescence phase or the inclination *)
Lemma htilde_lowf f_ref : exists th, forall eps, 0 < eps -> exists f0, 0 < f0 /\ forall f dist phic, 0 < f < f0 -> 0 < dist ->
  let hT := tf2_htilde f (fst (components mc q)) (snd (components mc q)) chi1 chi2 dist phic f_ref in
  Cmod (Cminus (pd_htilde f mc q chi1 chi2 dist phic f_ref) (Cmult (cise th) hT)) <= eps * Cmod hT.
Proof.
  set (p := pd_params mc q chi1 chi2). set (Ms := pd_total mc q * MTSUN_SI). assert (PM : 0 < Ms) by (apply Ms_pos; assumption).
  destruct (pd_joins mc q chi1 chi2 Hm Hq H1 H2) as (J1 & J2 & J3 & J4). fold p in J1, J2, J3, J4.
  destruct (ins_tf2_close p) as (K1 & PK1 & C1). destruct (amp_close p J3) as (K2 & PK2 & C2).
  destruct (pd_masses mc q chi1 chi2 Hm Hq) as (EC & EE & ET). fold p in EC, EE, ET. pose proof (components_spec mc q Hm Hq) as KS. rewrite <- EC in KS. destruct KS as (P1 & P2 & KS1 & CM & KS2). rewrite <- EC. cbn [fst snd].
  set (psi := fun f => tf2_psi f (d_m1 p) (d_m2 p) chi1 chi2). set (Phi := pd_phase_of mc q chi1 chi2). set (t0 := snd (mrd_phase p (pd_peak p))).
  exists (- (PI / 4) - PI + (Phi f_ref - psi f_ref)). intros eps He.
  set (L := K1 + K2 + Rabs t0 + 1). assert (PL : 0 < L) by (unfold L; pose proof (Rabs_pos t0); lra).
  set (tau := Rmin (eps / L) (24 / 100)). assert (PT : 0 < tau) by (apply Rmin_glb_lt; [apply Rdiv_lt_0_compat; assumption|lra]).
  exists (tau ^ 3 / Ms). split; [apply Rdiv_lt_0_compat; [apply pow_lt; exact PT|exact PM]|]. intros f dist phic [Hf0 Hf] Hd. set (hT := tf2_htilde f (d_m1 p) (d_m2 p) chi1 chi2 dist phic f_ref).
  set (x := Ms * f). set (t := Rpower x (1 / 3)). assert (X0 : 0 < x) by (apply Rmult_lt_0_compat; assumption). assert (T0 : 0 < t) by apply Rpower_pos.
  assert (T3 : t * t * t = x) by (unfold t; rewrite <- !Rpower_plus; replace (1 / 3 + 1 / 3 + 1 / 3) with 1 by field; apply Rpower_1; lra).
  assert (XT : x < tau ^ 3). { apply (Rmult_lt_compat_l Ms) in Hf; [|exact PM]. fold x in Hf. replace (Ms * (tau ^ 3 / Ms)) with (tau ^ 3) in Hf by (field; lra). exact Hf. }
  assert (TT : t < tau). { destruct (Rlt_dec t tau); [assumption|]. exfalso. assert (tau <= t) by lra. assert (tau ^ 3 <= t ^ 3) by (apply pow_incr; lra). replace (t ^ 3) with x in * by (rewrite <- T3; ring). lra. }
  assert (T24 : t < 24 / 100) by (eapply Rlt_le_trans; [exact TT|apply Rmin_r]). assert (TE : t < eps / L) by (eapply Rlt_le_trans; [exact TT|apply Rmin_l]).
  assert (X1 : x <= amp_join). { unfold amp_join. rewrite <- T3. assert (t * t <= 24 / 100 * (24 / 100)) by nra. assert (t * t * t <= 24 / 100 * (24 / 100) * (24 / 100)) by nra. lra. }
  assert (X2 : x <= phi_join) by (unfold phi_join, amp_join in *; lra). assert (XX : x <= t). { rewrite <- T3. assert (t * t <= 1) by nra. nra. }
  assert (B1 : Rabs (Phi f - psi f) <= (K1 + Rabs t0) * t).
  { unfold Phi, pd_phase_of, psi, tf2_psi. fold p. fold Ms. fold t0. replace ((d_m1 p + d_m2 p) * MTSUN_SI * f) with x by (unfold x, Ms; rewrite <- ET; ring). fold x.
    assert (EX : d_chi1 p = chi1 /\ d_chi2 p = chi2) by (unfold p, pd_params; destruct (fring_fdamp _ _ _); split; reflexivity). destruct EX as [EX1 EX2].
    pose proof (C1 x t (conj X0 X2) J1 eq_refl) as B. rewrite EX1, EX2 in B.
    set (u := fst (pd_phase p x)) in *. set (v := fst (tf2_phase _ x)) in *. replace (u - x * t0 - v) with ((u - v) + - (x * t0)) by ring. eapply Rle_trans; [apply Rabs_triang|]. rewrite Rabs_Ropp, Rabs_mult, (Rabs_right x) by lra.
    assert (x * Rabs t0 <= t * Rabs t0) by (apply Rmult_le_compat_r; [apply Rabs_pos|exact XX]). lra. }
  pose proof (C2 x t (conj X0 X1) eq_refl) as B2.
  assert (HT : hT = Cmult (RtoC (- spa_amplitude f mc dist)) (cise (PI / 4 + 2 * phic - (psi f - psi f_ref)))).
  { unfold hT. rewrite tf2_htilde_spec by assumption. cbv zeta. rewrite CM. unfold cise, Cmult, RtoC. cbn [fst snd]. fold (psi f) (psi f_ref). f_equal; ring. }
  assert (HD : pd_htilde f mc q chi1 chi2 dist phic f_ref = Cmult (RtoC (spa_amplitude f mc dist)) (Cmult (RtoC (fst (pd_amp p x))) (cise (2 * phic - (Phi f - Phi f_ref))))).
  { rewrite (pd_htilde_spec mc q chi1 chi2 Hm Hq H1 H2 f dist phic f_ref Hf0 Hd). cbv zeta. fold p. fold Ms. fold x. fold (Phi f) (Phi f_ref). unfold cise, Cmult, RtoC. cbn [fst snd]. f_equal; ring. }
  assert (SP : 0 < spa_amplitude f mc dist) by (apply spa_pos; exact Hd). set (A := spa_amplitude f mc dist) in *.
  assert (MT : Cmod hT = A) by (rewrite HT, Cmod_mult, cise_mod, Cmod_R, Rabs_Ropp, Rabs_right by lra; ring). rewrite MT, HD, HT.
  set (a := fst (pd_amp p x)) in *. set (al := 2 * phic - (Phi f - Phi f_ref)). set (th := - (PI / 4) - PI + (Phi f_ref - psi f_ref)). set (be := PI / 4 + 2 * phic - (psi f - psi f_ref)).
  assert (EB : Cmult (cise th) (Cmult (RtoC (- A)) (cise be)) = Cmult (RtoC A) (cise (th + PI + be))).
  { rewrite !cise_plus. assert (E : cise PI = RtoC (- 1)) by (unfold cise; rewrite cos_PI, sin_PI; reflexivity). rewrite E, RtoC_opp. change (RtoC (-1)) with (RtoC (Ropp 1)). rewrite RtoC_opp. ring. }
  rewrite EB. replace (Cminus (Cmult (RtoC A) (Cmult (RtoC a) (cise al))) (Cmult (RtoC A) (cise (th + PI + be)))) with (Cmult (RtoC A) (Cplus (Cmult (RtoC (a - 1)) (cise al)) (Cminus (cise al) (cise (th + PI + be))))) by (rewrite RtoC_minus; ring).
  rewrite Cmod_mult, Cmod_R, (Rabs_right A), (Rmult_comm eps) by lra. apply Rmult_le_compat_l; [lra|].
  eapply Rle_trans; [apply Cmod_triangle|]. rewrite Cmod_mult, Cmod_R, cise_mod, Rmult_1_r. pose proof (chord al (th + PI + be)) as CH.
  replace (al - (th + PI + be)) with (- (Phi f - psi f)) in CH by (unfold al, th, be; ring). rewrite Rabs_Ropp in CH.
  apply Rle_trans with (L * t). { unfold L. lra. } apply (Rmult_lt_compat_l L) in TE; [|exact PL]. replace (L * (eps / L)) with eps in TE by (field; lra). lra.
Qed.
(** both polarisations of the two approximants *)
Theorem pd_tf2_low_frequency f_ref : exists u, Cmod u = 1 /\ forall eps, 0 < eps -> exists f0, 0 < f0 /\ forall f dist phic incl, 0 < f < f0 -> 0 < dist ->
  let hT := tf2_one f mc q chi1 chi2 dist phic incl f_ref in let hD := pd_one f mc q chi1 chi2 dist phic incl f_ref in
  Cmod (Cminus (fst hD) (Cmult u (fst hT))) <= eps * Cmod (fst hT) /\ Cmod (Cminus (snd hD) (Cmult u (snd hT))) <= eps * Cmod (snd hT).
Proof.
  destruct (htilde_lowf f_ref) as (th & H). exists (cise th). split; [apply cise_mod|]. intros eps He. destruct (H eps He) as (f0 & P0 & K). exists f0. split; [exact P0|]. intros f dist phic incl Hf Hd hT hD.
  specialize (K f dist phic Hf Hd). cbv zeta in K. unfold hT, hD, tf2_one, pd_one. destruct (components mc q) as [m1 m2]. cbn [fst snd] in *.
  set (T := tf2_htilde _ _ _ _ _ _ _ _) in *. set (D := pd_htilde _ _ _ _ _ _ _ _) in *. assert (CI : Cmod Ci = 1) by (unfold Cmod, Ci; cbn [fst snd]; replace (0 ^ 2 + 1 ^ 2) with 1 by ring; apply sqrt_1). clearbody T D. split.
  - replace (Cminus (Copp (Cmult Ci (Cmult D (RtoC (cos incl))))) (Cmult (cise th) (Cmult (Copp (Cmult Ci T)) (RtoC (cos incl))))) with (Cmult (Copp (Cmult Ci (RtoC (cos incl)))) (Cminus D (Cmult (cise th) T))) by ring.
    rewrite !Cmod_mult, !Cmod_opp, !Cmod_mult, CI. pose proof (Cmod_ge_0 (RtoC (cos incl))). set (c := Cmod (RtoC (cos incl))) in *. clearbody c. nra.
  - set (w := RtoC (5 / 10 * (1 + cos incl * cos incl))). replace (Cminus (Cmult D w) (Cmult (cise th) (Cmult T w))) with (Cmult w (Cminus D (Cmult (cise th) T))) by ring.
    rewrite !Cmod_mult. pose proof (Cmod_ge_0 w). set (c := Cmod w) in *. clearbody c. nra.
Qed.
(** at the reference frequency: the same coalescence phase gives strains whose phases differ by 3 pi / 4 *)
Theorem pd_tf2_reference f_ref dist phic : 0 < f_ref -> 0 < dist ->
  exists a, pd_htilde f_ref mc q chi1 chi2 dist phic f_ref = Cmult (RtoC a) (Cmult (cise (3 * (PI / 4))) (tf2_htilde f_ref (fst (components mc q)) (snd (components mc q)) chi1 chi2 dist phic f_ref)) /\
    a = fst (pd_amp (pd_params mc q chi1 chi2) (pd_total mc q * MTSUN_SI * f_ref)).
Proof.
  intros Hf Hd. eexists. split; [|reflexivity]. pose proof (components_spec mc q Hm Hq) as KS. destruct (components mc q) as [m1 m2]. destruct KS as (P1 & P2 & KS1 & CM & KS2). cbn [fst snd].
  rewrite tf2_htilde_spec by assumption. rewrite (pd_htilde_spec mc q chi1 chi2 Hm Hq H1 H2 f_ref dist phic f_ref Hf Hd). cbv zeta. rewrite CM. set (A := spa_amplitude f_ref mc dist). set (a := fst (pd_amp _ _)).
  replace (2 * phic - (_ - _)) with (2 * phic) by ring. replace (PI / 4 + 2 * phic - (_ - _)) with (PI / 4 + 2 * phic) by ring. clearbody A a.
  replace ((- A * cos (PI / 4 + 2 * phic), - A * sin (PI / 4 + 2 * phic)) : Complex.C) with (Cmult (RtoC (- A)) (cise (PI / 4 + 2 * phic))) by (unfold cise, Cmult, RtoC; cbn [fst snd]; f_equal; ring).
  replace (Cmult (RtoC a) (Cmult (cise (3 * (PI / 4))) (Cmult (RtoC (- A)) (cise (PI / 4 + 2 * phic))))) with (Cmult (RtoC (a * - A)) (cise (3 * (PI / 4) + (PI / 4 + 2 * phic)))) by (rewrite (cise_plus (3 * (PI / 4))), RtoC_mult; ring).
  replace (3 * (PI / 4) + (PI / 4 + 2 * phic)) with (2 * phic + PI) by field. unfold cise, Cmult, RtoC. cbn [fst snd]. rewrite neg_cos, neg_sin. f_equal; ring.
Qed.
End Low.
(** two black holes of chirp mass 30, mass ratio 4/5 and spins 0.3, -0.2 *)
Example low_frequency_ex : exists u, Cmod u = 1 /\ exists f0, 0 < f0 /\ forall f, 0 < f < f0 ->
  Cmod (Cminus (snd (pd_one f 30 (4 / 5) (3 / 10) (- (2 / 10)) 100 0 0 20)) (Cmult u (snd (tf2_one f 30 (4 / 5) (3 / 10) (- (2 / 10)) 100 0 0 20)))) <= / 1000 * Cmod (snd (tf2_one f 30 (4 / 5) (3 / 10) (- (2 / 10)) 100 0 0 20)).
Proof.
  destruct (pd_tf2_low_frequency 30 (4 / 5) (3 / 10) (- (2 / 10)) ltac:(lra) ltac:(lra) ltac:(lra) ltac:(lra) 20) as (u & M & H). exists u. split; [exact M|]. destruct (H (/ 1000) ltac:(lra)) as (f0 & P & K). exists f0. split; [exact P|].
  intros f Hf. apply (K f 100 0 0 Hf). lra.
Qed.
