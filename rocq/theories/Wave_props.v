(** Properties C54 (sine-Gaussian), C55 (ringdown) and C68 (conditioning bounds). *)
From Coq Require Import Reals Lra.
From Verif Require Import Base Tensor Gw_model WhitenMod_props Conv_model Conv_props Wave_model.
Local Open Scope R_scope.

(** ** broadcasting *)
Lemma broadcast_same l n : (forall m, In m l -> m = n \/ m = 1%nat) -> In n l \/ n = 1%nat -> broadcast l = Ok n.
Proof.
  assert (G : forall l, (forall m, In m l -> m = n \/ m = 1%nat) -> exists r, broadcast l = Ok r /\ (r = n \/ r = 1%nat) /\ (In n l -> r = n)).
  { clear l. induction l as [|a l IH]; intros H; cbn [broadcast]; [exists 1%nat; split; [reflexivity|split; [tauto|intros []]]|].
    destruct IH as [r [E [D I]]]; [intros m Hm; apply H; right; exact Hm|]. rewrite E. cbn [bind].
    destruct (H a (or_introl eq_refl)) as [-> | ->].
    - exists n. split; [|tauto]. destruct D as [-> | ->]; [apply bdim_refl|apply bdim_1_r].
    - rewrite bdim_1_l. exists r. split; [reflexivity|]. split; [exact D|]. intros [<- | K]; [|apply I; exact K]. destruct D; congruence. }
  intros H Hn. destruct (G l H) as [r [E [D I]]]. rewrite E. f_equal. destruct Hn as [Hn | ->]; [apply I; exact Hn|]. destruct D; congruence.
Qed.

(** ** C54 *)
(** relative weights of the polarisations *)
Theorem sg_weights e : 0 <= e <= 1 -> let (a, b) := semi_major_minor e in a ^ 2 + b ^ 2 = 1 /\ 0 <= b <= a.
Proof.
  intros He. unfold semi_major_minor. cbv zeta. set (s := sqrt (2 - e * e)). set (u := sqrt (1 - e * e)).
  assert (Ps : 0 < s) by (apply sqrt_lt_R0; nra). assert (S2 : s * s = 2 - e * e) by (apply sqrt_sqrt; nra). assert (U2 : u * u = 1 - e * e) by (apply sqrt_sqrt; nra). assert (Pu : 0 <= u) by apply sqrt_pos.
  split.
  - replace ((1 / s) ^ 2 + (1 / s * u) ^ 2) with ((1 + u * u) / (s * s)) by (field; lra). rewrite U2, S2. field. nra.
  - assert (P1 : 0 < 1 / s) by (apply Rdiv_lt_0_compat; lra). split; [apply Rmult_le_pos; lra|]. rewrite <- (Rmult_1_r (1 / s)) at 2. apply Rmult_le_compat_l; [lra|nra].
Qed.
Lemma exp_neg_sq q : q <> 0 -> 0 < exp (- q * q) < 1.
Proof. intros H. split; [apply exp_pos|]. rewrite <- exp_0. apply exp_increasing. nra. Qed.
(** the squared normalisation of the two quadratures: half of the envelope's energy, plus or minus the interference term *)
Definition quadrature (q f c : R) : R := q / (4 * f * sqrt PI) * (1 + exp (- q ^ 2) * c).
Lemma quadrature_pos q f c : 0 < q -> 0 < f -> -1 <= c <= 1 -> 0 < quadrature q f c.
Proof.
  intros Hq Hf Hc. unfold quadrature. assert (0 < sqrt PI) by (apply sqrt_lt_R0, PI_RGT_0). apply Rmult_lt_0_compat; [apply Rdiv_lt_0_compat; [assumption|nra]|].
  assert (exp (- q ^ 2) < 1) by (rewrite <- exp_0; apply exp_increasing; nra). pose proof (exp_pos (- q ^ 2)). nra.
Qed.
(** closed form of every sample *)
Theorem sg_sample_spec q f hrss ph e t : 0 < q -> 0 < f -> 0 <= e <= 1 ->
  let w := 2 * PI * f * t in
  sg_sample q f hrss ph e t =
   (hrss * (sqrt (1 - e ^ 2) / sqrt (2 - e ^ 2)) / sqrt (quadrature q f (- cos (2 * ph))) * exp (- (w ^ 2) / (2 * q ^ 2)) * sin (w - ph),
    hrss * (1 / sqrt (2 - e ^ 2)) / sqrt (quadrature q f (cos (2 * ph))) * exp (- (w ^ 2) / (2 * q ^ 2)) * cos (w - ph)).
Proof.
  intros Hq Hf He w. unfold sg_sample, semi_major_minor. cbv zeta.
  replace (e * e) with (e ^ 2) by ring. replace (- q * q) with (- q ^ 2) by ring. set (n := q / (4 * f * sqrt PI)). set (E := exp (- q ^ 2)).
  assert (C2 : cos (2 * ph) = cos ph ^ 2 - sin ph ^ 2) by (rewrite cos_2a; ring). pose proof (sc ph) as S.
  replace (n * (1 + E) * cos ph ^ 2 + n * (1 - E) * sin ph ^ 2) with (quadrature q f (cos (2 * ph))).
  2:{ unfold quadrature. fold n E. rewrite C2. replace (n * (1 + E) * cos ph ^ 2 + n * (1 - E) * sin ph ^ 2) with (n * ((sin ph * sin ph + cos ph * cos ph) + E * (cos ph ^ 2 - sin ph ^ 2))) by ring. rewrite S. ring. }
  replace (n * (1 + E) * sin ph ^ 2 + n * (1 - E) * cos ph ^ 2) with (quadrature q f (- cos (2 * ph))).
  2:{ unfold quadrature. fold n E. rewrite C2. replace (n * (1 + E) * sin ph ^ 2 + n * (1 - E) * cos ph ^ 2) with (n * ((sin ph * sin ph + cos ph * cos ph) - E * (cos ph ^ 2 - sin ph ^ 2))) by ring. rewrite S. ring. }
  replace ((2 * PI * f * t) ^ 2 / (-2 * q ^ 2)) with (- (w ^ 2) / (2 * q ^ 2)) by (unfold w; field; lra). fold w.
  f_equal; unfold Rdiv; ring.
Qed.
Lemma e2_1 : 1 - 1 ^ 2 = 0. Proof. ring. Qed.
(** eccentricity 1 is linear polarisation: no cross *)
Theorem sg_linear q f hrss ph t : 0 < q -> 0 < f -> fst (sg_sample q f hrss ph 1 t) = 0.
Proof. intros Hq Hf. rewrite sg_sample_spec by (try assumption; lra). cbn [fst]. rewrite e2_1, sqrt_0. unfold Rdiv. ring. Qed.
(** eccentricity 0 gives both polarisations equal energy weight *)
Theorem sg_circular : semi_major_minor 0 = (1 / sqrt 2, 1 / sqrt 2).
Proof. unfold semi_major_minor. cbv zeta. replace (2 - 0 * 0) with 2 by ring. replace (1 - 0 * 0) with 1 by ring. rewrite sqrt_1, Rmult_1_r. reflexivity. Qed.
(** linearity in hrss, sign flip under a half-turn of phase, time symmetry at zero phase *)
Theorem sg_symmetries q f hrss ph e t : 0 < q -> 0 < f -> 0 <= e <= 1 ->
  (forall k, sg_sample q f (k * hrss) ph e t = (k * fst (sg_sample q f hrss ph e t), k * snd (sg_sample q f hrss ph e t))) /\
  sg_sample q f hrss (ph + PI) e t = (- fst (sg_sample q f hrss ph e t), - snd (sg_sample q f hrss ph e t)) /\
  sg_sample q f hrss 0 e (- t) = (- fst (sg_sample q f hrss 0 e t), snd (sg_sample q f hrss 0 e t)).
Proof.
  intros Hq Hf He. split; [|split].
  - intros k. rewrite !sg_sample_spec by assumption. cbn [fst snd]. f_equal; unfold Rdiv; ring.
  - rewrite !sg_sample_spec by assumption. cbn [fst snd]. replace (2 * (ph + PI)) with (2 * ph + 2 * PI) by ring. rewrite cos_plus, cos_2PI, sin_2PI.
    replace (cos (2 * ph) * 1 - sin (2 * ph) * 0) with (cos (2 * ph)) by ring.
    replace (2 * PI * f * t - (ph + PI)) with (2 * PI * f * t - ph - PI) by ring. rewrite (cos_minus _ PI), (sin_minus _ PI), cos_PI, sin_PI. f_equal; ring.
  - rewrite !sg_sample_spec by assumption. cbn [fst snd]. replace (2 * PI * f * - t) with (- (2 * PI * f * t)) by ring. rewrite !Rminus_0_r, cos_neg, sin_neg.
    replace ((- (2 * PI * f * t)) ^ 2) with ((2 * PI * f * t) ^ 2) by ring. f_equal; ring.
Qed.
(** the module: shape, sampling times, order (cross, plus) and broadcasting *)
Theorem sg_forward_spec sr dur q f hrss ph e n b : 0 < sr -> INR n <= dur * sr < INR n + 1 ->
  broadcast [numel q; numel f; numel hrss; numel ph; numel e] = Ok b ->
  exists C P, sg_forward sr dur q f hrss ph e = Ok (C, P) /\ shape C = [b; n] /\ shape P = [b; n] /\
    forall p j, (p < b)%nat -> (j < n)%nat ->
      let v := sg_sample (pel q p) (pel f p) (pel hrss p) (pel ph p) (pel e p) (INR j / sr - dur / 2) in
      get C [p; j] = Some (fst v) /\ get P [p; j] = Some (snd v).
Proof.
  intros Hs Hn Hb. unfold sg_forward. rewrite Hb. cbn [bind]. eexists. eexists. split; [reflexivity|].
  assert (En : sg_num sr dur = n). { unfold sg_num. rewrite (Whiten_props.rtrunc_nonneg _ n Hn). apply Nat2Z.id. }
  cbn [shape]. rewrite En. split; [reflexivity|]. split; [reflexivity|]. intros p j Hp Hj. cbv zeta. rewrite !get_inb by (cbn; auto). cbn [elt]. unfold sg_time. auto.
Qed.
Theorem sg_forward_error sr dur q f hrss ph e : broadcast [numel q; numel f; numel hrss; numel ph; numel e] = Err RuntimeError -> sg_forward sr dur q f hrss ph e = Err RuntimeError.
Proof. intros H. unfold sg_forward. rewrite H. reflexivity. Qed.
(** equal batches, or a single value shared by the batch, are accepted *)
Theorem batch_sizes l n : (forall m, In m l -> m = n \/ m = 1%nat) -> In n l -> broadcast l = Ok n.
Proof. intros. apply broadcast_same; auto. Qed.

(** ** C55 *)
(** the remnant's dimensionless factor 1 - 0.63 (2/Q)^(2/3), positive for Q > 2 * 0.63^(3/2) ~ 1.0001 *)
Definition remnant (q : R) : R := 1 - 63 / 100 * Rpower (2 / q) (2 / 3).
Lemma remnant_pos q : 2 <= q -> 0 < remnant q.
Proof.
  intros H. unfold remnant. assert (Rpower (2 / q) (2 / 3) <= 1); [|lra].
  unfold Rpower. rewrite <- exp_0. destruct (Req_dec (2 / 3 * ln (2 / q)) 0) as [->|N]; [lra|]. left. apply exp_increasing.
  assert (P : 0 < 2 / q) by (apply Rdiv_lt_0_compat; lra). assert (ln (2 / q) <= ln 1). { destruct (Req_dec (2 / q) 1) as [->|]; [lra|]. left. apply ln_increasing; [assumption|].
    apply (Rmult_lt_reg_r q); [lra|]. assert (2 / q * q = 2) by (field; lra). assert (2 / q <> 1) by assumption. assert (q <> 2) by (intros ->; apply H0; field). lra. }
  rewrite ln_1 in H0. lra.
Qed.
Definition rd_amplitude (f q eps dist : R) : R :=
  sqrt (5 / 2) * eps * (Cl / (2 * PI * f)) * sqrt (remnant q) / (sqrt q * sqrt (1 + 7 / (24 * q ^ 2))) / (dist * m_per_Mpc).
Lemma Cl_pos : 0 < Cl. Proof. unfold Cl. lra. Qed.
Lemma Gn_pos : 0 < Gn. Proof. unfold Gn. lra. Qed.
Lemma m_per_Mpc_pos : 0 < m_per_Mpc. Proof. unfold m_per_Mpc. lra. Qed.
Lemma Rpower_mhalf x : 0 < x -> Rpower x (- (1 / 2)) = / sqrt x.
Proof. intros H. rewrite Rpower_Ropp. f_equal. replace (1 / 2) with (/ 2) by lra. apply Rpower_sqrt. assumption. Qed.
Theorem rd_sample_spec f q eps ph incl dist t : 0 < f -> 0 < q -> 0 < remnant q -> 0 < dist ->
  let env := rd_amplitude f q eps dist * exp (- (PI * f * t) / q) in
  rd_sample f q eps ph incl dist t = (env * (2 * sin incl) * sin (2 * PI * f * t + ph), env * (1 + cos incl ^ 2) * cos (2 * PI * f * t + ph)).
Proof.
  intros Hf Hq Hr Hd env. unfold rd_sample. cbv zeta. replace (1 - (1 - Rpower (2 / q) (20 / 9))) with (Rpower (2 / q) (20 / 9)) by ring.
  rewrite Rpower_mult. replace (20 / 9 * (3 / 10)) with (2 / 3) by lra. fold (remnant q).
  assert (PF : 0 < 1 + 7 / 24 / q ^ 2). { assert (0 < 7 / 24 / q ^ 2) by (apply Rdiv_lt_0_compat; nra). lra. }
  rewrite !Rpower_mhalf by assumption.
  assert (EA : sqrt (5 / 2) * eps * (Gn * (1 / (2 * PI) * (Cl ^ 3 / (Gn * f)) * remnant q) / Cl ^ 2) * / sqrt q * / sqrt (1 + 7 / 24 / q ^ 2) * / sqrt (remnant q) / (dist * m_per_Mpc) = rd_amplitude f q eps dist).
  { unfold rd_amplitude. replace (7 / (24 * q ^ 2)) with (7 / 24 / q ^ 2) by (field; lra). set (r := remnant q) in *. replace r with (sqrt r * sqrt r) at 1 by (apply sqrt_sqrt; lra).
    assert (0 < sqrt r) by (apply sqrt_lt_R0; assumption). assert (0 < sqrt q) by (apply sqrt_lt_R0; assumption). set (FQ := 1 + 7 / 24 / q ^ 2) in *. assert (0 < sqrt FQ) by (apply sqrt_lt_R0; assumption).
    pose proof Cl_pos. pose proof Gn_pos. pose proof m_per_Mpc_pos. pose proof PI_RGT_0. field. repeat split; lra. }
  rewrite EA. unfold env. replace (- PI * f * t / q) with (- (PI * f * t) / q) by (field; lra). f_equal; ring.
Qed.
(** inverse distance, and decay by exp(-pi f dt / Q) over any dt *)
Theorem rd_scaling f q eps ph incl dist t : 0 < f -> 0 < q -> 0 < remnant q -> 0 < dist ->
  (forall k, 0 < k -> rd_sample f q eps ph incl (k * dist) t = (fst (rd_sample f q eps ph incl dist t) / k, snd (rd_sample f q eps ph incl dist t) / k)) /\
  (forall n : nat, rd_sample f q eps ph incl dist (t + INR n / f) = (exp (- (PI * INR n) / q) * fst (rd_sample f q eps ph incl dist t), exp (- (PI * INR n) / q) * snd (rd_sample f q eps ph incl dist t))).
Proof.
  intros Hf Hq Hr Hd. pose proof m_per_Mpc_pos as PM. split.
  - intros k Hk. rewrite !rd_sample_spec by (try assumption; nra). cbn [fst snd]. assert (E : rd_amplitude f q eps (k * dist) = rd_amplitude f q eps dist / k).
    { unfold rd_amplitude. assert (0 < sqrt q) by (apply sqrt_lt_R0; assumption). assert (PF : 0 < 1 + 7 / (24 * q ^ 2)). { assert (0 < 7 / (24 * q ^ 2)) by (apply Rdiv_lt_0_compat; nra). lra. }
      assert (0 < sqrt (1 + 7 / (24 * q ^ 2))) by (apply sqrt_lt_R0; assumption). set (FF := sqrt (1 + 7 / (24 * q ^ 2))) in *. pose proof PI_RGT_0. field. repeat split; lra. }
    rewrite E. f_equal; field; lra.
  - intros n. rewrite !rd_sample_spec by assumption. cbn [fst snd]. replace (2 * PI * f * (t + INR n / f) + ph) with (2 * PI * f * t + ph + 2 * INR n * PI) by (field; lra).
    rewrite sin_period, cos_period. replace (- (PI * f * (t + INR n / f)) / q) with (- (PI * INR n) / q + - (PI * f * t) / q) by (field; lra). rewrite exp_plus. f_equal; ring.
Qed.
(** seen face-on the cross polarisation vanishes for every parameter (the factor is 2 sin i, where 2 cos i would be circular polarisation) *)
Theorem rd_face_on f q eps ph dist t : fst (rd_sample f q eps ph 0 dist t) = 0.
Proof. unfold rd_sample. cbv zeta. cbn [fst]. rewrite sin_0. ring. Qed.
Theorem rd_forward_spec sr dur f q eps ph incl dist n b : 0 < sr -> INR n <= dur * sr < INR n + 1 ->
  broadcast [numel f; numel q; numel eps; numel ph; numel incl; numel dist] = Ok b ->
  exists C P, rd_forward sr dur f q eps ph incl dist = Ok (C, P) /\ shape C = [b; n] /\ shape P = [b; n] /\
    forall p j, (p < b)%nat -> (j < n)%nat ->
      let v := rd_sample (pel f p) (pel q p) (pel eps p) (pel ph p) (pel incl p) (pel dist p) (INR j / sr) in
      get C [p; j] = Some (fst v) /\ get P [p; j] = Some (snd v).
Proof.
  intros Hs Hn Hb. unfold rd_forward. rewrite Hb. cbn [bind]. eexists. eexists. split; [reflexivity|].
  assert (En : sg_num sr dur = n). { unfold sg_num. rewrite (Whiten_props.rtrunc_nonneg _ n Hn). apply Nat2Z.id. }
  cbn [shape]. rewrite En. split; [reflexivity|]. split; [reflexivity|]. intros p j Hp Hj. cbv zeta. rewrite !get_inb by (cbn; auto). cbn [elt]. unfold rd_time. auto.
Qed.
Definition pvec (l : list R) : tensor R := mk [List.length l] (fun i => nth (nth 0 i 0%nat) l 0).
(** the hypotheses are met: two sine-Gaussians of 8 samples sharing one eccentricity *)
Example sg_forward_ex : exists C P, sg_forward 4 2 (pvec [3; 9]) (pvec [1; 1]) (pvec [1; 2]) (pvec [0; 1]) (pvec [1 / 2]) = Ok (C, P) /\ shape C = [2%nat; 8%nat] /\
  get P [1%nat; 4%nat] = Some (snd (sg_sample 9 1 2 1 (1 / 2) 0)).
Proof.
  destruct (sg_forward_spec 4 2 (pvec [3; 9]) (pvec [1; 1]) (pvec [1; 2]) (pvec [0; 1]) (pvec [1 / 2]) 8 2) as [C [P [E [S1 [S2 G]]]]]; [lra|cbn [INR]; lra|reflexivity|].
  exists C, P. split; [exact E|]. split; [exact S1|]. destruct (G 1%nat 4%nat) as [_ G2]; [lia|lia|]. rewrite G2. do 3 f_equal. cbn [INR]. lra.
Qed.
Example rd_ex : 0 < remnant 10 /\ fst (rd_sample 100 10 1 0 0 1 0) = 0.
Proof. split; [apply remnant_pos; lra|apply rd_face_on]. Qed.
