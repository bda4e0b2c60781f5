(** Properties C28-C30: antenna responses, detector delays, observed strain. *)
From Coq Require Import Permutation FinFun.
From Verif Require Import Base Tensor Rutil Norm_props Gw_model Gw_spec.
Local Open Scope R_scope.

Lemma bshape_21 B : bshape [B; 1%nat] [B; 1%nat] = Ok [B; 1%nat].
Proof. unfold bshape; cbn. rewrite !bdim_refl. reflexivity. Qed.
Lemma bshape_231 B d : bshape [B; d] [B; 1%nat] = Ok [B; d].
Proof. unfold bshape; cbn. rewrite bdim_1_r, bdim_refl. reflexivity. Qed.
Lemma bshape_2 B d : bshape [B; d] [B; d] = Ok [B; d].
Proof. unfold bshape; cbn. rewrite !bdim_refl. reflexivity. Qed.
Lemma bidx_B1 B b x : (b < B)%nat -> bidx [B; 1%nat] [b; x] = [b; 0%nat].
Proof. intros. unfold bidx; cbn. rewrite b1 by assumption. reflexivity. Qed.
Lemma bidx_2 B d b x : (b < B)%nat -> (x < d)%nat -> bidx [B; d] [b; x] = [b; x].
Proof. intros. unfold bidx; cbn. rewrite !b1 by assumption. reflexivity. Qed.

Lemma frame_spec theta psi phi B : shape theta = [B] -> shape psi = [B] -> shape phi = [B] ->
  exists m n, polarization_frame theta psi phi = Ok (m, n) /\ shape m = [B; 3%nat] /\ shape n = [B; 3%nat] /\
  forall b x, (b < B)%nat -> (x < 3)%nat ->
    elt m [b; x] = pol_m (elt theta [b]) (elt psi [b]) (elt phi [b]) x /\
    elt n [b; x] = pol_n (elt theta [b]) (elt psi [b]) (elt phi [b]) x.
Proof.
  intros St Ss Sp. unfold polarization_frame, view_col, tmap, numel. rewrite St, Ss, Sp.
  cbn [prod shape elt]. rewrite Nat.mul_1_r.
  unfold bzip; cbn [shape elt]. rewrite bshape_21; cbn [bind shape elt].
  unfold cat_cols; cbn [shape elt forallb andb].
  destruct (list_eq_dec Nat.eq_dec [B; 1%nat] [B; 1%nat]) as [_|N]; [|congruence]. cbn [bind shape elt andb List.length hd].
  rewrite bshape_231; cbn [bind shape elt]. rewrite bshape_2; cbn [bind shape elt].
  do 2 eexists. split; [reflexivity|]. cbn [shape elt]. split; [reflexivity|]. split; [reflexivity|].
  intros b x Hb Hx. rewrite !bidx_2, !bidx_B1 by assumption. cbn [nth].
  unfold pol_m, pol_n, sky_u, sky_v, v3.
  destruct x as [|[|[|x]]]; [| | |lia]; cbn [nth elt]; rewrite ?bidx_B1 by assumption; cbn [nth unravel prod];
    rewrite ?Nat.div_1_r; split; ring.
Qed.

Lemma shape_pol f mode B m n : polarization_func mode = Some f -> shape m = [B; 3%nat] -> shape n = [B; 3%nat] ->
  shape (f m n) = [B; 3; 3]%nat /\
  forall b x y, (b < B)%nat -> (x < 3)%nat -> (y < 3)%nat ->
    elt (f m n) [b; x; y] = pol_tensor mode (fun i => elt m [b; i]) (fun i => elt n [b; i]) x y.
Proof.
  intros Hf Sm Sn. unfold polarization_func in Hf. unfold pol_tensor.
  destruct (string_dec mode "plus"); [|destruct (string_dec mode "cross"); [|destruct (string_dec mode "breathing"); [|discriminate]]];
    injection Hf as <-; unfold plus_t, cross_t, breathing_t, tzip, outer; rewrite ?Sm, ?Sn; cbn; split; reflexivity.
Qed.
Lemma known_mode_func mode : known_mode mode <-> exists f, polarization_func mode = Some f.
Proof.
  unfold known_mode, polarization_func. split.
  - intros [->|[->| ->]]; cbn; eauto.
  - intros [f Hf]. destruct (string_dec mode "plus"); [auto|]. destruct (string_dec mode "cross"); [auto|].
    destruct (string_dec mode "breathing"); [auto|discriminate].
Qed.

(** every entry of the result is the antenna response of that source, mode and detector *)
Theorem antenna_responses_spec theta psi phi D modes B ni :
  shape theta = [B] -> shape psi = [B] -> shape phi = [B] -> shape D = [ni; 3; 3]%nat ->
  modes <> [] -> (forall mode, In mode modes -> known_mode mode) ->
  exists r, compute_antenna_responses theta psi phi D modes = Ok r /\ shape r = [B; List.length modes; ni] /\
    forall b q j mode, (b < B)%nat -> (j < ni)%nat -> nth_error modes q = Some mode ->
      get r [b; q; j] = Some (antenna mode (elt theta [b]) (elt psi [b]) (elt phi [b]) (fun x y => elt D [j; x; y])).
Proof.
  intros St Ss Sp SD Hne Hk. unfold compute_antenna_responses.
  destruct (frame_spec theta psi phi B St Ss Sp) as [m [n [E [Sm [Sn F]]]]]. rewrite E; cbn [bind].
  set (g := fun mode => match polarization_func mode with Some f => f m n | None => m end).
  rewrite (sequence_map_ok _ g).
  2:{ intros mode Hm. apply Hk, known_mode_func in Hm. destruct Hm as [f Hf]. unfold g. rewrite Hf. reflexivity. }
  cbn [bind].
  assert (Sg : forall mode, In mode modes -> shape (g mode) = [B; 3; 3]%nat).
  { intros mode Hm. apply Hk, known_mode_func in Hm. destruct Hm as [f Hf]. unfold g. rewrite Hf.
    apply (shape_pol f mode B m n Hf Sm Sn). }
  unfold stack_at1. destruct modes as [|m0 modes']; [congruence|]. cbn [map].
  replace (forallb _ (g m0 :: map g modes')) with true.
  2:{ symmetry. apply forallb_forall. intros t Ht. change (g m0 :: map g modes') with (map g (m0 :: modes')) in Ht.
      apply in_map_iff in Ht. destruct Ht as [mm [<- Hm]]. rewrite (Sg mm Hm), (Sg m0 (or_introl eq_refl)).
      destruct (list_eq_dec Nat.eq_dec [B; 3; 3]%nat [B; 3; 3]%nat); congruence. }
  cbn [bind]. unfold einsum_pol. cbn [shape]. rewrite (Sg m0 (or_introl eq_refl)), SD. cbn [hd tl Nat.eqb andb].
  eexists. split; [reflexivity|]. cbn [shape List.length]. rewrite map_length. split; [reflexivity|].
  intros b q j mode Hb Hj Hq.
  assert (Lq : (q < S (List.length modes'))%nat) by (apply (proj1 (nth_error_Some (m0 :: modes') q)); congruence).
  rewrite get_inb by (cbn; lia). f_equal. cbn [elt]. unfold antenna.
  apply Rsum_ext. intros x Hx. apply Rsum_ext. intros y Hy. f_equal.
  change (elt (nth q (map g (m0 :: modes')) (g m0)) [b; x; y] =
          pol_tensor mode (pol_m (elt theta [b]) (elt psi [b]) (elt phi [b])) (pol_n (elt theta [b]) (elt psi [b]) (elt phi [b])) x y).
  rewrite map_nth.
  rewrite (nth_error_nth (m0 :: modes') q m0 Hq).
  assert (Hm : In mode (m0 :: modes')) by (apply nth_error_In with q; assumption).
  apply Hk, known_mode_func in Hm. destruct Hm as [f Hf]. unfold g. rewrite Hf.
  destruct (shape_pol f mode B m n Hf Sm Sn) as [_ P]. rewrite P by assumption.
  unfold pol_tensor. destruct (F b x Hb Hx) as [-> ->]. destruct (F b y Hb Hy) as [-> ->]. reflexivity.
Qed.

(** an unknown mode name raises ValueError; an empty list of modes is a RuntimeError *)
Theorem antenna_unknown_mode theta psi phi D modes B :
  shape theta = [B] -> shape psi = [B] -> shape phi = [B] ->
  (exists mode, In mode modes /\ ~ known_mode mode) ->
  compute_antenna_responses theta psi phi D modes = Err ValueError.
Proof.
  intros St Ss Sp [mode [Hin Hun]]. unfold compute_antenna_responses.
  destruct (frame_spec theta psi phi B St Ss Sp) as [m [n [E _]]]. rewrite E; cbn [bind].
  assert (S : forall l, In mode l -> sequence (map (fun mode => match polarization_func mode with
                 | Some f => Ok (f m n) | None => Err ValueError end) l) = Err ValueError).
  { induction l as [|a l IH]; intros H; [destruct H|]. cbn. destruct (polarization_func a) eqn:Ea; cbn; [|reflexivity].
    destruct H as [->|H]; [exfalso; apply Hun, known_mode_func; eauto|]. rewrite IH by assumption. reflexivity. }
  rewrite S by assumption. reflexivity.
Qed.
Theorem antenna_no_modes theta psi phi D B :
  shape theta = [B] -> shape psi = [B] -> shape phi = [B] -> compute_antenna_responses theta psi phi D [] = Err RuntimeError.
Proof.
  intros St Ss Sp. unfold compute_antenna_responses.
  destruct (frame_spec theta psi phi B St Ss Sp) as [m [n [E _]]]. rewrite E; reflexivity.
Qed.

(** ** geometry of the specification: the polarisation frame is orthonormal and transverse; symmetries in psi *)
Ltac trig := repeat match goal with
  | |- context [sin ?x] => let H := fresh in pose proof (sin2_cos2 x) as H; unfold Rsqr in H;
        let s := fresh "s" in let c := fresh "c" in set (s := sin x) in *; set (c := cos x) in *; clearbody s c
  end.
Theorem pol_frame_orthonormal theta psi phi :
  let m := pol_m theta psi phi in let n := pol_n theta psi phi in let d := sky_dir theta phi in
  dot3 m m = 1 /\ dot3 n n = 1 /\ dot3 m n = 0 /\ dot3 m d = 0 /\ dot3 n d = 0 /\ dot3 d d = 1.
Proof.
  intros m n d. unfold m, n, d, dot3, pol_m, pol_n, sky_u, sky_v, sky_dir, v3.
  pose proof (sin2_cos2 theta) as A. pose proof (sin2_cos2 psi) as B0. pose proof (sin2_cos2 phi) as D. unfold Rsqr in *.
  set (st := sin theta) in *; set (ct := cos theta) in *; set (sp := sin psi) in *; set (cp := cos psi) in *;
  set (sf := sin phi) in *; set (cf := cos phi) in *. clearbody st ct sp cp sf cf.
  assert (st * st = 1 - ct * ct) by lra. assert (sp * sp = 1 - cp * cp) by lra. assert (sf * sf = 1 - cf * cf) by lra.
  repeat split; ring [H H0 H1].
Qed.

Lemma antenna_ext mode t1 p1 f1 t2 p2 f2 D (P : forall x y, (x < 3)%nat -> (y < 3)%nat ->
    pol_tensor mode (pol_m t1 p1 f1) (pol_n t1 p1 f1) x y = pol_tensor mode (pol_m t2 p2 f2) (pol_n t2 p2 f2) x y) :
  antenna mode t1 p1 f1 D = antenna mode t2 p2 f2 D.
Proof. unfold antenna. apply Rsum_ext; intros x Hx; apply Rsum_ext; intros y Hy. rewrite P by assumption. reflexivity. Qed.
Lemma antenna_lin (a b : R) mode m1 m2 t0 p0 f0 t p f D :
  (forall x y, pol_tensor mode (pol_m t0 p0 f0) (pol_n t0 p0 f0) x y
     = a * pol_tensor m1 (pol_m t p f) (pol_n t p f) x y + b * pol_tensor m2 (pol_m t p f) (pol_n t p f) x y) ->
  antenna mode t0 p0 f0 D = a * antenna m1 t p f D + b * antenna m2 t p f D.
Proof.
  intros H. unfold antenna. rewrite <- !Rsum_scal, <- Rsum_plus. apply Rsum_ext; intros x Hx.
  rewrite <- !Rsum_scal, <- Rsum_plus. apply Rsum_ext; intros y Hy. rewrite H. ring.
Qed.
Lemma pol_m_rot theta psi phi d x : pol_m theta (psi + d) phi x = cos d * pol_m theta psi phi x + sin d * pol_n theta psi phi x.
Proof. unfold pol_m, pol_n. rewrite sin_plus, cos_plus. ring. Qed.
Lemma pol_n_rot theta psi phi d x : pol_n theta (psi + d) phi x = cos d * pol_n theta psi phi x - sin d * pol_m theta psi phi x.
Proof. unfold pol_m, pol_n. rewrite sin_plus, cos_plus. ring. Qed.
Lemma antenna_rot theta psi phi d D :
  antenna "plus" theta (psi + d) phi D = cos (2 * d) * antenna "plus" theta psi phi D + sin (2 * d) * antenna "cross" theta psi phi D /\
  antenna "cross" theta (psi + d) phi D = cos (2 * d) * antenna "cross" theta psi phi D + - sin (2 * d) * antenna "plus" theta psi phi D /\
  antenna "breathing" theta (psi + d) phi D = antenna "breathing" theta psi phi D.
Proof.
  repeat split.
  - apply antenna_lin. intros x y. unfold pol_tensor; cbn. rewrite !pol_m_rot, !pol_n_rot, cos_2a, sin_2a. ring.
  - apply antenna_lin. intros x y. unfold pol_tensor; cbn. rewrite !pol_m_rot, !pol_n_rot, cos_2a, sin_2a. ring.
  - apply antenna_ext. intros x y _ _. unfold pol_tensor; cbn. rewrite !pol_m_rot, !pol_n_rot.
    pose proof (sin2_cos2 d) as H. unfold Rsqr in H. assert (E : sin d * sin d = 1 - cos d * cos d) by lra. ring [E].
Qed.

(** C28 on the API: changing psi by delta rotates (F+, Fx) by 2 delta and leaves the breathing response alone *)
Theorem antenna_psi_rotation theta psi psi' phi D delta B ni :
  shape theta = [B] -> shape psi = [B] -> shape psi' = [B] -> shape phi = [B] -> shape D = [ni; 3; 3]%nat ->
  (forall b, (b < B)%nat -> elt psi' [b] = elt psi [b] + delta) ->
  exists r r', compute_antenna_responses theta psi phi D ["plus"; "cross"; "breathing"]%string = Ok r /\
    compute_antenna_responses theta psi' phi D ["plus"; "cross"; "breathing"]%string = Ok r' /\
    forall b j, (b < B)%nat -> (j < ni)%nat -> exists fp fc fb,
      get r [b; 0%nat; j] = Some fp /\ get r [b; 1%nat; j] = Some fc /\ get r [b; 2%nat; j] = Some fb /\
      get r' [b; 0%nat; j] = Some (cos (2 * delta) * fp + sin (2 * delta) * fc) /\
      get r' [b; 1%nat; j] = Some (cos (2 * delta) * fc - sin (2 * delta) * fp) /\
      get r' [b; 2%nat; j] = Some fb.
Proof.
  intros St Ss Ss' Sp SD Hpsi.
  set (modes := ["plus"; "cross"; "breathing"]%string).
  assert (K : forall mode, In mode modes -> known_mode mode).
  { unfold modes, known_mode. cbn. intros mode [H|[H|[H|[]]]]; auto. }
  destruct (antenna_responses_spec theta psi phi D modes B ni St Ss Sp SD ltac:(discriminate) K) as [r [E [_ G]]].
  destruct (antenna_responses_spec theta psi' phi D modes B ni St Ss' Sp SD ltac:(discriminate) K) as [r' [E' [_ G']]].
  exists r, r'. split; [exact E|]. split; [exact E'|]. intros b j Hb Hj.
  do 3 eexists. rewrite (G b 0%nat j _ Hb Hj eq_refl), (G b 1%nat j _ Hb Hj eq_refl), (G b 2%nat j _ Hb Hj eq_refl).
  rewrite (G' b 0%nat j _ Hb Hj eq_refl), (G' b 1%nat j _ Hb Hj eq_refl), (G' b 2%nat j _ Hb Hj eq_refl).
  rewrite (Hpsi b Hb). destruct (antenna_rot (elt theta [b]) (elt psi [b]) (elt phi [b]) delta (fun x y => elt D [j; x; y])) as [-> [-> ->]].
  repeat split. f_equal. ring.
Qed.
(** consequences: a quarter turn negates plus and cross, a half turn changes nothing, F+^2 + Fx^2 does not depend on psi *)
Theorem antenna_psi_symmetries theta psi psi' phi D delta B ni r r' b j fp fc fb fp' fc' fb' :
  shape theta = [B] -> shape psi = [B] -> shape psi' = [B] -> shape phi = [B] -> shape D = [ni; 3; 3]%nat ->
  (forall b, (b < B)%nat -> elt psi' [b] = elt psi [b] + delta) ->
  compute_antenna_responses theta psi phi D ["plus"; "cross"; "breathing"]%string = Ok r ->
  compute_antenna_responses theta psi' phi D ["plus"; "cross"; "breathing"]%string = Ok r' ->
  get r [b; 0%nat; j] = Some fp -> get r [b; 1%nat; j] = Some fc -> get r [b; 2%nat; j] = Some fb ->
  get r' [b; 0%nat; j] = Some fp' -> get r' [b; 1%nat; j] = Some fc' -> get r' [b; 2%nat; j] = Some fb' ->
  fp' ^ 2 + fc' ^ 2 = fp ^ 2 + fc ^ 2 /\ fb' = fb /\
  (delta = PI / 2 -> fp' = - fp /\ fc' = - fc) /\ (delta = PI -> fp' = fp /\ fc' = fc).
Proof.
  intros St Ss Ss' Sp SD Hpsi Er Er' A1 A2 A3 A4 A5 A6.
  destruct (antenna_psi_rotation theta psi psi' phi D delta B ni St Ss Ss' Sp SD Hpsi) as [r1 [r2 [E1 [E2 G]]]].
  rewrite Er in E1; injection E1 as <-. rewrite Er' in E2; injection E2 as <-.
  assert (Hb : (b < B)%nat /\ (j < ni)%nat).
  { set (modes := ["plus"; "cross"; "breathing"]%string) in *.
    assert (K : forall mode, In mode modes -> known_mode mode) by (unfold modes, known_mode; cbn; intros mode [H|[H|[H|[]]]]; auto).
    destruct (antenna_responses_spec theta psi phi D modes B ni St Ss Sp SD ltac:(discriminate) K) as [r0 [E0 [S0 _]]].
    rewrite Er in E0; injection E0 as <-. apply get_some in A1. destruct A1 as [A1 _]. rewrite S0 in A1. cbn in A1. tauto. }
  destruct Hb as [Hb Hj]. destruct (G b j Hb Hj) as [gp [gc [gb [G1 [G2 [G3 [G4 [G5 G6]]]]]]]].
  rewrite A1 in G1; injection G1 as <-. rewrite A2 in G2; injection G2 as <-. rewrite A3 in G3; injection G3 as <-.
  rewrite A4 in G4; injection G4 as ->. rewrite A5 in G5; injection G5 as ->. rewrite A6 in G6; injection G6 as ->.
  split; [|split; [reflexivity|split]].
  - pose proof (sin2_cos2 (2 * delta)) as H. unfold Rsqr in H.
    assert (E : sin (2 * delta) * sin (2 * delta) = 1 - cos (2 * delta) * cos (2 * delta)) by lra. ring [E].
  - intros ->. replace (2 * (PI / 2)) with PI by field. rewrite cos_PI, sin_PI. split; ring.
  - intros ->. rewrite cos_2PI, sin_2PI. split; ring.
Qed.

(** ** C29 *)
Lemma rtrunc_0 : rtrunc 0 = 0%Z.
Proof. unfold rtrunc. destruct (Rle_dec 0 0); [|lra]. apply Int_part_unique. cbn. lra. Qed.
(** [rtrunc] rounds towards zero *)
Theorem rtrunc_spec x : (0 <= x -> IZR (rtrunc x) <= x < IZR (rtrunc x) + 1) /\ (x <= 0 -> IZR (rtrunc x) - 1 < x <= IZR (rtrunc x)).
Proof.
  unfold rtrunc. destruct (Rle_dec 0 x) as [H|H].
  - destruct (base_Int_part x). split; intros; [lra|]. assert (x = 0) by lra. subst.
    rewrite (Int_part_unique 0 0) by lra. lra.
  - destruct (base_Int_part (- x)). rewrite opp_IZR. split; intros; lra.
Qed.

(** delay (in whole samples) applied to a detector at position [vertex] for a source in direction (theta, phi) *)
Definition delay (sample_rate theta phi : R) (vertex : nat -> R) : Z :=
  rtrunc (- dot3 (sky_dir theta phi) vertex * (sample_rate / c_light)).

Lemma bshape_1 B : bshape [B] [B] = Ok [B].
Proof. unfold bshape; cbn. rewrite bdim_refl. reflexivity. Qed.
Lemma bidx_1 B b : (b < B)%nat -> bidx [B] [b] = [b].
Proof. intros. unfold bidx; cbn. rewrite b1 by assumption. reflexivity. Qed.
Lemma bidx_t T b i t : (t < T)%nat -> bidx [T] [b; i; t] = [t].
Proof. intros. unfold bidx; cbn. rewrite b1 by assumption. reflexivity. Qed.
Lemma bshape_omega B ni : bshape [B; 1; 3]%nat [ni; 3]%nat = Ok [B; ni; 3]%nat.
Proof. unfold bshape; cbn. rewrite bdim_1_l. reflexivity. Qed.
Lemma bshape_idx B ni n : bshape [n] [B; ni; 1%nat] = Ok [B; ni; n].
Proof. unfold bshape; cbn. rewrite bdim_1_r. reflexivity. Qed.

(** the exact result, also when the sky parameters have a smaller batch than the responses (the rest is dropped) *)
Theorem shift_responses_spec responses theta phi V sr B Br ni nr T :
  shape theta = [B] -> shape phi = [B] -> shape V = [ni; 3]%nat -> shape responses = [Br; nr; T] ->
  (B <= Br)%nat -> (ni <= nr)%nat ->
  exists r, shift_responses responses theta phi V sr = Ok r /\ shape r = [B; ni; T] /\
    forall b i t, (b < B)%nat -> (i < ni)%nat -> (t < T)%nat ->
      get r [b; i; t] = get responses [b; i;
        Z.to_nat ((Z.of_nat t - delay sr (elt theta [b]) (elt phi [b]) (fun x => elt V [i; x])) mod Z.of_nat T)].
Proof.
  intros St Sp SV Sr HB Hni. unfold shift_responses, bzip. rewrite St, Sp, bshape_1; cbn [bind].
  unfold view_col, numel; cbn [shape elt tmap prod]. rewrite St. cbn [prod]. rewrite Nat.mul_1_r.
  unfold cat_cols; cbn [shape elt forallb andb].
  destruct (list_eq_dec Nat.eq_dec [B; 1%nat] [B; 1%nat]) as [_|N]; [|congruence].
  cbn [bind shape elt andb List.length hd]. rewrite SV, bshape_omega; cbn [bind].
  unfold tmap, sum_last; cbn [shape elt removelast last app]. rewrite Sr; cbn [last].
  rewrite bshape_idx; cbn [bind shape elt].
  unfold gather2. cbn [shape]. rewrite Sr.
  match goal with |- context [forallb ?p ?l] => assert (FB : forallb p l = true) end.
  { apply forallb_forall. intros j Hj. apply all_idx_spec in Hj. cbn [shape] in Hj. cbn [elt].
    destruct j as [|b [|i [|t [|]]]]; cbn in Hj; try tauto.
    apply andb_true_intro. split; [apply Z.leb_le | apply Z.ltb_lt]; apply Z.mod_pos_bound; lia. }
  rewrite FB.
  replace ((B <=? Br) && (ni <=? nr) && true)%nat with true by lia.
  eexists. split; [reflexivity|]. cbn [shape]. split; [reflexivity|].
  intros b i t Hb Hi Ht.
  rewrite !get_inb; [| rewrite Sr; cbn; match goal with |- context [Z.modulo ?a ?m] => pose proof (Z.mod_pos_bound a m) end; lia | cbn; lia].
  f_equal. cbn [elt]. f_equal. f_equal. f_equal. f_equal. f_equal.
  cbn [removelast last app elt bidx].
  rewrite bidx_t by assumption. cbn [hd].
  rewrite bidx_BC1 by assumption. cbn [removelast app].
  f_equal. f_equal. unfold delay. f_equal. f_equal. f_equal. unfold dot3, sky_dir, v3. cbn [Rsum].
  assert (Y : forall x, (x < 3)%nat -> bidx [B; 1; 3]%nat [b; i; x] = [b; 0%nat; x] /\ bidx [ni; 3]%nat [b; i; x] = [i; x]).
  { intros x Hx. unfold bidx; cbn. rewrite !b1 by assumption. split; reflexivity. }
  destruct (Y 0%nat ltac:(lia)) as [-> ->]. destruct (Y 1%nat ltac:(lia)) as [-> ->]. destruct (Y 2%nat ltac:(lia)) as [-> ->].
  cbn [nth elt unravel prod]. rewrite Nat.div_1_r, bidx_1 by assumption. ring.
Qed.

Lemma NoDup_map_inj_in {A B} (f : A -> B) l : (forall x y, In x l -> In y l -> f x = f y -> x = y) -> NoDup l -> NoDup (map f l).
Proof.
  induction l as [|a l IH]; intros H N; [constructor|]. inversion N; subst. cbn. constructor.
  - intros I. apply in_map_iff in I. destruct I as [y [E Hy]]. assert (y = a) by (apply H; cbn; auto). subst. contradiction.
  - apply IH; [|assumption]. intros; apply H; cbn; auto.
Qed.
(** the shift is circular: a permutation of the sample positions *)
Lemma croll_perm n d : (0 < n)%nat ->
  Permutation (map (fun t => Z.to_nat ((Z.of_nat t - d) mod Z.of_nat n)) (seq 0 n)) (seq 0 n).
Proof.
  intros Hn. apply NoDup_Permutation_bis.
  - apply NoDup_map_inj_in; [|apply seq_NoDup].
    intros x y Hx Hy E. apply in_seq in Hx. apply in_seq in Hy.
    pose proof (Z.mod_pos_bound (Z.of_nat x - d) (Z.of_nat n)). pose proof (Z.mod_pos_bound (Z.of_nat y - d) (Z.of_nat n)).
    assert (E2 : ((Z.of_nat x - d) mod Z.of_nat n = (Z.of_nat y - d) mod Z.of_nat n)%Z) by lia.
    apply (mod_diff_zero n); [lia|lia|].
    replace (Z.of_nat y - Z.of_nat x)%Z with ((Z.of_nat y - d) - (Z.of_nat x - d))%Z by ring.
    rewrite Zminus_mod, E2, Z.sub_diag. reflexivity.
  - rewrite map_length. reflexivity.
  - intros x Hx. apply in_map_iff in Hx. destruct Hx as [t [<- Ht]]. apply in_seq.
    pose proof (Z.mod_pos_bound (Z.of_nat t - d) (Z.of_nat n)). lia.
Qed.

(** the samples of one detector series, as a list *)
Definition series (t : tensor R) (b i : nat) (n : nat) : list R := map (fun k => elt t [b; i; k]) (seq 0 n).

Theorem shift_responses_permutation responses theta phi V sr B ni T r :
  shape theta = [B] -> shape phi = [B] -> shape V = [ni; 3]%nat -> shape responses = [B; ni; T] ->
  shift_responses responses theta phi V sr = Ok r ->
  shape r = shape responses /\
  (forall b i, (b < B)%nat -> (i < ni)%nat -> Permutation (series r b i T) (series responses b i T)) /\
  (forall b i (f : R -> R), (b < B)%nat -> (i < ni)%nat ->
     Rsum T (fun t => f (elt r [b; i; t])) = Rsum T (fun t => f (elt responses [b; i; t]))).
Proof.
  intros St Sp SV Sr E.
  destruct (shift_responses_spec responses theta phi V sr B B ni ni T St Sp SV Sr (le_n _) (le_n _)) as [r' [E' [Sh G]]].
  rewrite E in E'; injection E' as <-. rewrite Sh, Sr. split; [reflexivity|].
  assert (G' : forall b i t, (b < B)%nat -> (i < ni)%nat -> (t < T)%nat -> elt r [b; i; t] = elt responses [b; i;
        Z.to_nat ((Z.of_nat t - delay sr (elt theta [b]) (elt phi [b]) (fun x => elt V [i; x])) mod Z.of_nat T)]).
  { intros b i t Hb Hi Ht. specialize (G b i t Hb Hi Ht).
    rewrite get_inb in G by (rewrite Sh; cbn; auto). symmetry in G. apply get_some in G. symmetry. apply G. }
  split.
  - intros b i Hb Hi. destruct T as [|T']; [reflexivity|]. set (T := S T') in *. unfold series.
    set (d := delay sr (elt theta [b]) (elt phi [b]) (fun x => elt V [i; x])) in *.
    rewrite (map_ext_in _ (fun k => (fun j => elt responses [b; i; j]) (Z.to_nat ((Z.of_nat k - d) mod Z.of_nat T)))).
    + rewrite <- (map_map (fun k => Z.to_nat ((Z.of_nat k - d) mod Z.of_nat T)) (fun j => elt responses [b; i; j])).
      apply Permutation_map, croll_perm. unfold T; lia.
    + intros k Hk. apply in_seq in Hk. apply G'; lia.
  - intros b i f Hb Hi. destruct T as [|T']; [reflexivity|]. set (T := S T') in *.
    set (d := delay sr (elt theta [b]) (elt phi [b]) (fun x => elt V [i; x])) in *.
    set (F := fun z => f (elt responses [b; i; Z.to_nat (z mod Z.of_nat T)])).
    rewrite (Rsum_ext T _ (fun t => F (Z.of_nat t + - d)%Z)).
    + rewrite Rsum_period.
      * apply Rsum_ext. intros t Ht. unfold F. rewrite Z.mod_small, Nat2Z.id by lia. reflexivity.
      * unfold T; lia.
      * intros z. unfold F. do 4 f_equal. replace (z + Z.of_nat T)%Z with (z + 1 * Z.of_nat T)%Z by ring. f_equal. rewrite Z.mod_add by lia. reflexivity.
    + intros t Ht. rewrite G' by assumption. reflexivity.
Qed.
(** a detector at the origin is not delayed *)
Theorem shift_responses_origin responses theta phi V sr B ni T r b i t :
  shape theta = [B] -> shape phi = [B] -> shape V = [ni; 3]%nat -> shape responses = [B; ni; T] ->
  shift_responses responses theta phi V sr = Ok r ->
  (b < B)%nat -> (i < ni)%nat -> (t < T)%nat -> (forall x, (x < 3)%nat -> elt V [i; x] = 0) ->
  get r [b; i; t] = get responses [b; i; t].
Proof.
  intros St Sp SV Sr E Hb Hi Ht HV.
  destruct (shift_responses_spec responses theta phi V sr B B ni ni T St Sp SV Sr (le_n _) (le_n _)) as [r' [E' [Sh G]]].
  rewrite E in E'; injection E' as <-. rewrite G by assumption. unfold delay, dot3.
  rewrite !HV by lia. replace (- (_ * 0 + _ * 0 + _ * 0) * (sr / c_light)) with 0 by ring.
  rewrite rtrunc_0. rewrite Z.sub_0_r, Z.mod_small, Nat2Z.id by lia. reflexivity.
Qed.
(** the delay never exceeds the light travel time from the origin to the detector *)
Theorem delay_bound sr theta phi v : 0 <= sr ->
  Rabs (IZR (delay sr theta phi v)) <= sqrt (dot3 v v) * (sr / c_light).
Proof.
  intros Hs. unfold delay.
  set (x := - dot3 (sky_dir theta phi) v * (sr / c_light)).
  assert (Q : 0 <= sr / c_light) by (unfold c_light; lra).
  assert (X : Rabs x <= sqrt (dot3 v v) * (sr / c_light)).
  { unfold x. rewrite Rabs_mult, (Rabs_right (sr / c_light)) by lra. apply Rmult_le_compat_r; [assumption|].
    rewrite Rabs_Ropp. apply Rsqr_incr_0_var; [|apply sqrt_pos]. rewrite <- Rsqr_abs. rewrite Rsqr_sqrt.
    - destruct (pol_frame_orthonormal theta 0 phi) as [_ [_ [_ [_ [_ Hd]]]]].
      unfold Rsqr. unfold dot3 in *. set (a := sky_dir theta phi 0%nat) in *. set (b := sky_dir theta phi 1%nat) in *.
      set (c := sky_dir theta phi 2%nat) in *. set (p := v 0%nat) in *. set (q := v 1%nat). set (s := v 2%nat).
      assert (L : (p * p + q * q + s * s) = (a * a + b * b + c * c) * (p * p + q * q + s * s)) by (rewrite Hd; ring).
      rewrite L. clear L.
      assert (0 <= (a * q - b * p) ^ 2) by apply pow2_ge_0. assert (0 <= (a * s - c * p) ^ 2) by apply pow2_ge_0.
      assert (0 <= (b * s - c * q) ^ 2) by apply pow2_ge_0. nra.
    - unfold dot3. pose proof (Rle_0_sqr (v 0%nat)). pose proof (Rle_0_sqr (v 1%nat)). pose proof (Rle_0_sqr (v 2%nat)). unfold Rsqr in *. lra. }
  apply Rle_trans with (Rabs x); [|assumption].
  destruct (rtrunc_spec x) as [P N]. destruct (Rle_dec 0 x) as [H|H].
  - specialize (P H). rewrite (Rabs_right x) by lra.
    assert (0 <= IZR (rtrunc x)).
    { apply IZR_le. assert (-1 < rtrunc x)%Z by (apply lt_IZR; lra). lia. }
    rewrite Rabs_right by lra. lra.
  - specialize (N ltac:(lra)). rewrite (Rabs_left x) by lra.
    assert (IZR (rtrunc x) <= 0).
    { apply IZR_le. assert (rtrunc x < 1)%Z by (apply lt_IZR; lra). lia. }
    rewrite Rabs_left1 by lra. lra.
Qed.

(** ** C30: the observed strain.  [Bp] is the batch of the polarisations, [B] that of the sky parameters. *)
Definition strain_at (dec psi phi D V : tensor R) (sr : R) (pols : list (string * tensor R)) (Bp T b i t : nat) : R :=
  let theta := PI / 2 - elt dec [b] in
  let d := delay sr theta (elt phi [b]) (fun x => elt V [i; x]) in
  Rsum (List.length pols) (fun q =>
    let '(mode, h) := nth q pols (""%string, dec) in
    antenna mode theta (elt psi [b]) (elt phi [b]) (fun x y => elt D [i; x; y])
    * elt h [if (Bp =? 1)%nat then 0%nat else b; Z.to_nat ((Z.of_nat t - d) mod Z.of_nat T)]).

Theorem observed_strain_spec dec psi phi D V sr pols B Bp ni T :
  shape dec = [B] -> shape psi = [B] -> shape phi = [B] -> shape D = [ni; 3; 3]%nat -> shape V = [ni; 3]%nat ->
  pols <> [] -> (forall mode h, In (mode, h) pols -> known_mode mode /\ shape h = [Bp; T]) ->
  (B = Bp \/ Bp = 1 \/ B = 1 /\ 0 < Bp)%nat ->
  exists r, compute_observed_strain dec psi phi D V sr pols = Ok r /\ shape r = [B; ni; T] /\
    forall b i t, (b < B)%nat -> (i < ni)%nat -> (t < T)%nat ->
      get r [b; i; t] = Some (strain_at dec psi phi D V sr pols Bp T b i t).
Proof.
  intros Sd Ss Sp SD SV Hne Hp HB. unfold compute_observed_strain.
  set (theta := tmap (fun d => PI / 2 - d) dec).
  assert (St : shape theta = [B]) by exact Sd.
  destruct (antenna_responses_spec theta psi phi D (map fst pols) B ni St Ss Sp SD) as [ar [Ea [Sa Ga]]].
  { destruct pols; [congruence|discriminate]. }
  { intros mode Hm. apply in_map_iff in Hm. destruct Hm as [[mode' h] [<- Hin]]. apply (Hp mode' h Hin). }
  rewrite Ea; cbn [bind]. rewrite map_length in Sa.
  unfold stack_at1. destruct pols as [|[m0 h0] pols']; [congruence|]. cbn [map snd].
  assert (S0 : shape h0 = [Bp; T]) by (apply (Hp m0 h0); now left).
  replace (forallb _ (h0 :: map snd pols')) with true.
  2:{ symmetry. apply forallb_forall. intros t Ht. change (h0 :: map snd pols') with (map snd ((m0, h0) :: pols')) in Ht.
      apply in_map_iff in Ht. destruct Ht as [[mm hh] [<- Hin]]. cbn. destruct (Hp mm hh Hin) as [_ ->]. rewrite S0.
      destruct (list_eq_dec Nat.eq_dec [Bp; T] [Bp; T]); congruence. }
  cbn [bind]. rewrite S0. cbn [hd tl List.length]. rewrite map_length. unfold einsum_wave; cbn [shape elt].
  rewrite Sa; cbn [List.length]. rewrite Nat.eqb_refl.
  assert (HBm : exists Bm, bdim B Bp = Ok Bm /\ (B <= Bm)%nat /\ (B = Bm \/ B = 1%nat)).
  { destruct HB as [->|[->|[-> H]]]; [exists Bp; rewrite bdim_refl|exists B; rewrite bdim_1_r|exists Bp; rewrite bdim_1_l]; split; auto; lia. }
  destruct HBm as [Bm [Eb [HBm HBm1]]]. rewrite Eb; cbn [bind].
  match goal with |- context [shift_responses ?w _ _ _ _] => set (wave := w) end.
  destruct (shift_responses_spec wave theta phi V sr B Bm ni ni T St Sp SV eq_refl HBm (le_n _)) as [r [Er [Sr Gr]]].
  rewrite Er. exists r. split; [reflexivity|]. split; [assumption|].
  intros b i t Hb Hi Ht. rewrite Gr by assumption.
  set (d := delay sr (elt theta [b]) (elt phi [b]) (fun x => elt V [i; x])).
  assert (Hm : (Z.to_nat ((Z.of_nat t - d) mod Z.of_nat T) < T)%nat).
  { pose proof (Z.mod_pos_bound (Z.of_nat t - d) (Z.of_nat T)). lia. }
  rewrite get_inb by (unfold wave; cbn; lia). f_equal. unfold wave; cbn [elt]. unfold strain_at.
  cbn [List.length]. apply Rsum_ext. intros q Hq.
  set (pols := (m0, h0) :: pols') in *.
  destruct (nth q pols (""%string, dec)) as [mode h] eqn:En.
  assert (En' : nth_error pols q = Some (mode, h)).
  { rewrite <- En. apply nth_error_nth'. exact Hq. }
  assert (Fst : nth_error (map fst pols) q = Some mode) by (rewrite nth_error_map', En'; reflexivity).
  pose proof (Ga b q i mode Hb Hi Fst) as Gv. apply get_some in Gv. destruct Gv as [_ Gv].
  assert (B1 : (if (B =? 1)%nat then 0%nat else b) = b) by (apply b1; assumption).
  rewrite B1, Gv. f_equal. cbn [nth skipn].
  change (elt (nth q (map snd pols) h0) [if (Bp =? 1)%nat then 0%nat else b; Z.to_nat ((Z.of_nat t - d) mod Z.of_nat T)] =
          elt h [if (Bp =? 1)%nat then 0%nat else b; Z.to_nat ((Z.of_nat t - d) mod Z.of_nat T)]).
  f_equal. change h0 with (snd (m0, h0)). rewrite map_nth. rewrite (nth_error_nth pols q (m0, h0) En'). reflexivity.
Qed.

(** C30, linearity: for the same sky parameters and modes, the strain of a linear combination of polarisations is the
    linear combination of the strains *)
Theorem observed_strain_linear dec psi phi D V sr (modes : list string) (h1 h2 : nat -> tensor R) (a1 a2 : R) B ni T :
  shape dec = [B] -> shape psi = [B] -> shape phi = [B] -> shape D = [ni; 3; 3]%nat -> shape V = [ni; 3]%nat ->
  modes <> [] -> (forall mode, In mode modes -> known_mode mode) ->
  (forall q, (q < List.length modes)%nat -> shape (h1 q) = [B; T] /\ shape (h2 q) = [B; T]) ->
  let pols (h : nat -> tensor R) := combine modes (map h (seq 0 (List.length modes))) in
  exists r1 r2 r,
    compute_observed_strain dec psi phi D V sr (pols h1) = Ok r1 /\
    compute_observed_strain dec psi phi D V sr (pols h2) = Ok r2 /\
    compute_observed_strain dec psi phi D V sr (pols (fun q => tzip (fun x y => a1 * x + a2 * y) (h1 q) (h2 q))) = Ok r /\
    shape r1 = [B; ni; T] /\ shape r2 = [B; ni; T] /\ shape r = [B; ni; T] /\
    forall j, inb j [B; ni; T] -> elt r j = a1 * elt r1 j + a2 * elt r2 j.
Proof.
  intros Sd Ss Sp SD SV Hne Hk Sh pols.
  assert (Len : forall h, List.length (pols h) = List.length modes).
  { intros h. unfold pols. rewrite combine_length, map_length, seq_length. lia. }
  assert (Nth : forall h q dflt, (q < List.length modes)%nat -> nth q (pols h) dflt = (nth q modes ""%string, h q)).
  { intros h q dflt Hq. rewrite (nth_indep _ dflt (""%string, h 0%nat)) by (rewrite Len; assumption).
    unfold pols. rewrite combine_nth by (rewrite map_length, seq_length; reflexivity).
    rewrite map_nth, seq_nth by assumption. reflexivity. }
  assert (P : forall h, (forall q, (q < List.length modes)%nat -> shape (h q) = [B; T]) ->
            pols h <> [] /\ forall mode x, In (mode, x) (pols h) -> known_mode mode /\ shape x = [B; T]).
  { intros h Hh. split.
    - intros E. apply (f_equal (@List.length _)) in E. rewrite Len in E. destruct modes; [congruence|discriminate].
    - intros mode x Hin. unfold pols in Hin. split.
      + apply in_combine_l in Hin. auto.
      + apply in_combine_r in Hin. apply in_map_iff in Hin. destruct Hin as [q [<- Hq]]. apply Hh. apply in_seq in Hq. lia. }
  destruct (P h1) as [N1 P1]; [intros; apply Sh; assumption|].
  destruct (P h2) as [N2 P2]; [intros; apply Sh; assumption|].
  destruct (P (fun q => tzip (fun x y => a1 * x + a2 * y) (h1 q) (h2 q))) as [N3 P3]; [intros; apply Sh; assumption|].
  destruct (observed_strain_spec dec psi phi D V sr _ B B ni T Sd Ss Sp SD SV N1 P1 (or_introl eq_refl)) as [r1 [E1 [S1 G1]]].
  destruct (observed_strain_spec dec psi phi D V sr _ B B ni T Sd Ss Sp SD SV N2 P2 (or_introl eq_refl)) as [r2 [E2 [S2 G2]]].
  destruct (observed_strain_spec dec psi phi D V sr _ B B ni T Sd Ss Sp SD SV N3 P3 (or_introl eq_refl)) as [r [E3 [S3 G3]]].
  exists r1, r2, r. do 6 (split; [assumption|]).
  intros [|b [|i [|t [|]]]]; cbn [inb]; try tauto. intros [Hb [Hi [Ht _]]].
  specialize (G1 b i t Hb Hi Ht). specialize (G2 b i t Hb Hi Ht). specialize (G3 b i t Hb Hi Ht).
  apply get_some in G1, G2, G3. destruct G1 as [_ ->], G2 as [_ ->], G3 as [_ ->].
  unfold strain_at. rewrite !Len, <- !Rsum_scal, <- Rsum_plus. apply Rsum_ext. intros q Hq.
  rewrite !Nth by assumption. cbn [elt tzip]. ring.
Qed.

(** A single sky position with a batch of several waveforms: only the first waveform is returned, without an error *)
Theorem observed_strain_single_sky_refuted dec psi phi D V sr mode h Bp ni T :
  shape dec = [1%nat] -> shape psi = [1%nat] -> shape phi = [1%nat] -> shape D = [ni; 3; 3]%nat -> shape V = [ni; 3]%nat ->
  known_mode mode -> shape h = [Bp; T] -> (1 < Bp)%nat ->
  exists r, compute_observed_strain dec psi phi D V sr [(mode, h)] = Ok r /\ shape r = [1%nat; ni; T].
Proof.
  intros Sd Ss Sp SD SV Hk Sh HB.
  destruct (observed_strain_spec dec psi phi D V sr [(mode, h)] 1 Bp ni T Sd Ss Sp SD SV) as [r [E [S1 _]]]; try discriminate.
  - cbn. intros m x [H|[]]. injection H as <- <-. auto.
  - right; right. lia.
  - eauto.
Qed.

(** non-vacuity: two sources, two detectors, three modes, five samples *)
Example gw_example :
  let th := mk [2%nat] (fun i => INR (hd 0%nat i)) in
  let D := mk [2; 3; 3]%nat (fun i => INR (nth 1 i 0%nat) - INR (nth 2 i 0%nat)) in
  let V := mk [2; 3]%nat (fun i => 1000000 * INR (nth 1 i 0%nat)) in
  let h := mk [2; 5]%nat (fun i => INR (nth 1 i 0%nat)) in
  exists r, compute_observed_strain th th th D V 4096 [("cross"%string, h); ("plus"%string, h)] = Ok r /\ shape r = [2; 2; 5]%nat.
Proof.
  intros. destruct (observed_strain_spec th th th D V 4096 [("cross"%string, h); ("plus"%string, h)] 2 2 2 5) as [r [E [S1 _]]];
    try reflexivity; try discriminate; eauto.
  cbn. intros mode x [H|[H|[]]]; injection H as <- <-; unfold known_mode; auto.
Qed.
