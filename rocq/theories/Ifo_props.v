(** Property C62: the built-in detectors (get_ifo_geometry), and bounds on the antenna responses of a detector given by
    its two arms. *)
From Verif Require Import Base Tensor Rutil Norm_props Gw_model Gw_spec Gw_props.
Local Open Scope R_scope.

(** the response tensor of a detector with arm vectors x and y *)
Definition arm_tensor (x y : nat -> R) (i j : nat) : R := (x i * x j - y i * y j) / 2.
Definition known_ifo (s : string) : Prop := In s ["H1"; "L1"; "V1"; "K1"]%string.

Lemma geometry_known s : known_ifo s -> exists x y v, interferometer_geometry s = Ok (x, y, v) /\
  shape x = [3%nat] /\ shape y = [3%nat] /\ shape v = [3%nat] /\
  let X := fun i => elt x [i] in let Y := fun i => elt y [i] in let P := fun i => elt v [i] in
  Rabs (dot3 X X - 1) <= 1 / 10 ^ 7 /\ Rabs (dot3 Y Y - 1) <= 1 / 10 ^ 7 /\ Rabs (dot3 X Y) <= 1 / 10 ^ 5 /\
  6350000 ^ 2 <= dot3 P P <= 6380000 ^ 2.
Proof.
  unfold known_ifo, interferometer_geometry. cbn [In].
  intros [<-|[<-|[<-|[<-|[]]]]]; cbn [string_dec string_rec string_rect sumbool_rec sumbool_rect];
  do 3 eexists; (split; [reflexivity|]); do 3 (split; [reflexivity|]); cbn [elt vec3]; unfold dot3; cbv beta; cbn [elt vec3];
  (repeat split; try (apply Rabs_le; split; lra); lra).
Qed.

Lemma sequence_err {A B} (f : A -> res B) e l : (exists a, In a l /\ f a = Err e) ->
  (forall a, In a l -> (exists b, f a = Ok b) \/ f a = Err e) -> sequence (map f l) = Err e.
Proof.
  induction l as [|a l IH]; intros [a0 [Hin H0]] H; [destruct Hin|]. cbn.
  destruct (H a (or_introl eq_refl)) as [[b E]|E]; rewrite E; cbn; [|reflexivity].
  destruct Hin as [->|Hin]; [congruence|]. rewrite IH; [reflexivity| |intros; apply H; now right]. eauto.
Qed.

(** unknown names raise ValueError, no names RuntimeError; otherwise one tensor (symmetric, equal to half the difference of
    the outer products of its arms, which are unit vectors to 1e-7) and one vertex (6350 to 6380 km from the origin) each *)
Theorem get_ifo_geometry_errors ifos :
  (ifos = [] -> get_ifo_geometry ifos = Err RuntimeError) /\
  ((exists s, In s ifos /\ ~ known_ifo s) -> get_ifo_geometry ifos = Err ValueError).
Proof.
  split; [intros ->; reflexivity|]. intros [s [Hin Hs]]. unfold get_ifo_geometry.
  assert (G : forall a, (exists b, interferometer_geometry a = Ok b) \/ (interferometer_geometry a = Err ValueError)).
  { intros a. unfold interferometer_geometry.
    destruct (string_dec a "H1"); [eauto|]. destruct (string_dec a "L1"); [eauto|]. destruct (string_dec a "V1"); [eauto|].
    destruct (string_dec a "K1"); eauto. }
  rewrite (sequence_err interferometer_geometry ValueError); [reflexivity| |intros; apply G].
  exists s. split; [assumption|]. unfold interferometer_geometry, known_ifo in *. cbn [In] in Hs.
  destruct (string_dec s "H1") as [->|]; [tauto|]. destruct (string_dec s "L1") as [->|]; [tauto|].
  destruct (string_dec s "V1") as [->|]; [tauto|]. destruct (string_dec s "K1") as [->|]; [tauto|]. reflexivity.
Qed.

Theorem get_ifo_geometry_spec ifos : ifos <> [] -> (forall s, In s ifos -> known_ifo s) ->
  exists D V, get_ifo_geometry ifos = Ok (D, V) /\ shape D = [List.length ifos; 3; 3]%nat /\ shape V = [List.length ifos; 3%nat] /\
  forall k, (k < List.length ifos)%nat -> exists X Y : nat -> R,
    (forall i j, (i < 3)%nat -> (j < 3)%nat -> get D [k; i; j] = Some (arm_tensor X Y i j)) /\
    Rabs (dot3 X X - 1) <= 1 / 10 ^ 7 /\ Rabs (dot3 Y Y - 1) <= 1 / 10 ^ 7 /\ Rabs (dot3 X Y) <= 1 / 10 ^ 5 /\
    6350000 ^ 2 <= dot3 (fun i => elt V [k; i]) (fun i => elt V [k; i]) <= 6380000 ^ 2.
Proof.
  intros Hne Hk. unfold get_ifo_geometry.
  set (dflt := (vec3 0 0 0, vec3 0 0 0, vec3 0 0 0)).
  set (g := fun s => match interferometer_geometry s with Ok v => v | Err _ => dflt end).
  assert (Gg : forall s, known_ifo s -> interferometer_geometry s = Ok (g s)).
  { intros s Hs. destruct (geometry_known s Hs) as [x [y [v [E _]]]]. unfold g. rewrite E. reflexivity. }
  rewrite (sequence_map_ok interferometer_geometry g) by (intros; apply Gg, Hk; assumption). cbn [bind].
  rewrite !map_map.
  set (fD := fun s : string => let '(x, y, _) := g s in tmap (fun e => e / 2) (plus_t x y)).
  set (fV := fun s : string => let '(_, _, v) := g s in v).
  assert (SD : forall s, known_ifo s -> shape (fD s) = [3; 3]%nat /\ shape (fV s) = [3%nat]).
  { intros s Hs. destruct (geometry_known s Hs) as [x [y [v [E [Sx [Sy [Sv _]]]]]]]. unfold fD, fV, g. rewrite E.
    unfold plus_t, tzip, outer, tmap; cbn [shape]. rewrite Sx. split; [reflexivity|assumption]. }
  destruct ifos as [|s0 ifos']; [congruence|]. set (ifos := s0 :: ifos') in *.
  assert (ST : forall f sh, (forall s, known_ifo s -> shape (f s : tensor R) = sh) ->
     stack_at0 (map f ifos) = Ok (mk (List.length ifos :: sh) (fun i => elt (nth (hd 0%nat i) (map f ifos) (f s0)) (tl i)))).
  { intros f sh Hf. unfold stack_at0, ifos. cbn [map].
    replace (forallb _ (f s0 :: map f ifos')) with true.
    - cbn [List.length]. rewrite map_length, (Hf s0); [reflexivity|]. apply Hk; now left.
    - symmetry. apply forallb_forall. intros t Ht. change (f s0 :: map f ifos') with (map f ifos) in Ht.
      apply in_map_iff in Ht. destruct Ht as [s [<- Hin]]. rewrite (Hf s (Hk s Hin)), (Hf s0 (Hk s0 (or_introl eq_refl))).
      destruct (list_eq_dec Nat.eq_dec sh sh); congruence. }
  rewrite (ST fD [3; 3]%nat) by (intros; apply SD; assumption). cbn [bind].
  rewrite (ST fV [3%nat]) by (intros; apply SD; assumption). cbn [bind].
  do 2 eexists. split; [reflexivity|]. cbn [shape elt]. split; [reflexivity|]. split; [reflexivity|].
  intros k Hlt. assert (Hin : In (nth k ifos s0) ifos) by (apply nth_In; assumption).
  destruct (geometry_known (nth k ifos s0) (Hk _ Hin)) as [x [y [v [E [Sx [Sy [Sv [N1 [N2 [N3 N4]]]]]]]]]].
  exists (fun i => elt x [i]), (fun i => elt y [i]). repeat split; try assumption.
  - intros i j Hi Hj. rewrite get_inb by (cbn [shape inb]; auto).
    cbn [elt hd tl]. rewrite map_nth. unfold fD at 1, g. rewrite E. cbn. reflexivity.
  - cbn [hd tl]. rewrite map_nth. unfold fV, g. rewrite E. apply N4.
  - cbn [hd tl]. rewrite map_nth. unfold fV, g. rewrite E. apply N4.
Qed.

Lemma Rabs_le_inv a b : Rabs a <= b -> - b <= a <= b.
Proof. intros H. unfold Rabs in H. destruct (Rcase_abs a); lra. Qed.
(** ** bounds on the antenna responses *)
Lemma antenna_arms theta psi phi x y :
  let m := pol_m theta psi phi in let n := pol_n theta psi phi in
  antenna "plus" theta psi phi (arm_tensor x y) = (dot3 m x ^ 2 - dot3 n x ^ 2 - dot3 m y ^ 2 + dot3 n y ^ 2) / 2 /\
  antenna "cross" theta psi phi (arm_tensor x y) = dot3 m x * dot3 n x - dot3 m y * dot3 n y /\
  antenna "breathing" theta psi phi (arm_tensor x y) = (dot3 m x ^ 2 + dot3 n x ^ 2 - dot3 m y ^ 2 - dot3 n y ^ 2) / 2.
Proof.
  intros m n. unfold antenna, pol_tensor, arm_tensor, dot3. cbn [string_dec string_rec string_rect sumbool_rec sumbool_rect Rsum].
  fold m n. repeat split; cbn; field.
Qed.
(** an orthonormal frame is complete: the squared length of a vector is the sum of its squared components *)
Lemma bessel theta psi phi x :
  dot3 (pol_m theta psi phi) x ^ 2 + dot3 (pol_n theta psi phi) x ^ 2 + dot3 (sky_dir theta phi) x ^ 2 = dot3 x x.
Proof.
  unfold dot3, pol_m, pol_n, sky_u, sky_v, sky_dir, v3.
  pose proof (sin2_cos2 theta) as A. pose proof (sin2_cos2 psi) as B0. pose proof (sin2_cos2 phi) as D. unfold Rsqr in *.
  set (st := sin theta) in *; set (ct := cos theta) in *; set (sp := sin psi) in *; set (cp := cos psi) in *;
  set (sf := sin phi) in *; set (cf := cos phi) in *. clearbody st ct sp cp sf cf.
  assert (H : st * st = 1 - ct * ct) by lra. assert (H0 : sp * sp = 1 - cp * cp) by lra. assert (H1 : sf * sf = 1 - cf * cf) by lra.
  ring [H H0 H1].
Qed.
Lemma antenna_arms_bound theta psi phi x y :
  let F m := antenna m theta psi phi (arm_tensor x y) in
  let n2 := (dot3 x x + dot3 y y) / 2 in
  F "plus"%string ^ 2 + F "cross"%string ^ 2 <= n2 ^ 2 /\ Rabs (F "breathing"%string) <= n2.
Proof.
  intros F n2. unfold F, n2. destruct (antenna_arms theta psi phi x y) as [-> [-> ->]].
  pose proof (bessel theta psi phi x) as Bx. pose proof (bessel theta psi phi y) as By.
  set (a := dot3 (pol_m theta psi phi) x) in *. set (b := dot3 (pol_n theta psi phi) x) in *.
  set (c := dot3 (pol_m theta psi phi) y) in *. set (d := dot3 (pol_n theta psi phi) y) in *.
  set (e := dot3 (sky_dir theta phi) x) in *. set (f := dot3 (sky_dir theta phi) y) in *.
  pose proof (pow2_ge_0 e). pose proof (pow2_ge_0 f). pose proof (pow2_ge_0 a). pose proof (pow2_ge_0 b).
  pose proof (pow2_ge_0 c). pose proof (pow2_ge_0 d).
  split.
  - replace (((a ^ 2 - b ^ 2 - c ^ 2 + d ^ 2) / 2) ^ 2 + (a * b - c * d) ^ 2)
      with (((a ^ 2 + b ^ 2 + c ^ 2 + d ^ 2) / 2) ^ 2 - (a * c + b * d) ^ 2) by field.
    pose proof (pow2_ge_0 (a * c + b * d)).
    assert (((a ^ 2 + b ^ 2 + c ^ 2 + d ^ 2) / 2) ^ 2 <= ((dot3 x x + dot3 y y) / 2) ^ 2).
    { apply pow_incr. lra. }
    lra.
  - apply Rabs_le. lra.
Qed.

(** C62: for the built-in detectors, F+^2 + Fx^2 <= (1 + 1e-7)^2 and |Fb| <= 1 + 1e-7 for every source *)
Theorem ifo_antenna_bound ifos theta psi phi B D V r :
  ifos <> [] -> (forall s, In s ifos -> known_ifo s) -> get_ifo_geometry ifos = Ok (D, V) ->
  shape theta = [B] -> shape psi = [B] -> shape phi = [B] ->
  compute_antenna_responses theta psi phi D ["plus"; "cross"; "breathing"]%string = Ok r ->
  forall b k, (b < B)%nat -> (k < List.length ifos)%nat -> exists fp fc fb,
    get r [b; 0%nat; k] = Some fp /\ get r [b; 1%nat; k] = Some fc /\ get r [b; 2%nat; k] = Some fb /\
    fp ^ 2 + fc ^ 2 <= (1 + 1 / 10 ^ 7) ^ 2 /\ Rabs fb <= 1 + 1 / 10 ^ 7.
Proof.
  intros Hne Hk Eg St Ss Sp Er b k Hb Hlt.
  destruct (get_ifo_geometry_spec ifos Hne Hk) as [D' [V' [Eg' [SD [SV G]]]]].
  rewrite Eg in Eg'; injection Eg' as <- <-.
  assert (K : forall mode, In mode ["plus"; "cross"; "breathing"]%string -> known_mode mode).
  { unfold known_mode. cbn. intros mode [H|[H|[H|[]]]]; auto. }
  destruct (antenna_responses_spec theta psi phi D ["plus"; "cross"; "breathing"]%string B (List.length ifos) St Ss Sp SD ltac:(discriminate) K) as [r' [E' [_ Ga]]].
  rewrite Er in E'; injection E' as <-.
  destruct (G k Hlt) as [X [Y [GD [NX [NY _]]]]].
  exists (antenna "plus" (elt theta [b]) (elt psi [b]) (elt phi [b]) (arm_tensor X Y)),
         (antenna "cross" (elt theta [b]) (elt psi [b]) (elt phi [b]) (arm_tensor X Y)),
         (antenna "breathing" (elt theta [b]) (elt psi [b]) (elt phi [b]) (arm_tensor X Y)).
  assert (AE : forall mode, antenna mode (elt theta [b]) (elt psi [b]) (elt phi [b]) (fun x y => elt D [k; x; y])
             = antenna mode (elt theta [b]) (elt psi [b]) (elt phi [b]) (arm_tensor X Y)).
  { intros mode. unfold antenna. apply Rsum_ext; intros x Hx; apply Rsum_ext; intros y Hy.
    specialize (GD x y Hx Hy). apply get_some in GD. destruct GD as [_ ->]. reflexivity. }
  rewrite (Ga b 0%nat k _ Hb Hlt eq_refl), (Ga b 1%nat k _ Hb Hlt eq_refl), (Ga b 2%nat k _ Hb Hlt eq_refl), !AE.
  do 3 (split; [reflexivity|]).
  destruct (antenna_arms_bound (elt theta [b]) (elt psi [b]) (elt phi [b]) X Y) as [P Q].
  apply Rabs_le_inv in NX. apply Rabs_le_inv in NY.
  assert (PX : 0 <= dot3 X X) by lra. assert (PY : 0 <= dot3 Y Y) by lra.
  split.
  - eapply Rle_trans; [exact P|]. apply pow_incr. lra.
  - lra.
Qed.
Example ifo_example : known_ifo "H1" /\ known_ifo "K1" /\ ~ known_ifo "G1".
Proof. unfold known_ifo. cbn. repeat split; auto. intros [H|[H|[H|[H|[]]]]]; discriminate. Qed.
