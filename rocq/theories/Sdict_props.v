(** Property C114: what the state dicts of the remaining modules carry. *)
From Coq Require Import String.
From Coquelicot Require Import Complex.
From Verif Require Import Base Tensor Rutil Slicing_model Streaming_model Oavg_props Norm_model Dft Spectral_model Gw_model Linsolve Spline_model Trans_model Iir_model Wsamp_model Fit_model Fit_props Ckpt_model Ckpt_props Ifo_props Sdict_model.
Local Open Scope R_scope.

(** ** loading in general *)
Lemma assoc_In {V} n (l : list (string * V)) v : assoc n l = Some v -> In (n, v) l.
Proof. induction l as [|[m u] l IH]; cbn [assoc]; [discriminate|]. destruct (string_dec n m) as [->|]; [intros E; injection E as ->; left; reflexivity|right; auto]. Qed.
(** a strict load succeeds exactly when every buffer has a value of its shape in the dictionary and the dictionary has nothing else;
    otherwise it raises RuntimeError *)
Theorem load_ok_iff {A} (st : fit A) sd :
  (snd (load st true sd) = Ok tt <->
    (forall n u, In (n, u) (bufs st) -> exists v, assoc n sd = Some v /\ shape v = shape u) /\
    (forall n v, In (n, v) sd -> exists u, In (n, u) (bufs st))) /\
  (snd (load st true sd) <> Ok tt -> snd (load st true sd) = Err RuntimeError).
Proof.
  unfold load. cbn [snd]. cbn [andb]. destruct (existsb (mismatch sd) (bufs st)) eqn:E1.
  { cbn [orb]. split; [|reflexivity]. split; [discriminate|]. intros [H _]. apply existsb_exists in E1. destruct E1 as ([n u] & Hin & Hm).
    destruct (H n u Hin) as (v & Hv & Hs). unfold mismatch in Hm. cbn [fst snd] in Hm. rewrite Hv in Hm. destruct (list_eq_dec _ _ _); congruence. }
  destruct (existsb (fun nb : string * tensor A => match assoc (fst nb) sd with Some _ => false | None => true end) (bufs st)) eqn:E2.
  { cbn [orb]. split; [|reflexivity]. split; [discriminate|]. intros [H _]. apply existsb_exists in E2. destruct E2 as ([n u] & Hin & Hm).
    destruct (H n u Hin) as (v & Hv & Hs). cbn [fst] in Hm. rewrite Hv in Hm. discriminate. }
  destruct (existsb (fun nv : string * tensor A => match assoc (fst nv) (bufs st) with Some _ => false | None => true end) sd) eqn:E3.
  { cbn [orb]. split; [|reflexivity]. split; [discriminate|]. intros [_ H]. apply existsb_exists in E3. destruct E3 as ([n v] & Hin & Hm).
    destruct (H n v Hin) as (u & Hu). cbn [fst] in Hm. apply (in_map fst) in Hu. cbn [fst] in Hu. clear -Hm Hu.
    induction (bufs st) as [|[m w] l IH]; [destruct Hu|]. cbn [assoc] in Hm. destruct (string_dec n m) as [->|N]; [discriminate|].
    destruct Hu as [Hu|Hu]; [cbn in Hu; congruence|auto]. }
  cbn [orb]. split; [|congruence]. split; [intros _|reflexivity]. split.
  - intros n u Hin. assert (M1 : mismatch sd (n, u) = false).
    { destruct (mismatch sd (n, u)) eqn:M; [|reflexivity]. rewrite <- not_true_iff_false in E1. exfalso. apply E1. apply existsb_exists. eauto. }
    assert (M2 : match assoc n sd with Some _ => false | None => true end = false).
    { destruct (match assoc n sd with Some _ => false | None => true end) eqn:M; [|reflexivity]. rewrite <- not_true_iff_false in E2. exfalso. apply E2. apply existsb_exists. exists (n, u). auto. }
    unfold mismatch in M1. cbn [fst snd] in M1. destruct (assoc n sd) as [v|]; [|discriminate]. exists v. split; [reflexivity|]. destruct (list_eq_dec _ _ _); congruence.
  - intros n v Hin. destruct (assoc n (bufs st)) as [u|] eqn:M; [exists u; apply assoc_In, M|]. exfalso. rewrite <- not_true_iff_false in E3. apply E3. apply existsb_exists.
    exists (n, v). cbn [fst]. rewrite M. auto.
Qed.
Ltac nodup := repeat (constructor; [cbn; intuition discriminate|]); constructor.

(** ** WaveformProjector *)
Lemma geometry_shapes ifos D V : get_ifo_geometry ifos = Ok (D, V) -> shape D = [List.length ifos; 3; 3]%nat /\ shape V = [List.length ifos; 3%nat].
Proof.
  intros E. destruct ifos as [|f fs]; [rewrite (proj1 (get_ifo_geometry_errors []) eq_refl) in E; discriminate|].
  assert (K : forall s, In s (f :: fs) -> known_ifo s).
  { intros s Hs. unfold known_ifo. destruct (in_dec string_dec s ["H1"; "L1"; "V1"; "K1"]%string) as [I|I]; [exact I|].
    rewrite (proj2 (get_ifo_geometry_errors (f :: fs))) in E; [discriminate|]. exists s. split; [exact Hs|exact I]. }
  destruct (get_ifo_geometry_spec (f :: fs)) as (D' & V' & E' & SD & SV & _); [discriminate|exact K|]. rewrite E' in E. injection E as <- <-. auto.
Qed.
(** the state of a projector, loaded in another: with the same number of detectors it becomes the projector of the saved detectors, at its
    own sample rate, whatever detectors it was made for; with another number RuntimeError is raised and nothing changes *)
Theorem projector_checkpoint ifos sr m ifos' sr' m' : proj_create ifos sr = Ok m -> proj_create ifos' sr' = Ok m' ->
  let r := proj_load m' true (proj_state m) in
  (List.length ifos = List.length ifos' -> snd r = Ok tt /\ proj_create ifos sr' = Ok (fst r)) /\
  (List.length ifos <> List.length ifos' -> r = (m', Err RuntimeError)).
Proof.
  intros E E' r. unfold proj_create in *. apply bind_ok in E, E'. destruct E as ([D V] & EG & E), E' as ([D' V'] & EG' & E').
  injection E as <-. injection E' as <-. destruct (geometry_shapes _ _ _ EG) as [SD SV]. destruct (geometry_shapes _ _ _ EG') as [SD' SV'].
  split; intros HL; unfold r, proj_load.
  - change (proj_state (mkproj sr D V)) with (bufs (mkfit (proj_state (mkproj sr D V)) true)).
    rewrite load_self; [|unfold shapes; cbn [bufs proj_state map fst snd pj_D pj_V]; rewrite SD, SV, SD', SV', HL; reflexivity|cbn; nodup].
    cbn [fst snd]. split; [reflexivity|]. rewrite EG. reflexivity.
  - unfold load, proj_state, load_one, mismatch, buf. cbn [bufs built map existsb fst snd assoc pj_D pj_V pj_sr]. sdec. rewrite SD, SV, SD', SV'.
    destruct (list_eq_dec Nat.eq_dec [List.length ifos; 3; 3]%nat _) as [Q|_]; [congruence|]. destruct (list_eq_dec Nat.eq_dec [List.length ifos; 3]%nat _) as [Q|_]; [congruence|].
    cbn [orb assoc]. sdec; reflexivity.
Qed.

(** ** WaveformSampler: nothing is saved *)
Theorem sampler_checkpoint {A} (m m' : wsampler A) : ws_load m' true (ws_state m) = (m', Ok tt).
Proof. reflexivity. Qed.

(** ** IIRFilter *)
Lemma unvec_vec1 l : unvec (vec1 l) = l.
Proof. unfold unvec, vec1. cbn [shape hd elt]. induction l as [|x l IH]; [reflexivity|]. cbn [List.length seq map nth]. f_equal. rewrite <- seq_shift, map_map. exact IH. Qed.
(** the filter given by the coefficients (b, a), loaded in one given by (b', a'): if the numbers of coefficients agree it becomes the saved
    filter; otherwise RuntimeError is raised, and each of the two vectors is nevertheless replaced if its length agrees *)
Theorem iir_checkpoint b a b' a' :
  let m := mkiir (vec1 b) (vec1 a) in let m' := mkiir (vec1 b') (vec1 a') in let r := iir_load m' true (iir_state m) in
  (forall x, iir_call m x = iir_forward a b x) /\
  (List.length b = List.length b' -> List.length a = List.length a' -> r = (m, Ok tt)) /\
  (~ (List.length b = List.length b' /\ List.length a = List.length a') -> snd r = Err RuntimeError /\
     fst r = mkiir (vec1 (if (List.length b =? List.length b')%nat then b else b')) (vec1 (if (List.length a =? List.length a')%nat then a else a'))).
Proof.
  intros m m' r. split; [|split].
  - intros x. unfold iir_call, m. cbn [ii_a ii_b]. rewrite !unvec_vec1. reflexivity.
  - intros E1 E2. unfold r, iir_load. change (iir_state m) with (bufs (mkfit (iir_state m) true)).
    rewrite load_self; [|unfold shapes, m, m', iir_state, vec1; cbn [bufs map fst snd shape ii_a ii_b]; rewrite E1, E2; reflexivity|cbn; nodup]. reflexivity.
  - intros NE. unfold r, iir_load, load, iir_state, load_one, mismatch, buf, m, m'. cbn [bufs built map existsb fst snd assoc ii_a ii_b]. sdec.
    change (shape (vec1 b)) with [List.length b]. change (shape (vec1 b')) with [List.length b']. change (shape (vec1 a)) with [List.length a]. change (shape (vec1 a')) with [List.length a'].
    destruct (list_eq_dec Nat.eq_dec [List.length b] [List.length b']) as [Q1|Q1], (list_eq_dec Nat.eq_dec [List.length a] [List.length a']) as [Q2|Q2];
      try (injection Q1 as Q1); try (injection Q2 as Q2); cbn [orb assoc fst snd]; sdec.
    all: try (exfalso; apply NE; split; assumption).
    all: split; [reflexivity|]; f_equal; f_equal; match goal with |- context [(?u =? ?v)%nat] => destruct (Nat.eqb_spec u v); congruence end.
Qed.

(** ** Heterodyne *)
(** the saved phases, loaded in a transform with as many masses and frequency bins: it heterodynes with the saved phases at its own sample
    rate and with its own return type; it is then the transform of the saved masses, if the kernels agree.  With another number of masses or
    bins RuntimeError is raised and nothing changes. *)
Theorem heterodyne_checkpoint mtsun sr kl cm rt m sr' kl' cm' rt' m' : het_create mtsun sr kl cm rt = Ok m -> het_create mtsun sr' kl' cm' rt' = Ok m' ->
  let r := het_load m' true (het_state m) in
  let same := shape cm = shape cm' /\ (rtrunc (kl * sr) / 2 = rtrunc (kl' * sr') / 2)%Z in
  (same -> r = (mkhet sr' (ht_phase m) (ht_kind m'), Ok tt) /\
     (sr = sr' -> rtrunc (kl * sr) = rtrunc (kl' * sr') -> het_create mtsun sr' kl' cm rt' = Ok (fst r))) /\
  (~ same -> r = (m', Err RuntimeError)).
Proof.
  intros E E' r same.
  assert (G : forall s k c t mm, het_create mtsun s k c t = Ok mm -> (0 < rtrunc (k * s))%Z /\ exists M, shape c = [M] /\ shape (ht_phase mm) = [M; Z.to_nat (rtrunc (k * s) / 2 + 1)] /\ ht_sr mm = s).
  { clear. intros s k c t mm. unfold het_create. destruct (shape c) as [|M [|? ?]]; try discriminate. destruct (Z.leb_spec (rtrunc (k * s)) 0) as [|P]; [discriminate|].
    intros E. split; [exact P|]. exists M. assert (B : rbins (Z.to_nat (rtrunc (k * s))) = Z.to_nat (rtrunc (k * s) / 2 + 1)).
    { unfold rbins. rewrite <- (Z2Nat.id (rtrunc (k * s))) at 2 by lia. generalize (Z.to_nat (rtrunc (k * s))). intros n. change 2%Z with (Z.of_nat 2). rewrite <- Nat2Z.inj_div. lia. }
    rewrite <- B. repeat destruct (string_dec t _) in E; try discriminate; injection E as <-; auto. }
  destruct (G _ _ _ _ _ E) as (P & M & S1 & S2 & S3). destruct (G _ _ _ _ _ E') as (P' & M' & S1' & S2' & S3'). clear G.
  assert (SS : same <-> shape (ht_phase m) = shape (ht_phase m')).
  { unfold same. rewrite S1, S1', S2, S2'. split; [intros [Q1 Q2]; congruence|]. intros Q. injection Q as Q1 Q2. split; [congruence|].
    assert (0 <= rtrunc (kl * sr) / 2)%Z by (apply Z.div_pos; lia). assert (0 <= rtrunc (kl' * sr') / 2)%Z by (apply Z.div_pos; lia). lia. }
  split.
  - intros HS. apply SS in HS.
    assert (ER : r = (mkhet sr' (ht_phase m) (ht_kind m'), Ok tt)).
    { unfold r, het_load. change (het_state m) with (bufs (mkfit (het_state m) true)).
      rewrite load_self; [|unfold shapes, het_state; cbn [bufs map fst snd]; rewrite HS; reflexivity|cbn; nodup]. rewrite S3'. reflexivity. }
    split; [exact ER|]. intros E1 E2. rewrite ER. cbn [fst]. clear -E E' E1 E2. unfold het_create in *. rewrite E1 in E2.
    rewrite <- E2. rewrite E1 in E. destruct (shape cm) as [|M [|? ?]]; try discriminate. destruct (rtrunc (kl * sr') <=? 0)%Z; [discriminate|].
    destruct (shape cm') as [|M' [|? ?]]; try discriminate. destruct (rtrunc (kl' * sr') <=? 0)%Z; [discriminate|].
    repeat destruct (string_dec rt _) in E; repeat destruct (string_dec rt' _) in E'; try discriminate; injection E as <-; injection E' as <-; subst;
      repeat match goal with |- context [string_dec ?a ?b] => destruct (string_dec a b); try congruence end; reflexivity.
  - intros HS. rewrite SS in HS. unfold r, het_load, load, het_state, load_one, mismatch, buf. cbn [bufs built map existsb fst snd assoc]. sdec.
    destruct (list_eq_dec Nat.eq_dec (shape (ht_phase m)) (shape (ht_phase m'))) as [Q|_]; [contradiction|]. cbn [orb assoc]. sdec; destruct m'; reflexivity.
Qed.

(** ** TophatIntegrator: loading the state of any other integrator changes nothing; it succeeds when the windows are equally long *)
Theorem tophat_checkpoint W W' :
  fst (toph_load (toph_new W') true (toph_state (toph_new W))) = toph_new W' /\ snd (toph_load (toph_new W') true (toph_state (toph_new W))) = if (W =? W')%nat then Ok tt else Err RuntimeError.
Proof.
  unfold toph_load, load, toph_state, load_one, mismatch, buf, toph_new. cbn [bufs built map existsb fst snd assoc to_win to_W shape]. sdec.
  destruct (Nat.eqb_spec W W') as [->|N].
  - destruct (list_eq_dec Nat.eq_dec _ _) as [_|Q]; [|exfalso; apply Q; reflexivity]. cbn [orb andb assoc fst snd]. sdec; split; reflexivity.
  - destruct (list_eq_dec Nat.eq_dec _ _) as [Q|_]; [cbn in Q; congruence|]. cbn [orb assoc fst snd]. sdec; split; reflexivity.
Qed.

(** ** OnlineAverager: its three buffers are determined by their shapes, so that loading the state of any other averager changes no value;
    neither the running state nor the offset is in the state dict *)
Definition same_values {A} (x y : tensor A) : Prop := shape x = shape y /\ forall i, inb i (shape x) -> elt x i = elt y i.
Theorem averager_checkpoint u b n c off m u' b' n' c' off' m' : (0 < u)%nat -> (0 < b)%nat -> (0 < n)%nat -> (0 < c)%nat -> (0 < u')%nat -> (0 < b')%nat -> (0 < n')%nat -> (0 < c')%nat ->
  oa_create u b n c off = Ok m -> oa_create u' b' n' c' off' = Ok m' ->
  (shape (oa_blank m) = shape (oa_blank m') -> same_values (oa_blank m) (oa_blank m')) /\
  (shape (oa_blank m) = shape (oa_blank m') -> shape (oa_idx m) = shape (oa_idx m') -> same_values (oa_idx m) (oa_idx m') /\ same_values (oa_weights m) (oa_weights m')).
Proof.
  intros Hu Hb Hn Hc Hu' Hb' Hn' Hc' E E'. destruct (oa_create_inv u b n c off m Hu Hb Hn Hc E) as (w & -> & SW & VW). destruct (oa_create_inv u' b' n' c' off' m' Hu' Hb' Hn' Hc' E') as (w' & -> & SW' & VW').
  cbn [oa_blank oa_idx oa_weights]. unfold same_values. cbn [shape elt]. split; [auto|]. intros E1 E2. injection E1 as <- <- E3. injection E2 as E2. unfold oa_state_size in E3.
  assert (KU : forall k, (k < b)%nat -> (k * u = k * u')%nat).
  { intros k Hk. destruct (Nat.eq_dec b 1) as [->|NB]; [replace k with 0%nat by lia; reflexivity|]. f_equal. assert ((b - 1) * u = (b - 1) * u')%nat by nia. nia. }
  split; [split|]; [congruence| |].
  - intros i Hi. apply inb_length in Hi as Hl. destruct i as [|k [|l [|j [|? ?]]]]; try discriminate Hl. destruct Hi as [H1 _]. do 2 f_equal. apply KU. exact H1.
  - split; [congruence|]. rewrite SW. intros i Hi. apply inb_length in Hi as Hl. destruct i as [|k [|l [|j [|? ?]]]]; try discriminate Hl. destruct Hi as (H1 & H2 & H3 & _).
    rewrite VW, VW' by (rewrite <- ?E2; assumption). unfold wsum. rewrite (KU k H1). apply Rsum_ext. intros q Hq. unfold covers. rewrite (KU q Hq), E2. reflexivity.
Qed.

(** ** SpectralDensity *)
(** window and normalisation are the saved ones, stride, average and method its own; windows of another length: RuntimeError, and the
    transform keeps its window while its normalisation is replaced *)
Theorem spectral_density_checkpoint_other m m' :
  let r := sd_load m' true (sd_state m) in
  (shape (sd_win m) = shape (sd_win m') -> r = (mksd (sd_n m') (sd_stride m') (sd_win m) (sd_scale m) (sd_avg m') (sd_fast m'), Ok tt)) /\
  (shape (sd_win m) <> shape (sd_win m') -> r = (mksd (sd_n m') (sd_stride m') (sd_win m') (sd_scale m) (sd_avg m') (sd_fast m'), Err RuntimeError)).
Proof.
  intros r. unfold r, sd_load, load, sd_state, load_one, mismatch. cbn [bufs built map existsb fst snd assoc shape]. sdec.
  destruct (list_eq_dec Nat.eq_dec [] []) as [_|Q]; [|congruence].
  split; intros HS; (destruct (list_eq_dec Nat.eq_dec (shape (sd_win m)) (shape (sd_win m'))) as [Q|Q]; [|]); try contradiction; cbn [orb andb assoc fst snd]; sdec; reflexivity.
Qed.

(** ** Decimator *)
Lemma sched_back (l : list row) : map (fun r => mkrow (as_r (inl (r_start (nth r l (mkrow 0 0 0))))) (as_r (inl (r_end (nth r l (mkrow 0 0 0))))) (as_r (inl (r_rate (nth r l (mkrow 0 0 0)))))) (seq 0 (List.length l)) = l.
Proof.
  induction l as [|x l IH]; [reflexivity|]. cbn [List.length seq map nth as_r] in *. f_equal; [destruct x; reflexivity|]. rewrite <- seq_shift, map_map. exact IH.
Qed.
Lemma idx_back (l : list Z) : map (fun k => nth k l 0%Z) (seq 0 (List.length l)) = l.
Proof. induction l as [|x l IH]; [reflexivity|]. cbn [List.length seq map nth]. f_equal. rewrite <- seq_shift, map_map. exact IH. Qed.
(** the schedule and the indices are the saved ones; sample rate, split and the expected length its own *)
Theorem decimator_checkpoint m m' :
  let r := dec_load m' true (dec_state m) in
  let rows := List.length (dc_sched m) = List.length (dc_sched m') in let points := List.length (dc_idx m) = List.length (dc_idx m') in
  (rows -> points -> r = (mkdec (dc_sr m') (dc_sched m) (dc_split m') (dc_idx m) (dc_len m'), Ok tt)) /\
  (~ (rows /\ points) -> snd r = Err RuntimeError /\
     fst r = mkdec (dc_sr m') (if (List.length (dc_sched m) =? List.length (dc_sched m'))%nat then dc_sched m else dc_sched m') (dc_split m')
               (if (List.length (dc_idx m) =? List.length (dc_idx m'))%nat then dc_idx m else dc_idx m') (dc_len m')) /\
  (dc_sr m = dc_sr m' -> dc_split m = dc_split m' -> dc_len m = dc_len m' -> rows -> points -> r = (m, Ok tt)).
Proof.
  intros r rows points.
  assert (RB : forall mm, map (fun r0 => mkrow (as_r (elt (snd (nth 0 (dec_state mm) (""%string, mk [] (fun _ => inl 0)))) [r0; 0]%nat)) (as_r (elt (snd (nth 0 (dec_state mm) (""%string, mk [] (fun _ => inl 0)))) [r0; 1]%nat))
       (as_r (elt (snd (nth 0 (dec_state mm) (""%string, mk [] (fun _ => inl 0)))) [r0; 2]%nat))) (seq 0 (List.length (dc_sched mm))) = dc_sched mm) by (intros mm; apply sched_back).
  assert (IB : forall mm, map (fun k => as_z (elt (snd (nth 1 (dec_state mm) (""%string, mk [] (fun _ => inl 0)))) [k])) (seq 0 (List.length (dc_idx mm))) = dc_idx mm) by (intros mm; apply idx_back).
  assert (G : r = (mkdec (dc_sr m') (if (List.length (dc_sched m) =? List.length (dc_sched m'))%nat then dc_sched m else dc_sched m') (dc_split m')
               (if (List.length (dc_idx m) =? List.length (dc_idx m'))%nat then dc_idx m else dc_idx m') (dc_len m'),
               if ((List.length (dc_sched m) =? List.length (dc_sched m')) && (List.length (dc_idx m) =? List.length (dc_idx m')))%nat then Ok tt else Err RuntimeError)).
  { pose proof (RB m) as RB1. pose proof (RB m') as RB2. pose proof (IB m) as IB1. pose proof (IB m') as IB2. clear RB IB.
    unfold r, dec_load, load, load_one, mismatch. unfold dec_state in *. cbn [bufs built map existsb fst snd assoc shape nth elt hd] in *. sdec. cbn [shape].
    destruct (list_eq_dec Nat.eq_dec [List.length (dc_sched m); 3%nat] _) as [Q1|Q1], (list_eq_dec Nat.eq_dec [List.length (dc_idx m)] _) as [Q2|Q2];
      cbn [orb andb assoc fst snd shape hd elt]; sdec;
      destruct (Nat.eqb_spec (List.length (dc_sched m)) (List.length (dc_sched m'))) as [P1|P1], (Nat.eqb_spec (List.length (dc_idx m)) (List.length (dc_idx m'))) as [P2|P2];
      try congruence; cbn [shape hd elt andb]; try reflexivity.
    all: f_equal; f_equal; assumption. }
  split; [|split].
  - intros H1 H2. unfold rows, points in *. rewrite G, H1, H2, !Nat.eqb_refl. reflexivity.
  - intros H. rewrite G. cbn [fst snd]. split; [|reflexivity]. unfold rows, points in H.
    destruct (Nat.eqb_spec (List.length (dc_sched m)) (List.length (dc_sched m'))) as [P1|P1], (Nat.eqb_spec (List.length (dc_idx m)) (List.length (dc_idx m'))) as [P2|P2]; cbn [andb]; tauto.
  - intros E1 E2 E3 H1 H2. unfold rows, points in *. rewrite G, H1, H2, !Nat.eqb_refl. destruct m. cbn in *. subst. reflexivity.
Qed.
(** a state that is accepted and after which every input is refused: a schedule of 4 s at 1 Hz loaded in a decimator for 2 s at 2 Hz *)
Lemma rtr (z : Z) (r : R) : r = IZR z -> (0 <= z)%Z -> rtrunc r = z.
Proof. intros -> Hz. unfold rtrunc. destruct (Rle_dec 0 (IZR z)) as [_|N]; [|apply IZR_le in Hz; lra]. apply Int_part_unique. split; lra. Qed.
Theorem decimator_checkpoint_refuted : exists m m',
  dec_create 4 [mkrow 0 4 1] false = Ok m /\ dec_create 4 [mkrow 0 2 2] false = Ok m' /\ snd (dec_load m' true (dec_state m)) = Ok tt /\ forall A (x : tensor A), exists e, dec_forward (fst (dec_load m' true (dec_state m))) x = Err e.
Proof.
  assert (C1 : dec_create 4 [mkrow 0 4 1] false = Ok (mkdec 4 [mkrow 0 4 1] false [0; 4; 8; 12]%Z 16)).
  { unfold dec_create, dec_validate, dec_indices, overlaps, dec_step. cbn [forallb existsb r_start r_end r_rate combine tl andb negb rev bind last].
    destruct (Rlt_dec 0 4) as [_|N]; [|lra]. rewrite (rtr 1), (rtr 0) by (lra || lia). change (1 =? 0)%Z with false. change (4 mod 1 =? 0)%Z with true. cbn [negb andb orb bind].
    rewrite (rtr 16 (IZR 0 + _)) by (lra || lia). rewrite (rtr 16) by (lra || lia). replace (Int_part (4 / 1)) with 4%Z by (symmetry; apply Int_part_unique; split; lra). reflexivity. }
  assert (C2 : dec_create 4 [mkrow 0 2 2] false = Ok (mkdec 4 [mkrow 0 2 2] false [0; 2; 4; 6]%Z 8)).
  { unfold dec_create, dec_validate, dec_indices, overlaps, dec_step. cbn [forallb existsb r_start r_end r_rate combine tl andb negb rev bind last].
    destruct (Rlt_dec 0 2) as [_|N]; [|lra]. rewrite (rtr 2), (rtr 0) by (lra || lia). change (2 =? 0)%Z with false. change (4 mod 2 =? 0)%Z with true. cbn [negb andb orb bind].
    rewrite (rtr 8 (IZR 0 + _)) by (lra || lia). rewrite (rtr 8) by (lra || lia). replace (Int_part (4 / 2)) with 2%Z by (symmetry; apply Int_part_unique; split; lra). reflexivity. }
  do 2 eexists. split; [exact C1|]. split; [exact C2|].
  destruct (decimator_checkpoint (mkdec 4 [mkrow 0 4 1] false [0; 4; 8; 12]%Z 16) (mkdec 4 [mkrow 0 2 2] false [0; 2; 4; 6]%Z 8)) as (H & _). rewrite H by reflexivity.
  cbn [fst snd]. split; [reflexivity|]. intros A x. unfold dec_forward. cbn [dc_len dc_split dc_idx dc_sr dc_sched].
  destruct (Z.eqb_spec (Z.of_nat (last (shape x) 0%nat)) 8) as [E|E]; cbn [negb]; [|eexists; reflexivity].
  unfold index_select_last. rewrite E. cbn. eexists; reflexivity.
Qed.

(** ** SplineInterpolate1D *)
(** the buffers and attributes of the interpolator m of Spline_model *)
Definition sb_of (m : spline1) : sbuf :=
  let n := List.length (s1_x m) in let t := fit_knots (s1_x m) (s1_k m) in
  mksb (s1_k m) (vec1 (s1_x m)) (option_map vec1 (s1_xout m)) (vec1 t) (mat n n (bmat t (s1_k m) (s1_x m))) (mat n n (gram n (bmat t (s1_k m) (s1_x m)) (s1_s m)))
    (option_map (fun rb => mat (fst rb) n (snd rb)) (s1_B m)).
Lemma pad_ndim4_shape (Z : tensor R) n : (1 <= ndim Z <= 4)%nat -> last (shape Z) 0%nat = n -> exists b c h, shape (pad_ndim4 Z) = [b; c; h; n].
Proof.
  unfold pad_ndim4, ndim. destruct Z as [sh f]. cbn [shape].
  destruct sh as [|a [|b [|c [|d [|e sh]]]]]; cbn [List.length]; intros H E; try lia; cbn [last unsqueeze0 shape] in *; subst; eauto.
Qed.
(** this representation computes what the model of the interpolator (spline1_create, spline1_forward) computes *)
Theorem sb_refines x k s xo : sb_create x k s xo = rmap sb_of (spline1_create x k s xo).
Proof. unfold sb_create, spline1_create, rmap. destruct (_ <? _)%nat; [reflexivity|]. destruct xo; reflexivity. Qed.
Theorem sb_forward_refines m Z xo : sb_forward (sb_of m) Z xo = (fst (spline1_forward m Z xo), sb_of (snd (spline1_forward m Z xo))).
Proof.
  unfold sb_forward, spline1_forward, validate1. cbn [sb_xout sb_of sb_xin vec1 shape hd].
  destruct m as [sx sk ss sxo sB]. cbn [s1_x s1_k s1_s s1_xout s1_B] in *.
  destruct (4 <? ndim Z)%nat eqn:N4; [destruct xo, sxo; reflexivity|]. destruct (ndim Z =? 0)%nat eqn:N0; [destruct xo, sxo; reflexivity|].
  destruct (Nat.eqb_spec (last (shape Z) 0%nat) (List.length sx)) as [EL|EL]; cbn [negb]; [|destruct xo, sxo; reflexivity].
  destruct (pad_ndim4_shape Z (List.length sx)) as (b & c & h & SP); [apply Nat.ltb_ge in N4; apply Nat.eqb_neq in N0; lia|exact EL|].
  destruct xo as [xs|]; [destruct sxo as [ys|]|destruct sxo as [ys|]; [destruct sB as [[rows Bo]|]|]];
    cbn [option_map sb_Bout sb_G sb_Bx sb_of s1_x s1_k s1_s s1_xout s1_B sb_k sb_tx sb_xin sb_xout fst snd]; cbv zeta; try rewrite SP; try rewrite unvec_vec1; try reflexivity;
    unfold fit1; cbn [option_map sb_Bout sb_G sb_Bx sb_of s1_x s1_k s1_s s1_xout s1_B sb_k sb_tx sb_xin sb_xout fst snd elt mat shape hd];
    (destruct (gsolve _ _ (fun i => Rsum _ (fun j => _ * 0))); [|destruct (b * c * h =? 0)%nat]; reflexivity).
Qed.
(** what calls do to it: only an override of the output coordinates that passes validation has an effect, on Bx_out *)
Definition accepted (n : nat) (Z : tensor R) : bool := ((1 <=? ndim Z) && (ndim Z <=? 4) && (last (shape Z) 0 =? n))%nat.
(** the output coordinates of the last accepted override, or those of the construction *)
Fixpoint last_out (n : nat) (cur : option (list R)) (h : list (tensor R * option (list R))) : option (list R) :=
  match h with [] => cur | (Z, xo) :: h' => last_out n (match xo with Some xs => if accepted n Z then Some xs else cur | None => cur end) h' end.
Definition with_out (m : sbuf) (n : nat) (t : list R) (o : option (list R)) : sbuf :=
  mksb (sb_k m) (sb_xin m) (sb_xout m) (sb_tx m) (sb_Bx m) (sb_G m) (option_map (fun xs => mat (List.length xs) n (out_matrix t (sb_k m) xs)) o).
Theorem spline_history x k s xo m0 h : sb_create x k s xo = Ok m0 ->
  sb_run m0 h = with_out m0 (List.length x) (fit_knots x k) (last_out (List.length x) xo h).
Proof.
  unfold sb_create. destruct (_ <? _)%nat; [discriminate|]. intros E. injection E as E.
  assert (G : forall o, sb_run (with_out m0 (List.length x) (fit_knots x k) o) h = with_out m0 (List.length x) (fit_knots x k) (last_out (List.length x) o h)).
  { induction h as [|[Z zo] h IH]; intros o; [reflexivity|]. cbn [sb_run last_out]. rewrite <- IH. f_equal. clear IH.
    unfold sb_forward. subst m0. cbn [with_out sb_xout sb_xin vec1 shape hd sb_k sb_tx sb_Bx sb_G sb_Bout]. rewrite unvec_vec1. unfold accepted.
    assert (T : forall (P : option (tensor R)) (Z : tensor R) mm, snd (match shape Z, P with
        | [b; c; h; n], Some Bout =>
          match gsolve n (fun i j => elt (sb_G mm) [i; j]) (fun i => Rsum n (fun j => elt (sb_Bx mm) [j; i] * 0)), (b * c * h =? 0)%nat with
          | None, false => (Err RuntimeError, mm)
          | _, _ => (Ok (mk [b; c; h; hd 0%nat (shape Bout)] (fun i => match i with
             | [p; q; r; o] => Rsum n (fun j => elt Bout [o; j] * coef_or0 (gsolve n (fun i j => elt (sb_G mm) [i; j]) (fun i => Rsum n (fun j => elt (sb_Bx mm) [j; i] * elt Z [p; q; r; j]))) j)
             | _ => 0 end)), mm)
          end
        | _, _ => (Err RuntimeError, mm) end) = mm).
    { intros P W mm. destruct (shape W) as [|? [|? [|? [|? [|? ?]]]]]; try reflexivity. destruct P; [|reflexivity]. destruct (gsolve _ _ _); [reflexivity|]. destruct (_ =? 0)%nat; reflexivity. }
    destruct (Nat.leb_spec 1 (ndim Z)) as [L1|L1], (Nat.ltb_spec 4 (ndim Z)) as [L4|L4]; try lia.
    - replace (ndim Z <=? 4)%nat with false by (symmetry; apply Nat.leb_gt; lia). cbn [andb]. destruct zo, xo; reflexivity.
    - replace (ndim Z <=? 4)%nat with true by (symmetry; apply Nat.leb_le; lia). replace (ndim Z =? 0)%nat with false by (symmetry; apply Nat.eqb_neq; lia). cbn [andb].
      destruct (last (shape Z) 0 =? List.length x)%nat; cbn [negb]; [|destruct zo, xo; reflexivity].
      destruct zo as [zs|]; [|destruct xo as [xs|]; [|reflexivity]]; (try destruct xo; cbn [option_map]; cbv zeta; rewrite T; reflexivity).
    - replace (ndim Z =? 0)%nat with true by (symmetry; apply Nat.eqb_eq; lia). cbn [andb]. destruct zo, xo; reflexivity. }
  rewrite <- G. f_equal. subst m0. destruct xo; reflexivity.
Qed.
Lemma fit_knots_length x k : (k + 2 <= List.length x)%nat -> List.length (fit_knots x k) = (List.length x + k + 1)%nat.
Proof. intros H. unfold fit_knots. rewrite !app_length, !repeat_length, map_length, seq_length. lia. Qed.
(** output coordinates of a saved module: at construction, after the last override; and of the module loaded into *)
Definition outs_agree (made now other : option (list R)) : Prop :=
  match made, now, other with
  | Some xs, Some ys, Some xs' => List.length xs = List.length xs' /\ List.length ys = List.length xs'
  | None, _, None => True
  | _, _, _ => False
  end.
(** the state of an interpolator after any calls, loaded strictly in a new one made with any arguments: it succeeds exactly when the numbers
    of points and the degrees agree and either both were made without output coordinates, or both with equally many, as many as in the
    last override of them by a call.  It is then the saved interpolator, override and smoothing included, without output coordinates
    exactly as it was made *)
Theorem spline_checkpoint x k s xo m0 x' k' s' xo' m0' h : sb_create x k s xo = Ok m0 -> sb_create x' k' s' xo' = Ok m0' ->
  let m := sb_run m0 h in let r := sb_load m0' true (sb_state m) in
  let same := List.length x = List.length x' /\ k = k' /\
    outs_agree xo (last_out (List.length x) xo h) xo' in
  (same -> r = (match xo with Some _ => m | None => m0 end, Ok tt)) /\
  (~ same -> snd r = Err RuntimeError) /\
  (x = x' -> k = k' -> s = s' -> xo = xo' -> ~ same -> fst r = m0').
Proof.
  intros E E' m r same. assert (EM : m = with_out m0 (List.length x) (fit_knots x k) (last_out (List.length x) xo h)) by (apply (spline_history x k s xo), E).
  clearbody m. unfold sb_create in E, E'. destruct (Nat.ltb_spec (List.length x) (k + 2)) as [|L]; [discriminate|]. destruct (Nat.ltb_spec (List.length x') (k' + 2)) as [|L']; [discriminate|].
  injection E as E. injection E' as E'.
  assert (LO : xo = None \/ exists ys, last_out (List.length x) xo h = Some ys).
  { destruct xo as [xs|]; [right|left; reflexivity]. clear. revert xs. induction h as [|[Z zo] h IH]; intros xs; [exists xs; reflexivity|]. cbn [last_out]. destruct zo; [destruct (accepted _ _)|]; apply IH. }
  unfold same, r. clear same r. generalize dependent (last_out (List.length x) xo h). intros lo EM LO. clear h. subst m m0 m0'. unfold with_out. cbn [sb_k sb_xin sb_xout sb_tx sb_Bx sb_G].
  pose proof (fit_knots_length x k L) as K. pose proof (fit_knots_length x' k' L') as K'.
  set (mm := mksb k (vec1 x) (option_map vec1 xo) (vec1 (fit_knots x k)) _ _ (option_map _ lo)). set (mm' := mksb k' _ _ _ _ _ _).
  assert (A : (List.length x = List.length x' /\ k = k' /\ outs_agree xo lo xo') ->
    sb_load mm' true (sb_state mm) = (match xo with Some _ => mm | None => mksb k (vec1 x) None (vec1 (fit_knots x k)) (sb_Bx mm) (sb_G mm) None end, Ok tt)).
  { intros (H1 & H2 & H3). unfold outs_agree in H3. unfold sb_load. change (sb_state mm) with (bufs (mkfit (sb_state mm) true)).
    rewrite load_self.
    - unfold mm, mm'. unfold sb_state. cbn [bufs sb_k sb_xin sb_xout sb_tx sb_Bx sb_G sb_Bout]. destruct xo as [xs|], xo' as [xs'|]; try contradiction; try (destruct lo; contradiction).
      + destruct lo as [ys|]; [|contradiction]. unfold buf, sb_state. cbn [option_map opt1 app sb_k sb_xin sb_xout sb_tx sb_Bx sb_G sb_Bout bufs assoc]. sdec; try rewrite H2; reflexivity.
      + unfold buf, sb_state. cbn [option_map opt1 app sb_k sb_xin sb_xout sb_tx sb_Bx sb_G sb_Bout bufs assoc]. sdec; try rewrite H2; reflexivity.
    - unfold shapes, mm, mm', sb_state. cbn [bufs sb_k sb_xin sb_xout sb_tx sb_Bx sb_G sb_Bout]. destruct xo as [xs|], xo' as [xs'|]; try contradiction; try (destruct lo; contradiction).
      + destruct lo as [ys|]; [|contradiction]. destruct H3 as [H3 H4]. cbn [option_map opt1 app map fst snd]. unfold vec1, mat. cbn [shape]. rewrite K, K', H1, H2, H3, H4. reflexivity.
      + cbn [option_map opt1 app map fst snd]. unfold vec1, mat. cbn [shape]. rewrite K, K', H1, H2. reflexivity.
    - unfold mm, sb_state. cbn [bufs sb_k sb_xin sb_xout sb_tx sb_Bx sb_G sb_Bout]. destruct xo as [xs|]; [destruct lo as [ys|]|]; cbn; nodup. }
  assert (B : snd (sb_load mm' true (sb_state mm)) = snd (load (mkfit (sb_state mm') true) true (sb_state mm))) by (unfold sb_load; destruct (load _ _ _); reflexivity).
  split; [|split].
  - intros H. rewrite A by exact H. destruct xo; reflexivity.
  - intros NS. rewrite B. apply load_ok_iff. intros HO. apply NS. clear A B NS. apply load_ok_iff in HO. cbn [bufs] in HO. destruct HO as [H1 H2].
    assert (X1 : List.length x = List.length x').
    { destruct (H1 "x_in"%string (vec1 x')) as (v & Hv & Hs); [unfold mm', sb_state; cbn; auto|]. unfold mm, sb_state in Hv. cbn [app assoc sb_xin] in Hv. destruct (string_dec "x_in" "x_in") in Hv; [|congruence].
      injection Hv as <-. cbn in Hs. congruence. }
    assert (X2 : k = k').
    { destruct (H1 "tx"%string (vec1 (fit_knots x' k'))) as (v & Hv & Hs).
      { unfold mm', sb_state. cbn [sb_tx app]. right. apply in_or_app. right. left. reflexivity. }
      assert (v = vec1 (fit_knots x k)) as ->. { unfold mm, sb_state in Hv. cbn [app sb_xin sb_xout sb_tx] in Hv. destruct xo as [xs|]; cbn [option_map opt1 app assoc] in Hv;
        repeat match type of Hv with context [string_dec ?a ?b] => let q := fresh in destruct (string_dec a b) as [q|q]; [try discriminate q|try congruence] end; injection Hv as <-; reflexivity. }
      cbn in Hs. rewrite K, K', X1 in Hs. injection Hs as Hs. lia. }
    split; [exact X1|]. split; [exact X2|]. unfold outs_agree. destruct xo as [xs|], xo' as [xs'|]; [| | |exact I].
    + destruct LO as [LO|[ys ->]]; [discriminate|]. split.
      * destruct (H1 "x_out"%string (vec1 xs')) as (v & Hv & Hs); [unfold mm', sb_state; cbn; auto|].
        unfold mm, sb_state in Hv. cbn [option_map opt1 app assoc sb_xout] in Hv. repeat match type of Hv with context [string_dec ?a ?b] => let q := fresh in destruct (string_dec a b) as [q|q]; [try discriminate q|try congruence] end.
        injection Hv as <-. cbn in Hs. congruence.
      * destruct (H1 "Bx_out"%string (mat (List.length xs') (List.length x') (out_matrix (fit_knots x' k') k' xs'))) as (v & Hv & Hs); [unfold mm', sb_state; cbn; tauto|].
        unfold mm, sb_state in Hv. cbn [option_map opt1 app assoc sb_xout sb_Bout] in Hv. repeat match type of Hv with context [string_dec ?a ?b] => let q := fresh in destruct (string_dec a b) as [q|q]; [try discriminate q|try congruence] end.
        injection Hv as <-. cbn in Hs. congruence.
    + destruct (H2 "x_out"%string (vec1 xs)) as (u & Hu); [unfold mm, sb_state; cbn; auto|]. unfold mm', sb_state in Hu. cbn in Hu. destruct Hu as [Q|[Q|[Q|[Q|[]]]]]; discriminate Q.
    + destruct (H1 "x_out"%string (vec1 xs')) as (v & Hv & _); [unfold mm', sb_state; cbn; auto|]. unfold mm, sb_state in Hv. cbn [option_map opt1 app assoc sb_xout] in Hv.
      repeat match type of Hv with context [string_dec ?a ?b] => let q := fresh in destruct (string_dec a b) as [q|q]; [try discriminate q|] end. discriminate.
  - intros <- <- <- <- NS. clear A B. unfold mm, mm' in *. unfold outs_agree in NS. destruct xo as [xs|]; [|exfalso; tauto]. destruct LO as [LO|[ys ->]]; [discriminate|].
    assert (NY : List.length ys <> List.length xs) by tauto. unfold sb_load, load, sb_state. cbn [option_map opt1 app bufs built map sb_k sb_xin sb_xout sb_tx sb_Bx sb_G sb_Bout].
    unfold load_one. cbn [fst snd assoc]. sdec. cbn [shape vec1 mat].
    repeat match goal with |- context [list_eq_dec Nat.eq_dec ?u ?u] => destruct (list_eq_dec Nat.eq_dec u u) as [_|Q]; [|congruence] end.
    match goal with |- context [list_eq_dec Nat.eq_dec ?u ?v] => destruct (list_eq_dec Nat.eq_dec u v) as [Q|_]; [congruence|] end.
    cbn [fst]. unfold buf. cbn [bufs assoc option_map]. sdec; reflexivity.
Qed.
(** an interpolator made without output coordinates: the result of a call does not depend on the calls before it *)
Theorem spline_no_memory x k s m0 h Z : sb_create x k s None = Ok m0 ->
  fst (sb_forward (sb_run m0 h) Z None) = Err ValueError /\
  forall xs, fst (sb_forward (sb_run m0 h) Z (Some xs)) = fst (sb_forward m0 Z (Some xs)).
Proof.
  intros E. rewrite (spline_history x k s None m0 h E). unfold sb_create in E. destruct (_ <? _)%nat; [discriminate|]. injection E as <-.
  unfold sb_forward, with_out. cbn [sb_xout sb_k sb_xin sb_tx sb_Bx sb_G option_map]. split; [reflexivity|]. intros xs.
  destruct (4 <? ndim Z)%nat; [reflexivity|]. destruct (ndim Z =? 0)%nat; [reflexivity|]. destruct (negb _); [reflexivity|].
  cbn [sb_Bout]. destruct (shape (pad_ndim4 Z)) as [|? [|? [|? [|? [|? ?]]]]]; reflexivity.
Qed.
(** strict = False, from an interpolator without output coordinates to one with: accepted, and calls then evaluate the coefficients of the
    fit on the saved points with the basis functions of the new one's own points *)
Theorem spline_nonstrict_mixture x k s m0 x' s' xs' m0' : sb_create x k s None = Ok m0 -> sb_create x' k s' (Some xs') = Ok m0' -> List.length x = List.length x' ->
  sb_load m0' false (sb_state m0) =
  (sb_of (mks1 x k s (Some xs') (Some (List.length xs', out_matrix (fit_knots x' k) k xs'))), Ok tt).
Proof.
  unfold sb_create. destruct (Nat.ltb_spec (List.length x) (k + 2)) as [|L]; [discriminate|]. destruct (Nat.ltb_spec (List.length x') (k + 2)) as [|L']; [discriminate|].
  intros E E' HL. injection E as <-. injection E' as <-. pose proof (fit_knots_length x k L) as K. pose proof (fit_knots_length x' k L') as K'.
  unfold sb_load, load, sb_state. cbn [option_map opt1 app bufs built map sb_k sb_xin sb_xout sb_tx sb_Bx sb_G sb_Bout].
  unfold load_one, mismatch. cbn [existsb fst snd assoc]. sdec. cbn [shape vec1 mat]. rewrite K, K', HL.
  repeat match goal with |- context [list_eq_dec Nat.eq_dec ?u ?u] => destruct (list_eq_dec Nat.eq_dec u u) as [_|Q]; [|congruence] end.
  cbn [orb andb negb]. unfold buf. cbn [bufs assoc option_map]. sdec. unfold sb_of. cbn [s1_x s1_k s1_s s1_xout s1_B option_map fst snd]. rewrite HL. reflexivity.
Qed.

(** ** non-vacuity *)
Example sdict_ex : exists m m', proj_create ["H1"; "L1"]%string 1 = Ok m /\ proj_create ["V1"; "K1"]%string 2 = Ok m' /\
  proj_create ["H1"; "L1"]%string 2 = Ok (fst (proj_load m' true (proj_state m))).
Proof.
  destruct (get_ifo_geometry_spec ["H1"; "L1"]%string) as (D & V & E & _); [discriminate|intros s Hs; unfold known_ifo; cbn in *; tauto|].
  destruct (get_ifo_geometry_spec ["V1"; "K1"]%string) as (D' & V' & E' & _); [discriminate|intros s Hs; unfold known_ifo; cbn in *; tauto|].
  assert (C1 : proj_create ["H1"; "L1"]%string 1 = Ok (mkproj 1 D V)) by (unfold proj_create; rewrite E; reflexivity).
  assert (C2 : proj_create ["V1"; "K1"]%string 2 = Ok (mkproj 2 D' V')) by (unfold proj_create; rewrite E'; reflexivity).
  do 2 eexists. split; [exact C1|]. split; [exact C2|]. apply (projector_checkpoint _ _ _ _ _ _ C1 C2). reflexivity.
Qed.
Example sdict_spline_ex : exists m0 m0', sb_create [0; 1; 2] 1 0 (Some [1; 2]) = Ok m0 /\ sb_create [5; 7; 8] 1 3 (Some [6; 7]) = Ok m0' /\
  let h := [(mk [3%nat] (fun _ => 0), Some [0; 2]); (mk [2%nat] (fun _ => 0), Some [1])] in sb_load m0' true (sb_state (sb_run m0 h)) = (sb_run m0 h, Ok tt).
Proof.
  do 2 eexists. split; [reflexivity|]. split; [reflexivity|]. intros h.
  apply (spline_checkpoint [0; 1; 2] 1 0 (Some [1; 2]) _ [5; 7; 8] 1 3 (Some [6; 7]) _ h eq_refl eq_refl). split; [reflexivity|]. split; [reflexivity|]. split; reflexivity.
Qed.
