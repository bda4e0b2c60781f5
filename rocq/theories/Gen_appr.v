(** Property C76: TimeDomainCBCWaveformGenerator with TaylorF2, IMRPhenomD and IMRPhenomPv2 as its approximant: how the physical
    parameters act on the time series. *)
From Coq Require Import Reals Lra ZArith Lia.
From Coquelicot Require Import Coquelicot.
From Verif Require Import Base Tensor Rutil Dft Gw_model Gw_props Conv_model Conv_props Wave_model Wave_props Bounds_props Qt_model Qt_props Qt2_props Iir_model Iir_props Gen_model Gen_row Gen_props Gen_main.
From Verif Require Import Tf2_model Tf2_props Phd_model Phd_main Php_geom Php_model Php_core Php_main Php_final.
Local Open Scope R_scope.

(** ** the frame of a generator and a batch: the power of two that holds every row *)
Lemma frame_unique (g : gen) (rs : list row) p p' :
  (forall r, In r rs -> (rround (row_time g r * g_sr g) <= Z.of_nat (2 ^ p))%Z) -> (exists r, In r rs /\ (Z.of_nat (2 ^ p) < 2 * rround (row_time g r * g_sr g))%Z) ->
  (forall r, In r rs -> (rround (row_time g r * g_sr g) <= Z.of_nat (2 ^ p'))%Z) -> (exists r, In r rs /\ (Z.of_nat (2 ^ p') < 2 * rround (row_time g r * g_sr g))%Z) -> p = p'.
Proof.
  intros U [r [I L]] U' [r' [I' L']]. pose proof (U r' I'). pose proof (U' r I).
  assert (K : forall a b, (Z.of_nat (2 ^ a) < 2 * Z.of_nat (2 ^ b))%Z -> (a <= b)%nat).
  { intros a b H1. destruct (Nat.le_gt_cases a b) as [|G]; [assumption|]. exfalso. assert (2 ^ S b <= 2 ^ a)%nat by (apply Nat.pow_le_mono_r; lia). cbn [Nat.pow] in H2. lia. }
  pose proof (K p p' ltac:(lia)). pose proof (K p' p ltac:(lia)). lia.
Qed.

(** ** the series is homogeneous in the waveform *)
Lemma series_scal g L r h h' c t : 0 < row_fstart g r -> 0 < g_sr g -> (0 < L)%nat -> (forall f, 0 < f -> h' f = Cmult (RtoC c) (h f)) -> series g L r h' t = c * series g L r h t.
Proof.
  intros Hs Hr HL H. unfold series.
  assert (E : croll L (- rround (g_rpad g * g_sr g)) (irfft L (spectrum g L r h')) t = c * croll L (- rround (g_rpad g * g_sr g)) (irfft L (spectrum g L r h)) t).
  { unfold croll. rewrite <- irfft_scal. apply irfft_ext'. intros k Hk. unfold spectrum. destruct (k =? L / 2)%nat; [apply injective_projections; cbn; ring|].
    destruct k as [|k].
    - unfold taper. replace (INR 0 * (g_sr g / INR L)) with 0 by (cbn; ring). destruct (Rlt_dec 0 (row_fstart g r)) as [_|N]; [|contradiction]. apply injective_projections; cbn; ring.
    - rewrite H; [apply injective_projections; cbn; ring|]. apply Rmult_lt_0_compat; [apply lt_0_INR; lia|]. apply Rdiv_lt_0_compat; [exact Hr|apply lt_0_INR; exact HL]. }
  rewrite E. ring.
Qed.
(** scaling every polarisation of the approximant by a real number per row scales the returned rows by it *)
Theorem gen_transfer g rs q approx ap approx' ap' (c d : nat -> R) : good_gen g -> g_sr g = 2 * INR q -> rs <> [] -> (forall r, In r rs -> good_row r) ->
  List.length (g_a g) = List.length (g_b g) -> rowwise approx ap (List.length rs) -> rowwise approx' ap' (List.length rs) ->
  (forall i f, (i < List.length rs)%nat -> 0 < f -> ap' i f = (Cmult (RtoC (c i)) (fst (ap i f)), Cmult (RtoC (d i)) (snd (ap i f)))) ->
  exists hc hp hc' hp', gen_forward g approx rs = Ok (hc, hp) /\ gen_forward g approx' rs = Ok (hc', hp') /\
    shape hc' = shape hc /\ shape hp' = shape hp /\ exists n, shape hc = [List.length rs; n] /\ shape hp = [List.length rs; n] /\
    forall i t, (i < List.length rs)%nat -> (t < n)%nat -> elt hc' [i; t] = c i * elt hc [i; t] /\ elt hp' [i; t] = d i * elt hp [i; t].
Proof.
  intros Hg Hq Hne Hrs Hab Ha Ha' H.
  destruct (gen_forward_spec g rs q Hg Hq Hne Hrs Hab approx ap Ha) as (p & hc & hp & E & Sc & Sp & U & W & V).
  destruct (gen_forward_spec g rs q Hg Hq Hne Hrs Hab approx' ap' Ha') as (p' & hc' & hp' & E' & Sc' & Sp' & U' & W' & V').
  assert (p' = p) by (eapply frame_unique; eassumption). subst p'. clear U' W'. cbv zeta in *. set (L := (2 ^ p)%nat) in *. set (len := Z.to_nat (Z.of_nat L + rtrunc (g_dur g * g_sr g - INR L))) in *.
  exists hc, hp, hc', hp'. split; [exact E|]. split; [exact E'|]. split; [congruence|]. split; [congruence|]. exists len. split; [exact Sc|]. split; [exact Sp|].
  intros i t Hi Ht. destruct (nth_error rs i) as [r|] eqn:Er; [|apply nth_error_None in Er; lia]. destruct (V i r t Er Ht) as [V1 V2]. destruct (V' i r t Er Ht) as [V1' V2']. rewrite V1, V2, V1', V2'.
  assert (LP : (0 < L)%nat) by (unfold L; pose proof (Nat.pow_nonzero 2 p ltac:(lia)); lia). assert (SP : 0 < g_sr g) by (destruct Hg; lra).
  assert (FS : 0 < row_fstart g r) by (apply fstart_range; [apply Hrs; eapply nth_error_In; exact Er|apply Hg]).
  assert (K : forall (h h' : R -> C) e, (forall f, 0 < f -> h' f = Cmult (RtoC e) (h f)) -> filtfilt (g_a g) (g_b g) len (at_end 0 L len (series g L r h')) t = e * filtfilt (g_a g) (g_b g) len (at_end 0 L len (series g L r h)) t).
  { intros h h' e He. rewrite (filtfilt_ext _ _ len _ (fun s => e * at_end 0 L len (series g L r h) s + 0 * 0) t); [|intros s Hs|exact Ht].
    - rewrite (filtfilt_linear (g_a g) (g_b g) len (at_end 0 L len (series g L r h)) (fun _ => 0)). ring.
    - unfold at_end. destruct (s + L <? len)%nat; [ring|]. rewrite (series_scal g L r h h' e) by assumption. ring. }
  split; apply K; intros f Hf; rewrite (H i f Hi Hf); reflexivity.
Qed.

(** ** the three approximants compute every row and frequency by itself *)
Lemma tf2_rowwise mc q chi1 chi2 dist phic incl f_ref : same_len (List.length mc) [q; chi1; chi2; dist; phic; incl] ->
  rowwise (fun fs => tf2_forward fs mc q chi1 chi2 dist phic incl f_ref)
    (fun i f => tf2_one f (nth i mc 0) (nth i q 0) (nth i chi1 0) (nth i chi2 0) (nth i dist 0) (nth i phic 0) (nth i incl 0) f_ref) (List.length mc).
Proof.
  intros HS fs _. unfold tf2_forward. rewrite (proj2 (forallb_forall _ _)); [reflexivity|]. intros l Hl. apply Nat.eqb_eq. apply HS. exact Hl.
Qed.
(** the values of IMRPhenomPv2, where it succeeds *)
Definition pp_value f mc q s1 s2 dist phic incl f_ref tc : C * C := match pp_one f mc q s1 s2 dist phic incl f_ref tc with Ok h => h | Err _ => (RtoC 0, RtoC 0) end.
Lemma pp_rowwise mc q s1 s2 dist phic incl f_ref tc :
  (forall i, (i < List.length mc)%nat -> pp_physical (nth i mc 0) (nth i q 0) (nth i s1 (V 0 0 0)) (nth i s2 (V 0 0 0)) /\ 0 < nth i dist 0) ->
  rowwise (fun fs => pp_forward fs mc q s1 s2 dist phic incl f_ref tc)
    (fun i f => pp_value f (nth i mc 0) (nth i q 0) (nth i s1 (V 0 0 0)) (nth i s2 (V 0 0 0)) (nth i dist 0) (nth i phic 0) (nth i incl 0) f_ref (match tc with None => 0 | Some l => nth i l 0 end)) (List.length mc).
Proof.
  intros HP fs Hf. unfold pp_forward. apply sequence_map_ok. intros i Hi. apply in_seq in Hi. destruct (HP i ltac:(lia)) as [(A & B & C0 & D) E]. apply sequence_map_ok. intros f If.
  destruct (pp_one_form _ _ f_ref _ _ A B C0 D _ (nth i phic 0) (nth i incl 0) (match tc with None => 0 | Some l => nth i l 0 end) E f (Hf f If)) as (hc & hp & EO & _). unfold pp_value. rewrite EO. reflexivity.
Qed.

(** ** physical parameters and the time series *)
(** the generator succeeds with both approximants, with outputs of the same shape, and row i of the second cross (plus) polarisation is
    c i (d i) times that of the first *)
Definition scaled_rows (g : gen) (rs : list row) (approx approx' : list R -> res (list (list (C * C)))) (c d : nat -> R) : Prop :=
  exists hc hp hc' hp' n, gen_forward g approx rs = Ok (hc, hp) /\ gen_forward g approx' rs = Ok (hc', hp') /\
    shape hc = [List.length rs; n] /\ shape hp = [List.length rs; n] /\ shape hc' = [List.length rs; n] /\ shape hp' = [List.length rs; n] /\
    forall i t, (i < List.length rs)%nat -> (t < n)%nat -> elt hc' [i; t] = c i * elt hc [i; t] /\ elt hp' [i; t] = d i * elt hp [i; t].
Lemma transfer g rs q approx ap approx' ap' (c d : nat -> R) : good_gen g -> g_sr g = 2 * INR q -> rs <> [] -> (forall r, In r rs -> good_row r) ->
  List.length (g_a g) = List.length (g_b g) -> rowwise approx ap (List.length rs) -> rowwise approx' ap' (List.length rs) ->
  (forall i f, (i < List.length rs)%nat -> 0 < f -> ap' i f = (Cmult (RtoC (c i)) (fst (ap i f)), Cmult (RtoC (d i)) (snd (ap i f)))) ->
  scaled_rows g rs approx approx' c d.
Proof.
  intros Hg Hq Hne Hrs Hab Ha Ha' H. destruct (gen_transfer g rs q approx ap approx' ap' c d Hg Hq Hne Hrs Hab Ha Ha' H) as (hc & hp & hc' & hp' & E & E' & S1 & S2 & n & S3 & S4 & V).
  exists hc, hp, hc', hp', n. repeat split; try assumption; try congruence; apply V; assumption.
Qed.
Section Physical.
Variables (g : gen) (rs : list row) (q0 : nat).
Hypothesis Hg : good_gen g.
Hypothesis Hq : g_sr g = 2 * INR q0.
Hypothesis Hne : rs <> [].
Hypothesis Hrs : forall r, In r rs -> good_row r.
Hypothesis Hab : List.length (g_a g) = List.length (g_b g).
(** parameters of TaylorF2 and IMRPhenomD *)
Variables (mc q chi1 chi2 dist phic incl : list R) (f_ref : R).
Hypothesis Hlen : List.length mc = List.length rs.
Hypothesis HS : same_len (List.length mc) [q; chi1; chi2; dist; phic; incl].
Hypothesis HP : forall i, (i < List.length mc)%nat -> physical (nth i mc 0) (nth i q 0) (nth i chi1 0) (nth i chi2 0).
Hypothesis HD : forall i, (i < List.length mc)%nat -> 0 < nth i dist 0.
Definition Tf2 (dist phic incl : list R) := fun fs => tf2_forward fs mc q chi1 chi2 dist phic incl f_ref.
Definition PhD (dist phic incl : list R) := fun fs => pd_forward fs mc q chi1 chi2 dist phic incl f_ref.

Lemma tf2_tr dist' phic' incl' c d : List.length dist' = List.length mc -> List.length phic' = List.length mc -> List.length incl' = List.length mc ->
  (forall i f, (i < List.length mc)%nat -> 0 < f -> tf2_one f (nth i mc 0) (nth i q 0) (nth i chi1 0) (nth i chi2 0) (nth i dist' 0) (nth i phic' 0) (nth i incl' 0) f_ref
     = let h := tf2_one f (nth i mc 0) (nth i q 0) (nth i chi1 0) (nth i chi2 0) (nth i dist 0) (nth i phic 0) (nth i incl 0) f_ref in (Cmult (RtoC (c i)) (fst h), Cmult (RtoC (d i)) (snd h))) ->
  scaled_rows g rs (Tf2 dist phic incl) (Tf2 dist' phic' incl') c d.
Proof.
  intros L1 L2 L3 H. eapply transfer; try eassumption; [rewrite <- Hlen; apply tf2_rowwise; exact HS|rewrite <- Hlen; apply tf2_rowwise|].
  - intros l Hl. cbn [In] in Hl. repeat destruct Hl as [<-|Hl]; try assumption; try contradiction; apply HS; cbn; tauto.
  - rewrite <- Hlen. exact H.
Qed.
Lemma pd_tr dist' phic' incl' c d : List.length dist' = List.length mc -> List.length phic' = List.length mc -> List.length incl' = List.length mc ->
  (forall i f, (i < List.length mc)%nat -> 0 < f -> pd_one f (nth i mc 0) (nth i q 0) (nth i chi1 0) (nth i chi2 0) (nth i dist' 0) (nth i phic' 0) (nth i incl' 0) f_ref
     = let h := pd_one f (nth i mc 0) (nth i q 0) (nth i chi1 0) (nth i chi2 0) (nth i dist 0) (nth i phic 0) (nth i incl 0) f_ref in (Cmult (RtoC (c i)) (fst h), Cmult (RtoC (d i)) (snd h))) ->
  scaled_rows g rs (PhD dist phic incl) (PhD dist' phic' incl') c d.
Proof.
  intros L1 L2 L3 H. eapply transfer; try eassumption; [rewrite <- Hlen; apply pd_rowwise; [exact HS|exact HP]|rewrite <- Hlen; apply pd_rowwise; [|exact HP]|].
  - intros l Hl. cbn [In] in Hl. repeat destruct Hl as [<-|Hl]; try assumption; try contradiction; apply HS; cbn; tauto.
  - rewrite <- Hlen. exact H.
Qed.
Lemma tf2_one_hom f m0 q0' c1 c2 d d' ph ph' i i' s e : tf2_htilde f (fst (components m0 q0')) (snd (components m0 q0')) c1 c2 d' ph' f_ref = Cmult (RtoC s) (tf2_htilde f (fst (components m0 q0')) (snd (components m0 q0')) c1 c2 d ph f_ref) ->
  cos i' = e * cos i -> e * e = 1 ->
  tf2_one f m0 q0' c1 c2 d' ph' i' f_ref = let h := tf2_one f m0 q0' c1 c2 d ph i f_ref in (Cmult (RtoC (s * e)) (fst h), Cmult (RtoC s) (snd h)).
Proof.
  intros H Hc He. unfold tf2_one. destruct (components m0 q0') as [a b]. cbn [fst snd] in *. rewrite H, Hc. cbn [fst snd].
  replace (e * cos i * (e * cos i)) with (cos i * cos i) by (replace (e * cos i * (e * cos i)) with (e * e * (cos i * cos i)) by ring; rewrite He; ring).
  set (h := tf2_htilde f a b c1 c2 d ph f_ref). destruct h as [x y]. f_equal; apply injective_projections; cbn; ring.
Qed.
Lemma pd_one_hom f m0 q0' c1 c2 d d' ph ph' i i' s e : pd_htilde f m0 q0' c1 c2 d' ph' f_ref = Cmult (RtoC s) (pd_htilde f m0 q0' c1 c2 d ph f_ref) ->
  cos i' = e * cos i -> e * e = 1 ->
  pd_one f m0 q0' c1 c2 d' ph' i' f_ref = let h := pd_one f m0 q0' c1 c2 d ph i f_ref in (Cmult (RtoC (s * e)) (fst h), Cmult (RtoC s) (snd h)).
Proof.
  intros H Hc He. unfold pd_one. cbn [fst snd] in *. rewrite H, Hc. cbn [fst snd].
  replace (e * cos i * (e * cos i)) with (cos i * cos i) by (replace (e * cos i * (e * cos i)) with (e * e * (cos i * cos i)) by ring; rewrite He; ring).
  set (h := pd_htilde f m0 q0' c1 c2 d ph f_ref). destruct h as [x y]. f_equal; apply injective_projections; cbn; ring.
Qed.
Lemma in_len l : In l [q; chi1; chi2; dist; phic; incl] -> List.length l = List.length mc.
Proof. apply HS. Qed.
(** distance: k_i times as far, 1 / k_i of the strain *)
Theorem generated_distance dist' (k : nat -> R) : List.length dist' = List.length mc -> (forall i, (i < List.length mc)%nat -> 0 < k i /\ nth i dist' 0 = k i * nth i dist 0) ->
  scaled_rows g rs (Tf2 dist phic incl) (Tf2 dist' phic incl) (fun i => / k i) (fun i => / k i) /\ scaled_rows g rs (PhD dist phic incl) (PhD dist' phic incl) (fun i => / k i) (fun i => / k i).
Proof.
  intros L H. assert (L2 : List.length phic = List.length mc) by (apply in_len; cbn; tauto). assert (L3 : List.length incl = List.length mc) by (apply in_len; cbn; tauto).
  split; [apply tf2_tr|apply pd_tr]; try assumption; intros i f Hi Hf; destruct (H i Hi) as [Hk ->]; destruct (HP i Hi) as (P1 & P2 & P3 & P4); pose proof (HD i Hi) as PD.
  - pose proof (tf2_distance f (nth i mc 0) (nth i q 0) (nth i chi1 0) (nth i chi2 0) (nth i dist 0) (nth i phic 0) (nth i incl 0) f_ref (k i) Hf P1 P2 PD Hk) as K. destruct (tf2_one f _ _ _ _ (nth i dist 0) _ _ _). cbn [fst snd]. exact K.
  - rewrite (pd_one_hom f _ _ _ _ (nth i dist 0) _ (nth i phic 0) _ (nth i incl 0) _ (/ k i) 1) by (try ring; apply pd_distance; assumption). cbv zeta. rewrite Rmult_1_r. reflexivity.
Qed.
(** seen from below instead of above: the cross polarisation changes sign *)
Theorem generated_inclination incl' : List.length incl' = List.length mc -> (forall i, (i < List.length mc)%nat -> nth i incl' 0 = PI - nth i incl 0) ->
  scaled_rows g rs (Tf2 dist phic incl) (Tf2 dist phic incl') (fun _ => -1) (fun _ => 1) /\ scaled_rows g rs (PhD dist phic incl) (PhD dist phic incl') (fun _ => -1) (fun _ => 1).
Proof.
  intros L H. assert (L2 : List.length phic = List.length mc) by (apply in_len; cbn; tauto). assert (L3 : List.length dist = List.length mc) by (apply in_len; cbn; tauto).
  assert (E1 : forall h : C, h = Cmult (RtoC 1) h) by (intros [x y]; apply injective_projections; cbn; ring).
  split; [apply tf2_tr|apply pd_tr]; try assumption; intros i f Hi Hf; rewrite (H i Hi); [rewrite (tf2_one_hom f _ _ _ _ (nth i dist 0) _ (nth i phic 0) _ (nth i incl 0) _ 1 (-1))|rewrite (pd_one_hom f _ _ _ _ (nth i dist 0) _ (nth i phic 0) _ (nth i incl 0) _ 1 (-1))];
    try (rewrite Rmult_1_l; reflexivity); try apply E1; try ring; rewrite cos_minus, cos_PI, sin_PI; ring.
Qed.
(** edge-on: no cross polarisation at all *)
Theorem generated_edge_on : (exists hc hp n, gen_forward g (Tf2 dist phic incl) rs = Ok (hc, hp) /\ shape hc = [List.length rs; n] /\
     forall i t, (i < List.length rs)%nat -> (t < n)%nat -> cos (nth i incl 0) = 0 -> elt hc [i; t] = 0) /\
  (exists hc hp n, gen_forward g (PhD dist phic incl) rs = Ok (hc, hp) /\ shape hc = [List.length rs; n] /\
     forall i t, (i < List.length rs)%nat -> (t < n)%nat -> cos (nth i incl 0) = 0 -> elt hc [i; t] = 0).
Proof.
  assert (L1 : List.length dist = List.length mc) by (apply in_len; cbn; tauto). assert (L2 : List.length phic = List.length mc) by (apply in_len; cbn; tauto). assert (L3 : List.length incl = List.length mc) by (apply in_len; cbn; tauto).
  set (c := fun i => if Req_EM_T (cos (nth i incl 0)) 0 then 0 else 1).
  assert (K : forall A, scaled_rows g rs A A c (fun _ => 1) -> exists hc hp n, gen_forward g A rs = Ok (hc, hp) /\ shape hc = [List.length rs; n] /\ forall i t, (i < List.length rs)%nat -> (t < n)%nat -> cos (nth i incl 0) = 0 -> elt hc [i; t] = 0).
  { intros A (hc & hp & hc' & hp' & n & E & E' & S1 & _ & _ & _ & V). rewrite E in E'. injection E' as <- <-. exists hc, hp, n. split; [exact E|]. split; [exact S1|]. intros i t Hi Ht H0. destruct (V i t Hi Ht) as [V1 _].
    unfold c in V1. destruct (Req_EM_T (cos (nth i incl 0)) 0); [|contradiction]. lra. }
  split; apply K; [apply tf2_tr|apply pd_tr]; try assumption; intros i f Hi Hf; unfold c; destruct (Req_EM_T (cos (nth i incl 0)) 0) as [E|E].
  - unfold tf2_one. destruct (components _ _) as [a b]. cbv zeta. cbn [fst snd]. rewrite E. set (h := tf2_htilde _ _ _ _ _ _ _ _). destruct h as [x y]. f_equal; apply injective_projections; cbn; ring.
  - cbv zeta. rewrite !Cmult_1_l. apply surjective_pairing.
  - unfold pd_one. cbv zeta. cbn [fst snd]. rewrite E. set (h := pd_htilde _ _ _ _ _ _ _ _). destruct h as [x y]. f_equal; apply injective_projections; cbn; ring.
  - cbv zeta. rewrite !Cmult_1_l. apply surjective_pairing.
Qed.
(** a quarter turn of the coalescence phase changes both signs, half a turn nothing *)
Lemma cos_nPI n : cos (INR n * PI) = (-1) ^ n /\ sin (INR n * PI) = 0.
Proof.
  induction n as [|n [IC IS]]; [cbn [INR pow]; rewrite Rmult_0_l, cos_0, sin_0; auto|]. rewrite S_INR. replace ((INR n + 1) * PI) with (INR n * PI + PI) by ring. rewrite neg_cos, neg_sin, IC, IS. cbn [pow]. split; ring.
Qed.
Theorem generated_phase phic' (m : nat -> nat) : List.length phic' = List.length mc -> (forall i, (i < List.length mc)%nat -> nth i phic' 0 = nth i phic 0 + INR (m i) * (PI / 2)) ->
  scaled_rows g rs (Tf2 dist phic incl) (Tf2 dist phic' incl) (fun i => (-1) ^ m i) (fun i => (-1) ^ m i) /\ scaled_rows g rs (PhD dist phic incl) (PhD dist phic' incl) (fun i => (-1) ^ m i) (fun i => (-1) ^ m i).
Proof.
  intros L H. assert (L2 : List.length incl = List.length mc) by (apply in_len; cbn; tauto). assert (L3 : List.length dist = List.length mc) by (apply in_len; cbn; tauto).
  split; [apply tf2_tr|apply pd_tr]; try assumption; intros i f Hi Hf; rewrite (H i Hi); destruct (HP i Hi) as (P1 & P2 & P3 & P4); pose proof (HD i Hi) as PD; destruct (cos_nPI (m i)) as [CN SN].
  - rewrite (tf2_one_hom f _ _ _ _ (nth i dist 0) _ (nth i phic 0) _ (nth i incl 0) _ ((-1) ^ m i) 1); [rewrite Rmult_1_r; reflexivity| |ring|ring].
    pose proof (components_spec (nth i mc 0) (nth i q 0) P1 P2) as K. destruct (components _ _) as [a b]. destruct K as [A1 [A2 _]]. cbn [fst snd]. rewrite !tf2_htilde_spec by assumption. cbv zeta.
    set (A := spa_amplitude _ _ _). set (D := tf2_psi f a b _ _ - tf2_psi f_ref a b _ _). replace (PI / 4 + 2 * (nth i phic 0 + INR (m i) * (PI / 2)) - D) with ((PI / 4 + 2 * nth i phic 0 - D) + INR (m i) * PI) by field.
    rewrite cos_plus, sin_plus, CN, SN. apply injective_projections; cbn; ring.
  - rewrite (pd_one_hom f _ _ _ _ (nth i dist 0) _ (nth i phic 0) _ (nth i incl 0) _ ((-1) ^ m i) 1); [rewrite Rmult_1_r; reflexivity| |ring|ring].
    rewrite pd_coalescence_phase by assumption. replace (2 * (INR (m i) * (PI / 2))) with (INR (m i) * PI) by field. rewrite CN, SN. reflexivity.
Qed.
End Physical.
(** IMRPhenomPv2: distance *)
Theorem generated_distance_p g rs q0 mc q s1 s2 dist dist' phic incl f_ref tc (k : nat -> R) : good_gen g -> g_sr g = 2 * INR q0 -> rs <> [] -> (forall r, In r rs -> good_row r) -> List.length (g_a g) = List.length (g_b g) ->
  List.length mc = List.length rs -> (forall i, (i < List.length mc)%nat -> pp_physical (nth i mc 0) (nth i q 0) (nth i s1 (V 0 0 0)) (nth i s2 (V 0 0 0)) /\ 0 < nth i dist 0) ->
  (forall i, (i < List.length mc)%nat -> 0 < k i /\ nth i dist' 0 = k i * nth i dist 0) ->
  scaled_rows g rs (fun fs => pp_forward fs mc q s1 s2 dist phic incl f_ref tc) (fun fs => pp_forward fs mc q s1 s2 dist' phic incl f_ref tc) (fun i => / k i) (fun i => / k i).
Proof.
  intros Hg Hq Hne Hrs Hab Hlen HP H. eapply transfer; try eassumption; [rewrite <- Hlen; apply pp_rowwise; exact HP|rewrite <- Hlen; apply pp_rowwise|].
  - intros i Hi. destruct (HP i Hi) as [P D]. destruct (H i Hi) as [Hk ->]. split; [exact P|apply Rmult_lt_0_compat; assumption].
  - intros i f Hi Hf. cbv beta. rewrite <- Hlen in Hi. destruct (HP i Hi) as [P D]. destruct (H i Hi) as [Hk ->]. unfold pp_value. rewrite pp_distance by lra. destruct (pp_one _ _ _ _ _ _ _ _ _ _) as [[a b]|e]; cbn [rmap].
    + reflexivity.
    + apply f_equal2; apply injective_projections; cbn; ring.
Qed.
(** a generator at 2048 Hz and a batch of two binaries: doubling one distance halves that row and leaves the other *)
Example generated_ex : let g := mkgen 2048 8 20 (1 / 2) [1; - (1 / 2)] [1; -1] in let rs := [mkrow 30 20 0 (1 / 2); mkrow 2 1 0 0] in
  scaled_rows g rs (PhD [21; 1] [2 / 3; 1 / 2] [0; 0] [1 / 2; 0] 20 [100; 100] [0; 0] [0; 0]) (PhD [21; 1] [2 / 3; 1 / 2] [0; 0] [1 / 2; 0] 20 [200; 100] [0; 0] [0; 0]) (fun i => / nth i [2; 1] 0) (fun i => / nth i [2; 1] 0).
Proof.
  cbv zeta. apply (generated_distance _ _ 1024).
  - unfold good_gen; cbn [g_sr g_fmin g_dur]; lra.
  - cbn [g_sr]. rewrite INR_IZR_INZ. change (Z.of_nat 1024) with 1024%Z. lra.
  - discriminate.
  - intros r [<-|[<-|[]]]; unfold good_row; cbn [m_1 m_2 s_1 s_2]; lra.
  - reflexivity.
  - reflexivity.
  - intros l Hl. repeat (destruct Hl as [<-|Hl]; [reflexivity|]). destruct Hl.
  - intros [|[|i]] Hi; [unfold physical; cbn [nth]; lra|unfold physical; cbn [nth]; lra|cbn in Hi; lia].
  - intros [|[|i]] Hi; [cbn [nth]; lra|cbn [nth]; lra|cbn in Hi; lia].
  - reflexivity.
  - intros [|[|i]] Hi; [cbn [nth]; lra|cbn [nth]; lra|cbn in Hi; lia].
Qed.
