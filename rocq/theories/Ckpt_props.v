(** Property C99: histories of fits, loads and calls; checkpoints. *)
From Coq Require Import String FunctionalExtensionality.
From Verif Require Import Base Tensor Bcast Rutil Slicing_model Streaming_model Norm_model Gw_model Dft Spectral_model Fit_model Fit_props Scaler_props Ckpt_model.
Local Open Scope R_scope.

(** ** specification *)
(** the rounding to the dtype of a buffer: idempotent, and 0 is representable *)
Definition rounding (f32 : R -> R) : Prop := f32 0 = 0 /\ forall x, f32 (f32 x) = f32 x.

Ltac sdec := repeat match goal with |- context [string_dec ?a ?b] => let x := fresh "sd" in destruct (string_dec a b) as [x|x]; try congruence end.

(** ** FixedWhiten *)
(** what every FixedWhiten made by the constructor looks like *)
Definition fw_ok (m : fwhiten) (ch : nat) (len sr : R) (F : nat) : Prop :=
  fw_ch m = ch /\ fw_len m = len /\ fw_sr m = sr /\ exists p, bufs (fw_psd m) = [("psd"%string, p)] /\ shape p = [ch; F].
Lemma fw_create_ok ch len sr m : fw_create ch len sr = Ok m ->
  fw_ok m ch len sr (Z.to_nat (rtrunc (len * sr) / 2 + 1)) /\ built (fw_psd m) = false /\ fw_fd m = 0.
Proof.
  unfold fw_create. destruct (_ <? -1)%Z; [discriminate|]. intros E. injection E as <-. cbn. unfold fw_ok. cbn.
  repeat split. eexists. split; reflexivity.
Qed.
Lemma copy_same {A} (b b' v : tensor A) : shape b = shape b' -> copy_ b v = copy_ b' v.
Proof. intros E. unfold copy_. rewrite E. reflexivity. Qed.
Lemma copy_shape {A} (b v c : tensor A) : copy_ b v = Ok c -> shape c = shape b.
Proof.
  unfold copy_. destruct (bshape _ _); [|discriminate]. destruct (list_eq_dec _ _ _); [|discriminate]. intros E. injection E as <-. reflexivity.
Qed.
Definition new_psds (sr : R) (F : nat) (fdur : R) (bgs : list (tensor R)) (fl hp lp ov : option R) : res (tensor ext) :=
  let one x := let* x := normalize_psd x sr F fl ov in
               let* p := truncate_inverse_power_spectrum (mk [1; 1; F]%nat (fun i => elt x [last i 0%nat])) (Seconds fdur) sr hp lp in
               Ok (mk [last (shape p) 0%nat] (fun i => elt p [0; 0; hd 0 i]%nat)) in
  let* psds := sequence (map one bgs) in stack_at0 psds.
Lemma fw_fit_eq f32 m ch len sr F p fdur bgs fl hp lp ov : fw_ok m ch len sr F -> bufs (fw_psd m) = [("psd"%string, p)] ->
  fw_fit f32 m fdur bgs fl hp lp ov =
  if negb (List.length bgs =? ch)%nat then (m, Err ValueError) else
  match new_psds sr F fdur bgs fl hp lp ov with
  | Err e => (m, Err e)
  | Ok psd => match copy_ p psd with Ok c => (mkfw ch len sr (mkfit [("psd"%string, c)] true) (f32 fdur), Ok tt) | Err e => (m, Err e) end
  end.
Proof.
  intros (E1 & E2 & E3 & p0 & Ep & Sp) Ep'. rewrite Ep in Ep'. injection Ep' as ->. destruct m as [a b c [bb bu] d]. cbn in E1, E2, E3, Ep. subst.
  unfold fw_fit, new_psds. cbn [fw_ch fw_psd bufs fw_sr assoc]. sdec. rewrite Sp. cbn [last].
  destruct (negb _); [reflexivity|]. match goal with |- match ?x with _ => _ end = _ => destruct x as [psd|x0] end; [|reflexivity].
  cbn [build bufs assoc]. sdec. destruct (copy_ p psd) as [c|x0]; [|reflexivity]. cbn [update bufs built]. sdec; reflexivity.
Qed.
(** a fit that raises leaves the transform as it was; a fit that succeeds gives a state that does not depend on the former one *)
Lemma fw_fit_cases f32 m ch len sr F fdur bgs fl hp lp ov : fw_ok m ch len sr F ->
  (exists e, fw_fit f32 m fdur bgs fl hp lp ov = (m, Err e)) \/
  (exists m', fw_fit f32 m fdur bgs fl hp lp ov = (m', Ok tt) /\ fw_ok m' ch len sr F /\ built (fw_psd m') = true /\ fw_fd m' = f32 fdur /\
     forall m0, fw_ok m0 ch len sr F -> fw_fit f32 m0 fdur bgs fl hp lp ov = (m', Ok tt)).
Proof.
  intros H. assert (H0 := H). destruct H0 as (E1 & E2 & E3 & p & Ep & Sp). rewrite (fw_fit_eq f32 m ch len sr F p) by assumption.
  destruct (negb _) eqn:EL; [left; eexists; reflexivity|]. destruct (new_psds sr F fdur bgs fl hp lp ov) as [psd|e0] eqn:ES; [|left; eexists; reflexivity].
  destruct (copy_ p psd) as [c|e0] eqn:EC; [|left; eexists; reflexivity]. right. eexists. split; [reflexivity|].
  split; [unfold fw_ok; cbn; repeat split; eexists; split; [reflexivity|]; rewrite (copy_shape _ _ _ EC); assumption|].
  split; [reflexivity|]. split; [reflexivity|]. intros m0 H0. assert (H1 := H0). destruct H1 as (_ & _ & _ & p0 & Ep0 & Sp0).
  rewrite (fw_fit_eq f32 m0 ch len sr F p0) by assumption. rewrite EL, ES, (copy_same p0 p) by congruence. rewrite EC. reflexivity.
Qed.

Lemma assoc_cast_fd f32 n sd : assoc n (cast_fd f32 sd) = if string_dec n "fduration" then option_map (tmap (fun e => Fin (f32 (fin e)))) (assoc n sd) else assoc n sd.
Proof.
  unfold cast_fd. induction sd as [|[k v] sd IH]; [cbn [map assoc option_map]; destruct (string_dec n "fduration"); reflexivity|].
  cbn [map fst snd]. destruct (string_dec k "fduration") as [K|K]; cbn [assoc]; destruct (string_dec n k) as [N|N]; rewrite ?IH;
    destruct (string_dec n "fduration"); try congruence; reflexivity.
Qed.
(** the value a buffer of shape s with value old gets: the loaded one, if present with the right shape *)
Definition taken {A} (s : list nat) (old : A) (v : option (tensor ext)) (f : tensor ext -> A) : A :=
  match v with Some v => if list_eq_dec Nat.eq_dec (shape v) s then f v else old | None => old end.
Definition clash (s : list nat) (v : option (tensor ext)) : Prop := exists t, v = Some t /\ shape t <> s.
(** what loading does, exactly: each of the two buffers is replaced if the state dict has a value of its shape for it, whether or not the
    load as a whole succeeds; the transform counts as fitted unless a present value has the wrong shape *)
Theorem fixed_whiten_load f32 m ch len sr F p strict sd : fw_ok m ch len sr F -> bufs (fw_psd m) = [("psd"%string, p)] ->
  let ps := assoc "psd" sd in let fs := assoc "fduration" sd in
  exists m' r, fw_load f32 m strict sd = (m', r) /\ fw_ok m' ch len sr F /\
    bufs (fw_psd m') = [("psd"%string, taken [ch; F] p ps (fun v => v))] /\
    fw_fd m' = taken [1%nat] (fw_fd m) fs (fun v => f32 (fin (elt v [0%nat]))) /\
    (clash [ch; F] ps \/ clash [1%nat] fs -> built (fw_psd m') = built (fw_psd m) /\ r = Err RuntimeError) /\
    (~ (clash [ch; F] ps \/ clash [1%nat] fs) -> built (fw_psd m') = true /\
       (r = Ok tt <-> (strict = true -> ps <> None /\ fs <> None /\ forall n, (exists v, In (n, v) sd) -> n = "psd"%string \/ n = "fduration"%string)) /\
       (r <> Ok tt -> r = Err RuntimeError)).
Proof.
  intros (E1 & E2 & E3 & p0 & Ep & Sp) Ep'. rewrite Ep in Ep'. injection Ep' as ->. intros ps fs.
  unfold fw_load, fw_state, load. rewrite Ep. cbn [app bufs built map removelast existsb].
  unfold load_one, mismatch. cbn [fst snd]. rewrite !assoc_cast_fd. sdec. fold ps fs.
  rewrite Sp. cbn [fd_buf shape].
  assert (UX : forall b, existsb (fun nv : string * tensor ext => match assoc (fst nv) [("psd"%string, p); ("fduration"%string, fd_buf m)] with Some _ => false | None => true end) (cast_fd f32 sd) = b ->
     (b = false <-> forall n, (exists v, In (n, v) sd) -> n = "psd"%string \/ n = "fduration"%string)).
  { intros b <-. clear. induction sd as [|[n v] sd IH]; [cbn; split; [intros _ n [? []]|reflexivity]|].
    change (cast_fd f32 ((n, v) :: sd)) with ((if string_dec n "fduration" then (n, tmap (fun e => Fin (f32 (fin e))) v) else (n, v)) :: cast_fd f32 sd).
    cbn [existsb]. rewrite orb_false_iff, IH. clear IH.
    assert (FN : fst (if string_dec n "fduration" then (n, tmap (fun e => Fin (f32 (fin e))) v) else (n, v)) = n) by (destruct (string_dec n "fduration"); reflexivity).
    rewrite FN. cbn [assoc]. split.
    - intros [H1 H2] k [u [E|E]]; [injection E as -> ->|apply H2; eauto]. destruct (string_dec k "psd"); [tauto|]. destruct (string_dec k "fduration"); [tauto|discriminate].
    - intros H. split; [|intros k [u Hu]; apply H; exists u; right; assumption]. destruct (H n) as [-> | ->]; [exists v; left; reflexivity| |]; sdec; reflexivity. }
  specialize (UX _ eq_refl). set (ux := existsb _ (cast_fd f32 sd)) in *. clearbody ux.
  assert (SH : forall t, shape (tmap (fun e => Fin (f32 (fin e))) t) = shape t) by reflexivity.
  unfold taken, clash. destruct ps as [pv|], fs as [fv|]; cbn [option_map];
    rewrite ?SH; try destruct (list_eq_dec Nat.eq_dec (shape pv) [ch; F]); try destruct (list_eq_dec Nat.eq_dec (shape fv) [1%nat]);
    clear SH; cbn [orb negb andb fst snd assoc]; sdec; do 2 eexists; (split; [reflexivity|]);
    (split; [unfold fw_ok; cbn; repeat split; try assumption; eexists; split; [reflexivity|]; assumption|]);
    (split; [reflexivity|]); (split; [cbn; reflexivity|]); cbn [fw_psd built]; rewrite ?orb_true_r, ?orb_false_r; split.
  all: try solve [intros [[t [K1 K2]]|[t [K1 K2]]]; congruence].
  all: try solve [intros _; split; reflexivity].
  all: try solve [intros K; exfalso; apply K; ((left; eexists; split; [reflexivity|assumption]) || (right; eexists; split; [reflexivity|assumption]))].
  all: intros _; split; [reflexivity|].
  all: destruct strict; cbn [andb orb]; try (destruct ux; cbn [orb]).
  all: split; try (intros K; congruence); split; try congruence; try reflexivity.
  all: try (intros K; specialize (K eq_refl); destruct K as (K1 & K2 & K3); try congruence; apply UX in K3; discriminate).
  all: try (intros _ _; split; [discriminate|]; split; [discriminate|]; apply UX; reflexivity).
Qed.
Lemma fw_step_inv fmax f32 m ch len sr F o : rounding f32 -> fw_ok m ch len sr F -> f32 (fw_fd m) = fw_fd m ->
  fw_ok (fst (fw_step fmax f32 m o)) ch len sr F /\ f32 (fw_fd (fst (fw_step fmax f32 m o))) = fw_fd (fst (fw_step fmax f32 m o)).
Proof.
  intros [R0 RI] H Hf. destruct o as [fdur bgs fl hp lp ov|strict sd|X crop]; cbn [fw_step].
  - destruct (fw_fit_cases f32 m ch len sr F fdur bgs fl hp lp ov H) as [[e E]|(m' & E & H' & _ & Ef & _)]; rewrite E; cbn [fst]; [tauto|]. rewrite Ef. split; [exact H'|apply RI].
  - destruct H as (E1 & E2 & E3 & p & Ep & Sp).
    destruct (fixed_whiten_load f32 m ch len sr F p strict sd) as (m' & r & E & H' & _ & Ef & _); [unfold fw_ok; eauto 8|assumption|]. rewrite E. cbn [fst].
    split; [exact H'|]. rewrite Ef. unfold taken. destruct (assoc "fduration" sd) as [v|]; [|assumption]. destruct (list_eq_dec _ _ _); [apply RI|assumption].
  - split; assumption.
Qed.
Lemma fw_run_inv fmax f32 h : rounding f32 -> forall m ch len sr F, fw_ok m ch len sr F -> f32 (fw_fd m) = fw_fd m ->
  fw_ok (fw_run fmax f32 m h) ch len sr F /\ f32 (fw_fd (fw_run fmax f32 m h)) = fw_fd (fw_run fmax f32 m h).
Proof.
  intros HR. induction h as [|o h IH]; intros m ch len sr F H Hf; [split; assumption|]. cbn [fw_run]. destruct (fw_step_inv fmax f32 m ch len sr F o HR H Hf). apply IH; assumption.
Qed.
Lemma fw_reach fmax f32 h ch len sr m0 : rounding f32 -> fw_create ch len sr = Ok m0 ->
  fw_ok (fw_run fmax f32 m0 h) ch len sr (Z.to_nat (rtrunc (len * sr) / 2 + 1)) /\ f32 (fw_fd (fw_run fmax f32 m0 h)) = fw_fd (fw_run fmax f32 m0 h).
Proof. intros HR E. destruct (fw_create_ok _ _ _ _ E) as (H & _ & Hf). apply fw_run_inv; try assumption. rewrite Hf. apply HR. Qed.
(** after any history of fits, loads and calls: a fit that raises changes nothing; a fit that succeeds leaves exactly the state that
    fitting a new transform would; calls change nothing *)
Theorem fixed_whiten_history fmax f32 ch len sr m0 h fdur bgs fl hp lp ov : rounding f32 -> fw_create ch len sr = Ok m0 ->
  let m := fw_run fmax f32 m0 h in let r := fw_fit f32 m fdur bgs fl hp lp ov in
  (snd r = Ok tt -> r = fw_fit f32 m0 fdur bgs fl hp lp ov) /\ (snd r <> Ok tt -> fst r = m) /\
  (forall X crop, fw_run fmax f32 m0 (h ++ [FCall X crop]) = m).
Proof.
  intros HR E m r. destruct (fw_reach fmax f32 h ch len sr m0 HR E) as [H _]. fold m in H.
  destruct (fw_create_ok _ _ _ _ E) as (H0 & _). split; [|split].
  - intros Hr. unfold r in *. destruct (fw_fit_cases f32 m ch len sr _ fdur bgs fl hp lp ov H) as [[e Ee]|(m' & Em & _ & _ & _ & K)]; [rewrite Ee in Hr; discriminate|]. rewrite Em, (K m0 H0). reflexivity.
  - intros Hr. unfold r in *. destruct (fw_fit_cases f32 m ch len sr _ fdur bgs fl hp lp ov H) as [[e Ee]|(m' & Em & _)]; [rewrite Ee; reflexivity|rewrite Em in Hr; cbn in Hr; congruence].
  - intros X crop. unfold m. clear. revert m0. induction h as [|o h IH]; intros m0; [reflexivity|]. cbn [app fw_run]. apply IH.
Qed.
Lemma bzip_not_value {A B D} (f : A -> B -> D) a b : bzip f a b <> Err ValueError.
Proof.
  unfold bzip, bshape. assert (K : forall l l' : list nat, bshape_rev l l' <> Err ValueError).
  { induction l as [|x l IH]; intros [|y l']; cbn [bshape_rev]; try discriminate. unfold bdim.
    destruct (x =? y)%nat, (x =? 1)%nat, (y =? 1)%nat; cbn [bind]; specialize (IH l'); destruct (bshape_rev l l'); cbn [bind rmap]; congruence. }
  specialize (K (rev (shape a)) (rev (shape b))). destruct (bshape_rev _ _); cbn [bind rmap]; congruence.
Qed.
(** the state of a transform, loaded in a new one made with the same arguments, gives the same transform *)
Theorem fixed_whiten_checkpoint fmax f32 ch len sr m0 h : rounding f32 -> fw_create ch len sr = Ok m0 ->
  let m := fw_run fmax f32 m0 h in
  exists m', fw_load f32 m0 true (fw_state m) = (m', Ok tt) /\
    (built (fw_psd m) = true -> m' = m) /\
    forall X crop, fw_forward fmax m' X crop <> Err ValueError \/ (Z.of_nat (last (shape X) 0%nat) <> rtrunc (len * sr))%Z.
Proof.
  intros HR E m. destruct (fw_reach fmax f32 h ch len sr m0 HR E) as [H Hf]. fold m in H, Hf. destruct (fw_create_ok _ _ _ _ E) as (H0 & Hb0 & Hf0).
  assert (H' := H). destruct H' as (E1 & E2 & E3 & p & Ep & Sp). assert (H0' := H0). destruct H0' as (_ & _ & _ & p0 & Ep0 & Sp0).
  destruct (fixed_whiten_load f32 m0 ch len sr _ p0 true (fw_state m) H0 Ep0) as (m' & r & El & Hm' & Eb & Ef & _ & K).
  assert (A1 : assoc "psd" (fw_state m) = Some p) by (unfold fw_state; rewrite Ep; cbn [app assoc]; sdec; reflexivity).
  assert (A2 : assoc "fduration" (fw_state m) = Some (fd_buf m)) by (unfold fw_state; rewrite Ep; cbn [app assoc]; sdec; reflexivity).
  rewrite A1, A2 in *. cbn [taken] in Eb, Ef. rewrite Sp in Eb. destruct (list_eq_dec Nat.eq_dec [ch; _] [ch; _]) in Eb; [|congruence].
  destruct (list_eq_dec Nat.eq_dec (shape (fd_buf m)) [1%nat]) in Ef; [|cbn in *; congruence]. cbn [fd_buf elt fin] in Ef. rewrite Hf in Ef.
  destruct K as (Kb & Kr & Ke).
  { intros [(t & Q & N)|(t & Q & N)]; injection Q as <-; [congruence|cbn in N; congruence]. }
  assert (ER : r = Ok tt).
  { apply Kr. intros _. split; [discriminate|]. split; [discriminate|]. intros n [v Hv]. unfold fw_state in Hv. rewrite Ep in Hv. cbn in Hv.
    destruct Hv as [Hv|[Hv|[]]]; injection Hv as <- _; tauto. }
  exists m'. split; [rewrite El, ER; reflexivity|]. destruct Hm' as (M1 & M2 & M3 & _). split.
  - intros Hb. destruct m as [a b c [bb bu] d], m' as [a' b' c' [bb' bu'] d']. cbn in *. congruence.
  - intros X crop. unfold fw_forward, call. rewrite Kb, Eb. cbn [bind assoc]. sdec. rewrite M2, M3.
    destruct (ndim X =? 0)%nat; [left; discriminate|]. destruct (Z.eqb_spec (Z.of_nat (last (shape X) 0%nat)) (rtrunc (len * sr))) as [Q|Q]; [left|right; exact Q]. cbn [negb].
    unfold normalize_by_psd. destruct (ndim X =? 0)%nat; [discriminate|]. destruct (last (shape X) 0 =? 0)%nat; [discriminate|].
    repeat match goal with |- context [bzip ?f ?a ?b] => let y := fresh "y9" in let Q9 := fresh "Q9" in
      destruct (bzip f a b) as [y|y] eqn:Q9; cbn [bind]; [|intros Z9; injection Z9 as ->; apply bzip_not_value in Q9; exact Q9] end.
    destruct crop; [|discriminate]. destruct (negb _); discriminate.
Qed.
(** loading the state of a transform in a new one made with other arguments succeeds exactly when the channels and the number of
    frequency bins agree (so that a kernel of 9 samples can be loaded in place of one of 8): it then has the PSDs and the filter
    duration of the first with the kernel length and sample rate of the second.  Otherwise it raises RuntimeError, and calls still raise
    ValueError *)
Theorem fixed_whiten_checkpoint_other fmax f32 ch len sr m0 h ch' len' sr' m0' : rounding f32 ->
  fw_create ch len sr = Ok m0 -> fw_create ch' len' sr' = Ok m0' ->
  let m := fw_run fmax f32 m0 h in let r := fw_load f32 m0' true (fw_state m) in
  let same := (ch = ch' /\ rtrunc (len * sr) / 2 = rtrunc (len' * sr') / 2)%Z in
  (same -> snd r = Ok tt /\ fw_state (fst r) = fw_state m /\ built (fw_psd (fst r)) = true) /\
  (~ same -> snd r = Err RuntimeError /\ forall X crop, fw_forward fmax (fst r) X crop = Err ValueError) /\
  fw_ch (fst r) = ch' /\ fw_len (fst r) = len' /\ fw_sr (fst r) = sr'.
Proof.
  intros HR E E' m r same. destruct (fw_reach fmax f32 h ch len sr m0 HR E) as [H Hf]. fold m in H, Hf. destruct (fw_create_ok _ _ _ _ E') as (H0 & Hb0 & Hf0).
  assert (H' := H). destruct H' as (E1 & E2 & E3 & p & Ep & Sp). assert (H0' := H0). destruct H0' as (_ & _ & _ & p0 & Ep0 & Sp0).
  assert (GE : forall c l s mm, fw_create c l s = Ok mm -> (-1 <= rtrunc (l * s) / 2)%Z).
  { intros c l s mm. unfold fw_create. destruct (Z.ltb_spec (rtrunc (l * s)) (-1)) as [|G]; [discriminate|]. intros _. change (-1)%Z with (-1 / 2)%Z at 1. apply Z.div_le_mono; lia. }
  pose proof (GE _ _ _ _ E) as G1. pose proof (GE _ _ _ _ E') as G2. clear GE.
  destruct (fixed_whiten_load f32 m0' ch' len' sr' _ p0 true (fw_state m) H0 Ep0) as (m' & q & El & Hm' & Eb & Ef & K1 & K2).
  fold r in El. rewrite El. cbn [fst snd]. clear El r.
  assert (A1 : assoc "psd" (fw_state m) = Some p) by (unfold fw_state; rewrite Ep; cbn [app assoc]; sdec; reflexivity).
  assert (A2 : assoc "fduration" (fw_state m) = Some (fd_buf m)) by (unfold fw_state; rewrite Ep; cbn [app assoc]; sdec; reflexivity).
  rewrite A1, A2 in *. cbn [taken] in Eb, Ef. rewrite Sp in Eb.
  destruct (list_eq_dec Nat.eq_dec (shape (fd_buf m)) [1%nat]) in Ef; [|cbn in *; congruence]. cbn [fd_buf elt fin] in Ef. rewrite Hf in Ef.
  destruct Hm' as (M1 & M2 & M3 & _).
  assert (SS : same <-> shape p = [ch'; Z.to_nat (rtrunc (len' * sr') / 2 + 1)]).
  { rewrite Sp. unfold same. split; [intros [-> ->]; reflexivity|]. intros Q. injection Q as Q1 Q2. split; [assumption|]. lia. }
  split; [|split; [|tauto]].
  - intros S0. apply SS in S0. rewrite Sp in S0. destruct (list_eq_dec Nat.eq_dec [ch; _] _) in Eb; [|congruence].
    destruct K2 as (Kb & Kr & Ke).
    { intros [(t & Q & N)|(t & Q & N)]; injection Q as <-; [congruence|cbn in N; congruence]. }
    split; [|split; [|assumption]].
    + apply Kr. intros _. split; [discriminate|]. split; [discriminate|]. intros n [v Hv]. unfold fw_state in Hv. rewrite Ep in Hv. cbn in Hv.
      destruct Hv as [Hv|[Hv|[]]]; injection Hv as <- _; tauto.
    + unfold fw_state. rewrite Eb, Ep. unfold fd_buf. rewrite Ef. reflexivity.
  - intros S0. assert (CL : clash [ch'; Z.to_nat (rtrunc (len' * sr') / 2 + 1)] (Some p)) by (exists p; split; [reflexivity|]; intros Q; apply S0, SS, Q).
    destruct (K1 (or_introl CL)) as [Kb ->]. split; [reflexivity|]. intros X crop. unfold fw_forward, call. rewrite Kb, Hb0. reflexivity.
Qed.
(** a load that raises because the PSDs have another shape still replaces the filter duration, so that the fitted transform goes on with
    its own PSDs, cropping by the other's filter duration *)
Theorem fixed_whiten_failed_load_refuted fmax f32 ch len sr m0 h ch' len' sr' m0' h' : rounding f32 ->
  fw_create ch len sr = Ok m0 -> fw_create ch' len' sr' = Ok m0' -> ch <> ch' ->
  let m := fw_run fmax f32 m0 h in let m1 := fw_run fmax f32 m0' h' in
  fw_load f32 m1 true (fw_state m) = (mkfw (fw_ch m1) (fw_len m1) (fw_sr m1) (fw_psd m1) (fw_fd m), Err RuntimeError).
Proof.
  intros HR E E' NE m m1. destruct (fw_reach fmax f32 h ch len sr m0 HR E) as [H Hf]. fold m in H, Hf.
  destruct (fw_reach fmax f32 h' ch' len' sr' m0' HR E') as [H0 Hf0]. fold m1 in H0, Hf0.
  assert (H' := H). destruct H' as (E1 & E2 & E3 & p & Ep & Sp). assert (H0' := H0). destruct H0' as (F1 & F2 & F3 & p0 & Ep0 & Sp0).
  destruct (fixed_whiten_load f32 m1 ch' len' sr' _ p0 true (fw_state m) H0 Ep0) as (m' & q & El & Hm' & Eb & Ef & K1 & K2).
  assert (A1 : assoc "psd" (fw_state m) = Some p) by (unfold fw_state; rewrite Ep; cbn [app assoc]; sdec; reflexivity).
  assert (A2 : assoc "fduration" (fw_state m) = Some (fd_buf m)) by (unfold fw_state; rewrite Ep; cbn [app assoc]; sdec; reflexivity).
  rewrite A1, A2 in *. cbn [taken] in Eb, Ef. rewrite Sp in Eb. destruct (list_eq_dec Nat.eq_dec [ch; _] _) as [Q|_] in Eb; [congruence|].
  destruct (list_eq_dec Nat.eq_dec (shape (fd_buf m)) [1%nat]) in Ef; [|cbn in *; congruence]. cbn [fd_buf elt fin] in Ef. rewrite Hf in Ef.
  destruct K1 as [Kb Kr]; [left; exists p; split; [reflexivity|rewrite Sp; congruence]|]. rewrite El, Kr. f_equal.
  destruct Hm' as (M1 & M2 & M3 & _). destruct m' as [a b c [bb bu] d]. cbn in *. subst. destruct (fw_psd m1). cbn in *. congruence.
Qed.
(** loading the state of a transform that was never fitted marks the new one as fitted: calls no longer raise *)
Theorem fixed_whiten_unfitted_refuted fmax f32 ch len sr m0 : rounding f32 -> fw_create ch len sr = Ok m0 ->
  (forall X crop, fw_forward fmax m0 X crop = Err ValueError) /\
  exists m', fw_load f32 m0 true (fw_state m0) = (m', Ok tt) /\
    forall X crop, (Z.of_nat (last (shape X) 0%nat) = rtrunc (len * sr))%Z -> fw_forward fmax m' X crop <> Err ValueError.
Proof.
  intros HR E. split.
  - intros X crop. destruct (fw_create_ok _ _ _ _ E) as (_ & Hb & _). unfold fw_forward, call. rewrite Hb. reflexivity.
  - destruct (fixed_whiten_checkpoint fmax f32 ch len sr m0 [] HR E) as (m' & El & _ & K). exists m'. split; [exact El|]. intros X crop HX. destruct (K X crop); [assumption|contradiction].
Qed.

(** ** any transform: its state loaded in another whose buffers have the same names and shapes *)
Lemma load_self {A} (st0 st : fit A) : shapes st0 = shapes st -> NoDup (map fst (bufs st)) -> load st0 true (bufs st) = (mkfit (bufs st) true, Ok tt).
Proof.
  intros Hs ND. unfold shapes in Hs. destruct st0 as [l0 b0], st as [l b]. cbn [bufs built] in *.
  assert (AS : forall n v, In (n, v) l -> assoc n l = Some v).
  { clear -ND. induction l as [|[m u] l IH]; intros n v []; cbn [assoc].
    - injection H as -> ->. destruct (string_dec n n); congruence.
    - cbn [map fst] in ND. inversion ND as [|? ? N1 N2]. subst. destruct (string_dec n m) as [->|]; [|auto].
      exfalso. apply N1. apply (in_map fst) in H. exact H. }
  assert (NI : forall n : string, In n (map fst l) -> In n (map fst l0)).
  { intros n. replace (map fst l) with (map fst (map (fun nb => (fst nb, shape (snd nb))) l)) by (rewrite map_map; reflexivity). rewrite <- Hs, map_map. cbn. auto. }
  assert (P : forall k l0' l', (forall x, In x l' -> In x l) -> map (fun nb : string * tensor A => (fst nb, shape (snd nb))) l0' = map (fun nb => (fst nb, shape (snd nb))) l' -> k = List.length l0' ->
     map (load_one l) l0' = l' /\ existsb (mismatch l) l0' = false /\ existsb (fun nb => match assoc (fst nb) l with None => true | Some _ => false end) l0' = false).
  { induction k as [|k IH]; intros [|[n u] l0'] [|[n' v] l'] Sub Eq Lk; cbn in Lk, Eq; try discriminate; [cbn; auto|].
    injection Eq as -> Eq2 Eq3. destruct (IH l0' l') as (I1 & I2 & I3); [intros; apply Sub; right; assumption|assumption|lia|].
    cbn [map existsb]. rewrite I1, I2, I3. unfold load_one, mismatch. cbn [fst snd]. rewrite (AS n' v) by (apply Sub; left; reflexivity).
    destruct (list_eq_dec Nat.eq_dec (shape v) (shape u)); [|congruence]. auto. }
  destruct (P _ l0 l (fun x H => H) Hs eq_refl) as (P1 & P2 & P3). unfold load. cbn [bufs built]. rewrite P1, P2, P3. rewrite orb_true_r.
  assert (U : existsb (fun nv : string * tensor A => match assoc (fst nv) l0 with None => true | Some _ => false end) l = false).
  { rewrite <- not_true_iff_false, existsb_exists. intros [[n v] [Hin H]]. cbn [fst] in H. destruct (assoc n l0) eqn:E; [discriminate|].
    assert (In n (map fst l0)) as I0 by (apply NI; apply (in_map fst) in Hin; exact Hin). clear -E I0.
    induction l0 as [|[m u] l0 IH]; [destruct I0|]. cbn [assoc] in E. destruct (string_dec n m) as [->|N]; [discriminate|]. destruct I0 as [I0|I0]; [cbn in I0; congruence|auto]. }
  rewrite U. reflexivity.
Qed.

(** ** SnrRescaler *)
Definition rs_ok (f32 : R -> R) (m0 m : rescaler) : Prop :=
  rs_sr m = rs_sr m0 /\ rs_ch m = rs_ch m0 /\ rs_size m = rs_size m0 /\ rs_hp m = rs_hp m0 /\ rs_lp m = rs_lp m0 /\
  exists b, bufs (rs_fit m) = [("background"%string, b)] /\ shape b = [rs_ch m0; rbins (rs_size m0)] /\ forall i, f32 (elt b i) = elt b i.
Lemma rs_create_ok f32 ni sr dur hp lp m : rounding f32 -> rescaler_create ni sr dur hp lp = Ok m -> rs_ok f32 m m /\ built (rs_fit m) = false.
Proof.
  intros [R0 _]. unfold rescaler_create. destruct (_ <? 0)%Z; [discriminate|]. intros E. injection E as <-. unfold rs_ok. cbn. repeat split.
  eexists. split; [reflexivity|]. cbn. split; [reflexivity|]. intros _. exact R0.
Qed.
Lemma rs_fit_cases f32 m0 m bgs fl ov : rounding f32 -> rs_ok f32 m0 m ->
  (exists e, rescaler_fit f32 m bgs fl ov = (m, Err e)) \/
  (exists m', rescaler_fit f32 m bgs fl ov = (m', Ok tt) /\ rs_ok f32 m0 m' /\ forall m1, rs_ok f32 m0 m1 -> rescaler_fit f32 m1 bgs fl ov = (m', Ok tt)).
Proof.
  intros [_ RI] (A1 & A2 & A3 & A4 & A5 & b & Eb & Sb & Vb). unfold rescaler_fit at 1 2. rewrite A1, A2, A3, A4, A5.
  destruct (negb _) eqn:EL; [left; eexists; reflexivity|].
  destruct (let* psds := sequence (map (fun x => normalize_psd x (rs_sr m0) (rbins (rs_size m0)) fl ov) bgs) in stack_at0 psds) as [t|e] eqn:EN; [|left; eexists; reflexivity].
  cbn [build]. rewrite Eb. cbn [assoc]. sdec. destruct (copy_ b (tmap f32 t)) as [c|x9] eqn:EC.
  - right. eexists. cbn [update bufs]. split; [reflexivity|]. sdec. split.
    + unfold rs_ok. cbn [rs_sr rs_ch rs_size rs_hp rs_lp rs_fit]. repeat split. exists c. split; [reflexivity|]. split; [rewrite (copy_shape _ _ _ EC); assumption|].
      unfold copy_ in EC. destruct (bshape _ _); [|discriminate]. destruct (list_eq_dec _ _ _); [|discriminate]. injection EC as <-. intros i. cbn [elt tmap]. apply RI.
    + intros m1 (B1 & B2 & B3 & B4 & B5 & b1 & Eb1 & Sb1 & _). unfold rescaler_fit. rewrite B1, B2, B3, B4, B5, EL, EN. cbn [build]. rewrite Eb1. cbn [assoc]. sdec.
      rewrite (copy_same b1 b) by congruence. rewrite EC. cbn [update bufs]. sdec; reflexivity.
  - left. exists x9. f_equal. destruct m as [x1 x2 x3 x4 x5 x6]. cbn in *. subst. reflexivity.
Qed.
Lemma rs_step_inv f32 m0 m o : rounding f32 -> rs_ok f32 m0 m -> rs_ok f32 m0 (fst (rs_step f32 m o)).
Proof.
  intros HR H. destruct o as [bgs fl ov|strict sd|perm X t]; cbn [rs_step].
  - destruct (rs_fit_cases f32 m0 m bgs fl ov HR H) as [[e ->]|(m' & -> & H' & _)]; assumption.
  - destruct H as (A1 & A2 & A3 & A4 & A5 & b & Eb & Sb & Vb). unfold rs_load, load. rewrite Eb. cbn [map fst].
    unfold rs_ok. cbn [rs_sr rs_ch rs_size rs_hp rs_lp rs_fit bufs]. repeat (split; [assumption|]).
    unfold load_one. cbn [fst snd]. unfold cast. rewrite (assoc_map (tmap f32)). destruct (assoc "background" sd) as [v|]; cbn [option_map]; [|eauto].
    destruct (list_eq_dec Nat.eq_dec _ _) as [E|]; [|eauto]. eexists. split; [reflexivity|]. split; [congruence|]. intros i. cbn [tmap elt]. apply HR.
  - exact H.
Qed.
Lemma rs_reach f32 h ni sr dur hp lp m0 : rounding f32 -> rescaler_create ni sr dur hp lp = Ok m0 -> rs_ok f32 m0 (rs_run f32 m0 h).
Proof.
  intros HR E. destruct (rs_create_ok f32 _ _ _ _ _ _ HR E) as [H _]. assert (G : forall m, rs_ok f32 m0 m -> rs_ok f32 m0 (rs_run f32 m h)).
  { induction h as [|o h IH]; intros m Hm; [exact Hm|]. cbn [rs_run]. apply IH, rs_step_inv; assumption. }
  apply G, H.
Qed.
Theorem snr_rescaler_history f32 ni sr dur hp lp m0 h bgs fl ov : rounding f32 -> rescaler_create ni sr dur hp lp = Ok m0 ->
  let m := rs_run f32 m0 h in let r := rescaler_fit f32 m bgs fl ov in
  (snd r = Ok tt -> r = rescaler_fit f32 m0 bgs fl ov) /\ (snd r <> Ok tt -> fst r = m) /\
  (forall perm X t, rs_run f32 m0 (h ++ [RCall perm X t]) = m).
Proof.
  intros HR E m r. pose proof (rs_reach f32 h _ _ _ _ _ _ HR E) as H. fold m in H. destruct (rs_create_ok f32 _ _ _ _ _ _ HR E) as [H0 _].
  destruct (rs_fit_cases f32 m0 m bgs fl ov HR H) as [[e Ee]|(m' & Em & _ & K)]; unfold r; split; [|split| |split].
  - rewrite Ee. discriminate.
  - rewrite Ee. reflexivity.
  - intros. unfold m. clear. revert m0. induction h as [|o h IH]; intros m0; [reflexivity|]. cbn [app rs_run]. apply IH.
  - rewrite Em, (K m0 H0). reflexivity.
  - rewrite Em. cbn. congruence.
  - intros. unfold m. clear. revert m0. induction h as [|o h IH]; intros m0; [reflexivity|]. cbn [app rs_run]. apply IH.
Qed.
(** the state of a rescaler loaded in a new one of the same number of channels and samples (whatever its cut-off frequencies and sample
    rate): it has the fitted background of the first, and the cut-offs and sample rate it was itself made with *)
Theorem snr_rescaler_checkpoint f32 ni sr dur hp lp m0 h sr' dur' hp' lp' m1 : rounding f32 ->
  rescaler_create ni sr dur hp lp = Ok m0 -> rescaler_create ni sr' dur' hp' lp' = Ok m1 -> rs_size m0 = rs_size m1 ->
  let m := rs_run f32 m0 h in
  rs_load f32 m1 true (rs_state m) = (mkresc (rs_sr m1) (rs_ch m1) (rs_size m1) (rs_hp m1) (rs_lp m1) (mkfit (bufs (rs_fit m)) true), Ok tt) /\
  (sr = sr' -> dur = dur' -> hp = hp' -> lp = lp' -> built (rs_fit m) = true -> rs_load f32 m1 true (rs_state m) = (m, Ok tt)).
Proof.
  intros HR E E' SZ m. pose proof (rs_reach f32 h _ _ _ _ _ _ HR E) as H. fold m in H. destruct H as (A1 & A2 & A3 & A4 & A5 & b & Eb & Sb & Vb).
  destruct (rs_create_ok f32 _ _ _ _ _ _ HR E') as [(_ & _ & _ & _ & _ & b1 & Eb1 & Sb1 & _) _].
  assert (CH : rs_ch m1 = rs_ch m0).
  { revert E E'. clear. unfold rescaler_create. destruct (_ <? 0)%Z; [discriminate|]. destruct (_ <? 0)%Z; [discriminate|]. intros E E'. injection E as <-. injection E' as <-. reflexivity. }
  assert (CA : cast f32 (rs_state m) = bufs (rs_fit m)).
  { unfold cast, rs_state. rewrite Eb. cbn [map fst snd]. repeat f_equal. destruct b as [s f]. unfold tmap. cbn in *. f_equal. apply functional_extensionality, Vb. }
  assert (P1 : rs_load f32 m1 true (rs_state m) = (mkresc (rs_sr m1) (rs_ch m1) (rs_size m1) (rs_hp m1) (rs_lp m1) (mkfit (bufs (rs_fit m)) true), Ok tt)).
  { unfold rs_load. rewrite CA, load_self; [reflexivity| |].
    - unfold shapes. rewrite Eb, Eb1. cbn [map fst snd]. rewrite Sb, Sb1, CH, SZ. reflexivity.
    - rewrite Eb. cbn. repeat constructor. intros []. }
  split; [exact P1|]. intros -> -> -> -> Hb. rewrite P1. f_equal. assert (m1 = m0) by congruence. subst m1.
  destruct m as [x1 x2 x3 x4 x5 [x6 x7]]. cbn in *. congruence.
Qed.
Theorem snr_rescaler_unfitted_refuted f32 ni sr dur hp lp m0 perm X t : rounding f32 -> rescaler_create ni sr dur hp lp = Ok m0 ->
  rescaler_forward m0 perm X t = Err ValueError /\
  exists m' snrs, rs_load f32 m0 true (rs_state m0) = (m', Ok tt) /\ snrs = compute_network_snr X (mk [ni; rbins (rs_size m0)] (fun _ => 0)) (rs_sr m0) (rs_hp m0) (rs_lp m0) /\
    (forall s, snrs = Ok s -> rescaler_forward m' perm X t <> Err ValueError).
Proof.
  intros HR E. assert (E0 := E). unfold rescaler_create in E. destruct (_ <? 0)%Z; [discriminate|]. injection E as E.
  split; [rewrite <- E; reflexivity|]. do 2 eexists. split; [exact (proj1 (snr_rescaler_checkpoint f32 ni sr dur hp lp m0 [] sr dur hp lp m0 HR E0 E0 eq_refl))|]. split; [reflexivity|].
  intros s Hs. unfold rescaler_forward, call. cbn [rs_fit bufs built bind rs_sr rs_hp rs_lp rs_run]. rewrite <- E at 1. cbn [rs_fit bufs assoc]. sdec.
  replace (mk [ni; rbins _] (fun _ => 0)) with (mk [ni; rbins (rs_size m0)] (fun _ : list nat => 0)) by (rewrite <- E; reflexivity). rewrite Hs. cbn [bind].
  repeat match goal with |- context [bzip ?f ?a ?b] => let y := fresh "y9" in let Q9 := fresh "Q9" in
      destruct (bzip f a b) as [y|y] eqn:Q9; cbn [bind]; [|intros Z9; injection Z9 as ->; apply bzip_not_value in Q9; exact Q9] end. discriminate.
Qed.

(** ** ChannelWiseScaler *)
Definition sc_ok (s : list nat) (st : fit R) : Prop :=
  exists a b, bufs st = [("mean"%string, a); ("std"%string, b)] /\ shape a = s /\ shape b = s.
Definition sc_shape (nc : option nat) : list nat := match nc with None => [1%nat] | Some n => [if (n =? 0)%nat then 1%nat else n; 1%nat] end.
Lemma sc_create_ok nc : sc_ok (sc_shape nc) (scaler_create nc).
Proof. unfold sc_ok, scaler_create. cbn [bufs]. do 2 eexists. split; [reflexivity|]. cbn. auto. Qed.
Lemma copy_exact (b v : tensor R) : shape b = shape v -> exists c, copy_ b v = Ok c.
Proof. intros E. unfold copy_. rewrite E, bshape_self. destruct (list_eq_dec _ _ _); [eauto|congruence]. Qed.
Lemma sc_fit_cases nc st X reg : sc_ok (sc_shape nc) st ->
  (exists e, scaler_fit st X reg = (st, Err e)) \/
  (exists st', scaler_fit st X reg = (st', Ok tt) /\ sc_ok (sc_shape nc) st' /\ forall st1, sc_ok (sc_shape nc) st1 -> scaler_fit st1 X reg = (st', Ok tt)).
Proof.
  intros (a & b & E & Sa & Sb).
  assert (GO : shape (mean_last true X) = sc_shape nc -> shape (std_last X) = sc_shape nc -> exists st', sc_ok (sc_shape nc) st' /\
     forall st1, sc_ok (sc_shape nc) st1 -> build st1 [("mean"%string, mean_last true X); ("std"%string, tmap (fun v => v + reg) (std_last X))] = (st', Ok tt)).
  { intros S1 S2. destruct (copy_exact a (mean_last true X)) as [c1 C1]; [congruence|]. destruct (copy_exact b (tmap (fun v => v + reg) (std_last X))) as [c2 C2]; [unfold tmap; cbn [shape]; congruence|].
    exists (mkfit [("mean"%string, c1); ("std"%string, c2)] true). split.
    - exists c1, c2. split; [reflexivity|]. rewrite (copy_shape _ _ _ C1), (copy_shape _ _ _ C2). auto.
    - intros st1 (a1 & b1 & E1 & Sa1 & Sb1). cbn [build]. rewrite E1. cbn [assoc]. sdec. rewrite (copy_same a1 a) by congruence. rewrite C1. cbn [bufs update]. sdec. cbn [assoc]. sdec.
      rewrite (copy_same b1 b) by congruence. rewrite C2. cbn [bufs update built]. sdec; reflexivity. }
  unfold scaler_fit. destruct (shape X) as [|c [|d [|]]] eqn:SX; try (left; eexists; reflexivity).
  - unfold ndim_of. rewrite E. cbn [assoc]. sdec. unfold ndim. rewrite Sa, Sb. destruct nc as [n|]; cbn [sc_shape List.length]; [left; eexists; reflexivity|].
    cbn [Nat.eqb andb]. right. destruct GO as (st' & H1 & H2); [unfold mean_last; cbn [shape]; rewrite SX; reflexivity|unfold std_last; cbn [shape]; rewrite SX; reflexivity|].
    exists st'. split; [apply H2; exists a, b; auto|]. split; [exact H1|]. intros st1 H. assert (H' := H). destruct H' as (a1 & b1 & E1 & Sa1 & Sb1). rewrite E1. cbn [assoc]. sdec.
    rewrite Sa1, Sb1. cbn [sc_shape List.length Nat.eqb andb]. apply H2, H.
  - rewrite E. cbn [assoc]. sdec. unfold ndim. rewrite Sa, Sb. destruct nc as [n|]; cbn [sc_shape List.length hd]; [|left; eexists; reflexivity].
    change ((2 =? 2)%nat) with true. cbn [andb]. destruct (Nat.eqb_spec c (if (n =? 0)%nat then 1%nat else n)) as [Ec|Ec]; [|left; eexists; reflexivity]. cbn [andb].
    right. destruct GO as (st' & H1 & H2); [unfold mean_last; cbn [shape]; rewrite SX; cbn; congruence|unfold std_last; cbn [shape]; rewrite SX; cbn; congruence|].
    exists st'. split; [apply H2; exists a, b; auto|]. split; [exact H1|]. intros st1 H. assert (H' := H). destruct H' as (a1 & b1 & E1 & Sa1 & Sb1). rewrite E1. cbn [assoc]. sdec.
    rewrite Sa1, Sb1. cbn [sc_shape List.length hd]. change ((2 =? 2)%nat) with true. cbn [andb]. rewrite <- Ec, Nat.eqb_refl. cbn [andb]. apply H2, H.
Qed.
Lemma sc_step_inv nc st o : sc_ok (sc_shape nc) st -> sc_ok (sc_shape nc) (fst (sc_step st o)).
Proof.
  intros H. destruct o as [X reg|strict sd|X rv]; cbn [sc_step].
  - destruct (sc_fit_cases nc st X reg H) as [[e ->]|(st' & -> & H' & _)]; assumption.
  - destruct H as (a & b & E & Sa & Sb). unfold load. rewrite E. cbn [map fst]. unfold sc_ok, load_one. cbn [bufs fst snd].
    destruct (assoc "mean" sd) as [v|]; [destruct (list_eq_dec Nat.eq_dec (shape v) (shape a))|];
    (destruct (assoc "std" sd) as [w|]; [destruct (list_eq_dec Nat.eq_dec (shape w) (shape b))|]);
    do 2 eexists; (split; [reflexivity|]); split; congruence.
  - exact H.
Qed.
Lemma sc_reach nc h : sc_ok (sc_shape nc) (sc_run (scaler_create nc) h).
Proof.
  assert (G : forall st, sc_ok (sc_shape nc) st -> sc_ok (sc_shape nc) (sc_run st h)).
  { induction h as [|o h IH]; intros st H; [exact H|]. cbn [sc_run]. apply IH, sc_step_inv, H. }
  apply G, sc_create_ok.
Qed.
Theorem scaler_history nc h X reg :
  let st := sc_run (scaler_create nc) h in let r := scaler_fit st X reg in
  (snd r = Ok tt -> r = scaler_fit (scaler_create nc) X reg) /\ (snd r <> Ok tt -> fst r = st) /\
  (forall Y rv, sc_run (scaler_create nc) (h ++ [SCall Y rv]) = st).
Proof.
  intros st r. pose proof (sc_reach nc h) as H. fold st in H.
  destruct (sc_fit_cases nc st X reg H) as [[e Ee]|(m' & Em & _ & K)]; unfold r; split; [|split| |split].
  - rewrite Ee. discriminate.
  - rewrite Ee. reflexivity.
  - intros. unfold st. clear. generalize (scaler_create nc). induction h as [|o h IH]; intros m0; [reflexivity|]. cbn [app sc_run]. apply IH.
  - rewrite Em, (K _ (sc_create_ok nc)). reflexivity.
  - rewrite Em. cbn. congruence.
  - intros. unfold st. clear. generalize (scaler_create nc). induction h as [|o h IH]; intros m0; [reflexivity|]. cbn [app sc_run]. apply IH.
Qed.
(** the state of a scaler loaded in a new one of as many channels: it has the first's mean and standard deviation, fitted or not *)
Theorem scaler_checkpoint nc h : let st := sc_run (scaler_create nc) h in
  load (scaler_create nc) true (state_dict st) = (mkfit (state_dict st) true, Ok tt) /\
  (built st = true -> load (scaler_create nc) true (state_dict st) = (st, Ok tt)).
Proof.
  intros st. assert (P : load (scaler_create nc) true (state_dict st) = (mkfit (state_dict st) true, Ok tt)).
  { apply load_self; destruct (sc_reach nc h) as (a & b & E & Sa & Sb); fold st in E.
    - unfold shapes. rewrite E. cbn [scaler_create bufs map fst snd]. rewrite Sa, Sb. reflexivity.
    - rewrite E. cbn [map fst]. constructor; [intros [Q|[]]; discriminate|]. constructor; [intros []|constructor]. }
  split; [exact P|]. intros Hb. rewrite P. f_equal. destruct st. cbn in *. congruence.
Qed.
(** a checkpoint of a scaler that was never fitted turns the new scaler into the identity, where it raised before *)
Theorem scaler_unfitted_refuted nc X pre T : shape X = pre ++ [nc; T] -> (0 < nc)%nat ->
  scaler_forward (scaler_create (Some nc)) X false = Err ValueError /\
  exists st' Y, load (scaler_create (Some nc)) true (state_dict (scaler_create (Some nc))) = (st', Ok tt) /\ scaler_forward st' X false = Ok Y /\ shape Y = shape X /\
    forall p c t, inb p pre -> (c < nc)%nat -> (t < T)%nat -> elt Y (p ++ [c; t]) = elt X (p ++ [c; t]).
Proof.
  intros SX H0. split; [reflexivity|]. destruct (scaler_checkpoint (Some nc) []) as [P _]. cbn [sc_run] in P.
  assert (HH : holds (mkfit (state_dict (scaler_create (Some nc))) true) nc (fun _ => 0) (fun _ => 1)).
  { split; [reflexivity|]. unfold state_dict, scaler_create. cbn [bufs assoc]. sdec. destruct (Nat.eqb_spec nc 0); [lia|].
    do 2 eexists. split; [reflexivity|]. split; [reflexivity|]. cbn. auto. }
  destruct (scaler_forward_values _ _ _ _ X pre T HH SX) as [(Y & EY & SY & V) _]. do 2 eexists. split; [exact P|]. split; [exact EY|]. split; [exact SY|].
  intros p c t Hp Hc Ht. rewrite V by assumption. lra.
Qed.
(** ** SpectralDensity: the loaded module computes what the saved one did, if they agree on segment length, stride, average and method *)
Theorem spectral_density_checkpoint m m' : shape (sd_win m) = shape (sd_win m') -> sd_n m' = sd_n m -> sd_stride m' = sd_stride m -> sd_avg m' = sd_avg m -> sd_fast m' = sd_fast m ->
  sd_load m' true (sd_state m) = (m, Ok tt).
Proof.
  intros SW E1 E2 E3 E4. unfold sd_load. change (sd_state m) with (bufs (mkfit (sd_state m) true)) at 1. rewrite load_self.
  - cbn [bufs sd_state]. destruct m. cbn in *. subst. reflexivity.
  - unfold shapes. cbn [bufs sd_state map fst snd shape]. rewrite SW. reflexivity.
  - cbn [bufs sd_state map fst]. constructor; [intros [Q|[]]; discriminate|]. constructor; [intros []|constructor].
Qed.

(** ** non-vacuity: a transform of one channel with 4 sample kernels, fitted by loading, then refused a state of two channels *)
Definition sd_ex : list (string * tensor ext) := [("psd"%string, mk [1; 3]%nat (fun _ => Fin 1)); ("fduration"%string, mk [1%nat] (fun _ => Fin 2))].
Lemma rtrunc_ex : rtrunc (4 * 1) = 4%Z.
Proof. unfold rtrunc. destruct (Rle_dec 0 (4 * 1)); [|lra]. apply Int_part_unique. split; lra. Qed.
Example checkpoint_ex fmax : exists m0 m0', fw_create 1 4 1 = Ok m0 /\ fw_create 2 4 1 = Ok m0' /\ rounding (fun x => x) /\
  let m := fw_run fmax (fun x => x) m0 [FLoad true sd_ex] in built (fw_psd m) = true /\ fw_fd m = 2 /\
  fst (fw_load (fun x => x) m true (fw_state m0')) <> m.
Proof.
  unfold fw_create. rewrite rtrunc_ex. change (4 <? -1)%Z with false. change (Z.to_nat (4 / 2 + 1)) with 3%nat. cbv iota.
  do 2 eexists. split; [reflexivity|]. split; [reflexivity|]. split; [split; auto|].
  cbn [fw_run fw_step]. split; [reflexivity|]. split; [reflexivity|]. intros E. apply (f_equal fw_fd) in E. cbn in E. lra.
Qed.
