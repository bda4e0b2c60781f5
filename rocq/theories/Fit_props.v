(** Property C37: fittable transforms over arbitrary histories. *)
From Coq Require Import String.
From Verif Require Import Base Tensor Rutil Slicing_model Streaming_model Norm_model Norm_props Gw_model Dft Spectral_model Fit_model.
Local Open Scope nat_scope.

(** ** specification, in terms of the shapes of the buffers *)
Definition shapes {A} (st : fit A) : list (string * list nat) := map (fun nb => (fst nb, shape (snd nb))) (bufs st).
(** a value of shape v can be copied into a buffer of shape b *)
Definition fits (b v : list nat) : Prop := bshape b v = Ok b.
(** operations that fit the transform: a build naming existing buffers with fitting values; a load in which no value that
    is present has the wrong shape (values may be missing) *)
Definition fitting {A} (sh : list (string * list nat)) (o : op A) : Prop :=
  match o with
  | OBuild ps => Forall (fun nv => exists s, assoc (fst nv) sh = Some s /\ fits s (shape (snd nv))) ps
  | OLoad _ sd => Forall (fun ns => forall v, assoc (fst ns) sd = Some v -> shape v = snd ns) sh
  | OCall => False
  end.

Lemma assoc_map {V W} (f : V -> W) n (l : list (string * V)) : assoc n (map (fun nb => (fst nb, f (snd nb))) l) = option_map f (assoc n l).
Proof. induction l as [|[m v] l IH]; cbn; [reflexivity|]. destruct (string_dec n m); [reflexivity|apply IH]. Qed.
Lemma assoc_update {V} n m (v : V) l : assoc n (update m v l) = if string_dec n m then option_map (fun _ => v) (assoc m l) else assoc n l.
Proof.
  induction l as [|[k u] l IH]; cbn; [destruct (string_dec n m); reflexivity|].
  destruct (string_dec m k) as [->|N]; cbn.
  - destruct (string_dec n k) as [->|]; [reflexivity|reflexivity].
  - destruct (string_dec n k) as [->|N']; [destruct (string_dec k m); [congruence|reflexivity]|apply IH].
Qed.
Lemma update_shapes {A} n (b v : tensor A) l : assoc n l = Some b -> shape v = shape b ->
  map (fun nb => (fst nb, shape (snd nb))) (update n v l) = map (fun nb => (fst nb, shape (snd nb))) l.
Proof.
  intros H E. induction l as [|[m u] l IH]; cbn in *; [reflexivity|]. destruct (string_dec n m) as [->|].
  - injection H as ->. cbn. rewrite E. reflexivity.
  - cbn. rewrite IH by assumption. reflexivity.
Qed.
Lemma copy_ok {A} (b v : tensor A) : (fits (shape b) (shape v) -> exists b', copy_ b v = Ok b' /\ shape b' = shape b /\ forall i, elt b' i = elt v (bidx (shape v) i)) /\
  (~ fits (shape b) (shape v) -> copy_ b v = Err RuntimeError).
Proof.
  unfold fits, copy_. split.
  - intros ->. destruct (list_eq_dec Nat.eq_dec (shape b) (shape b)); [|congruence]. eexists. repeat split.
  - intros N. destruct (bshape (shape b) (shape v)) as [s|]; [|reflexivity]. destruct (list_eq_dec Nat.eq_dec s (shape b)); [subst; congruence|reflexivity].
Qed.
Lemma fits_dec b v : {fits b v} + {~ fits b v}.
Proof. unfold fits. destruct (bshape b v) as [s|e]; [|right; discriminate]. destruct (list_eq_dec Nat.eq_dec s b); [left; congruence|right; congruence]. Qed.

Lemma build_lemma {A} : forall ps (st : fit A),
  shapes (fst (build st ps)) = shapes st /\
  (fitting (shapes st) (OBuild ps) -> built (fst (build st ps)) = true /\ snd (build st ps) = Ok tt) /\
  (~ fitting (shapes st) (OBuild ps) -> built (fst (build st ps)) = built st /\ (snd (build st ps) = Err KeyError \/ snd (build st ps) = Err RuntimeError)).
Proof.
  induction ps as [|[n v] ps IH]; intros st; cbn [build].
  - cbn. split; [reflexivity|]. split; [auto|]. intros H. exfalso. apply H. constructor.
  - assert (AS : assoc n (shapes st) = option_map shape (assoc n (bufs st))) by apply (assoc_map shape).
    destruct (assoc n (bufs st)) as [b|] eqn:E; cbn [option_map] in AS.
    2:{ cbn. split; [reflexivity|]. split; [|auto]. intros H. pose proof (Forall_inv H) as [s [H1 _]]. cbn in H1. congruence. }
    destruct (copy_ok b v) as [C1 C2]. destruct (fits_dec (shape b) (shape v)) as [F|F].
    + destruct (C1 F) as [b' [Eb [Sb _]]]. rewrite Eb. destruct (IH (mkfit (update n b' (bufs st)) (built st))) as [S1 [S2 S3]].
      assert (S0 : shapes (mkfit (update n b' (bufs st)) (built st)) = shapes st) by (unfold shapes; cbn [bufs]; apply (update_shapes n b); assumption).
      rewrite S0 in S1, S2, S3. split; [assumption|]. split.
      * intros H. inversion H; subst. apply S2. assumption.
      * intros H. apply S3. intros H'. apply H. constructor; [|assumption]. cbn. exists (shape b). auto.
    + rewrite (C2 F). cbn. split; [reflexivity|]. split; [|auto]. intros H. pose proof (Forall_inv H) as [s [H1 H2]]. cbn in H1, H2. congruence.
Qed.
Lemma load_lemma {A} (st : fit A) strict sd :
  shapes (fst (load st strict sd)) = shapes st /\
  (fitting (shapes st) (OLoad strict sd) -> built (fst (load st strict sd)) = true) /\
  (~ fitting (shapes st) (OLoad strict sd) -> built (fst (load st strict sd)) = built st /\ snd (load st strict sd) = Err RuntimeError).
Proof.
  unfold load. cbn [fst snd built].
  assert (M : existsb (mismatch sd) (bufs st) = false <-> fitting (shapes st) (OLoad strict sd)).
  { cbn. unfold shapes. rewrite Forall_map. rewrite Forall_forall. rewrite <- not_true_iff_false, existsb_exists. unfold mismatch. split.
    - intros H [n b] Hin v Hv. cbn in *. destruct (list_eq_dec Nat.eq_dec (shape v) (shape b)) as [|N]; [assumption|].
      exfalso. apply H. exists (n, b). split; [assumption|]. cbn. rewrite Hv. destruct (list_eq_dec Nat.eq_dec (shape v) (shape b)); congruence.
    - intros H [[n b] [Hin Hm]]. specialize (H _ Hin). cbn in *. destruct (assoc n sd) as [v|]; [|discriminate].
      rewrite (H v eq_refl) in Hm. destruct (list_eq_dec Nat.eq_dec (shape b) (shape b)); congruence. }
  split; [|split].
  - unfold shapes. cbn [bufs]. rewrite map_map. apply map_ext. intros [n b]. unfold load_one. cbn [fst snd].
    destruct (assoc n sd) as [v|]; [|reflexivity]. destruct (list_eq_dec Nat.eq_dec (shape v) (shape b)) as [E|]; cbn; [rewrite E|]; reflexivity.
  - intros H. apply M in H. rewrite H. cbn. apply orb_true_r.
  - intros H. destruct (existsb (mismatch sd) (bufs st)) eqn:E; [|exfalso; apply H, M; reflexivity]. cbn. rewrite orb_false_r. auto.
Qed.
Lemma step_lemma {A} (st : fit A) o : shapes (fst (step st o)) = shapes st /\
  (fitting (shapes st) o -> built (fst (step st o)) = true) /\ (~ fitting (shapes st) o -> built (fst (step st o)) = built st).
Proof.
  destruct o as [ps|strict sd|]; cbn [step].
  - destruct (build_lemma ps st) as [S1 [S2 S3]]. repeat split; [assumption|apply S2|apply S3].
  - destruct (load_lemma st strict sd) as [S1 [S2 S3]]. repeat split; [assumption|assumption|apply S3].
  - cbn. tauto.
Qed.

(** ** the buffers' names and shapes never change *)
Theorem fittable_shapes_invariant {A} (st : fit A) h : shapes (fst (run st h)) = shapes st.
Proof.
  revert st. induction h as [|o h IH]; intros st; [reflexivity|]. cbn. destruct (step st o) as [st1 r] eqn:E. specialize (IH st1).
  destruct (run st1 h) as [st2 rs]. cbn in *. rewrite IH. pose proof (step_lemma st o) as [H _]. rewrite E in H. exact H.
Qed.
Lemma fitting_dec {A} sh (o : op A) : fitting sh o \/ ~ fitting sh o.
Proof.
  destruct o as [ps|s sd|]; cbn; [| |tauto].
  - destruct (Forall_dec (fun nv : string * tensor A => exists s, assoc (fst nv) sh = Some s /\ fits s (shape (snd nv)))
      ltac:(intros [n v]; cbn; destruct (assoc n sh) as [s|]; [destruct (fits_dec s (shape v)); [left; eauto|right; intros [? [H ?]]; congruence]|right; intros [? [H ?]]; congruence]) ps); tauto.
  - destruct (Forall_dec (fun ns : string * list nat => forall v, assoc (fst ns) sd = Some v -> shape v = snd ns)
      ltac:(intros [n s0]; cbn; destruct (assoc n sd) as [v|]; [destruct (list_eq_dec Nat.eq_dec (shape v) s0); [left; congruence|right; intros H; apply n0, H; reflexivity]|left; discriminate]) sh); tauto.
Qed.
(** a call in any history of a new transform succeeds in passing the check exactly when an earlier operation fitted it;
    otherwise it raises ValueError *)
Theorem fittable_call_iff {A} (st : fit A) h : built st = false ->
  (Exists (fitting (shapes st)) h -> call (fst (run st h)) = Ok (bufs (fst (run st h)))) /\
  (~ Exists (fitting (shapes st)) h -> call (fst (run st h)) = Err ValueError).
Proof.
  intros H0. assert (G : forall h (s : fit A), shapes s = shapes st ->
     (Exists (fitting (shapes st)) h -> built (fst (run s h)) = true) /\ (~ Exists (fitting (shapes st)) h -> built (fst (run s h)) = built s) /\ (built s = true -> built (fst (run s h)) = true)).
  { clear h. induction h as [|o h IH]; intros s Hs; cbn [run].
    - cbn. repeat split; auto. intros H. inversion H.
    - destruct (step s o) as [s1 r] eqn:E. pose proof (step_lemma s o) as L. rewrite E, Hs in L. cbn [fst] in L. destruct L as [L1 [L2 L3]].
      destruct (IH s1 L1) as [I1 [I2 I3]]. destruct (run s1 h) as [s2 rs]. cbn [fst] in *. repeat split.
      + intros H. inversion H; subst; [apply I3, L2; assumption|apply I1; assumption].
      + intros H. rewrite I2 by (intros X; apply H; right; assumption). apply L3. intros X. apply H. left. assumption.
      + intros H. destruct (fitting_dec (shapes st) o) as [F|F]; apply I3; [auto|rewrite L3; assumption]. }
  destruct (G h st eq_refl) as [G1 [G2 _]]. unfold call. split; intros H.
  - rewrite G1 by assumption. reflexivity.
  - rewrite G2, H0 by assumption. reflexivity.
Qed.
(** every call in the history is decided by the operations before it *)
Theorem fittable_run_calls {A} (st : fit A) h1 h2 : built st = false ->
  nth_error (snd (run st (h1 ++ OCall :: h2))) (List.length h1) =
    Some (match call (fst (run st h1)) with Ok _ => Ok tt | Err e => Err e end).
Proof.
  intros _. revert st. induction h1 as [|o h1 IH]; intros st; cbn.
  - destruct (run st h2). reflexivity.
  - destruct (step st o) as [s1 r]. specialize (IH s1). destruct (run s1 (h1 ++ OCall :: h2)) as [sa ra], (run s1 h1) as [sb rb]. exact IH.
Qed.
(** what a successful build stores, and what a successful strict load stores *)
Theorem build_values {A} (st : fit A) n v b : assoc n (bufs st) = Some b -> fits (shape b) (shape v) ->
  exists st', build st [(n, v)] = (st', Ok tt) /\ built st' = true /\
   (exists b', assoc n (bufs st') = Some b' /\ shape b' = shape b /\ forall i, elt b' i = elt v (bidx (shape v) i)) /\
   forall m, m <> n -> assoc m (bufs st') = assoc m (bufs st).
Proof.
  intros E F. cbn. rewrite E. destruct (copy_ok b v) as [C _]. destruct (C F) as [b' [Eb [Sb Gb]]]. rewrite Eb. eexists. split; [reflexivity|].
  cbn. split; [reflexivity|]. split.
  - exists b'. rewrite assoc_update, E. destruct (string_dec n n); [auto|congruence].
  - intros m Hm. rewrite assoc_update. destruct (string_dec m n); [congruence|reflexivity].
Qed.
Theorem load_strict_values {A} (st : fit A) sd st' : load st true sd = (st', Ok tt) ->
  built st' = true /\ forall n b, assoc n (bufs st) = Some b -> exists v, assoc n sd = Some v /\ assoc n (bufs st') = Some v /\ shape v = shape b.
Proof.
  unfold load. intros H. injection H as <- H. destruct (existsb (mismatch sd) (bufs st)) eqn:E1; cbn in H; [discriminate|].
  match type of H with (if ?x || ?y then _ else _) = _ => destruct x eqn:E2; cbn in H; [discriminate|] end. cbn. split; [apply orb_true_r|].
  clear H. induction (bufs st) as [|[m u] l IH]; intros n b Hn; cbn in *; [discriminate|].
  apply orb_false_iff in E1, E2. destruct E1 as [E1 E1'], E2 as [E2 E2']. unfold load_one, mismatch in *. cbn [fst snd] in *.
  destruct (assoc m sd) as [v|] eqn:Em; [|discriminate]. destruct (list_eq_dec Nat.eq_dec (shape v) (shape u)) as [Es|]; [|discriminate].
  cbn. destruct (string_dec n m) as [->|].
  - injection Hn as <-. exists v. auto.
  - apply IH; assumption.
Qed.
(** ** deviations *)
(** loading an empty state dict raises (strict) but marks the never fitted transform as built, so that calls go through
    with the initial buffers *)
Theorem load_empty_marks_built_refuted {A} (st : fit A) n b : bufs st = [(n, b)] ->
  snd (load st true []) = Err RuntimeError /\ call (fst (load st true [])) = Ok (bufs st) /\ snd (load st false []) = Ok tt.
Proof. intros E. unfold load, call. rewrite E. cbn. rewrite orb_true_r. repeat split. Qed.
(** a failing re-build overwrites the buffers named before the failing one, and the transform stays callable *)
Theorem failed_rebuild_refuted {A} (st : fit A) n m v b : built st = true -> assoc n (bufs st) = Some b -> shape v = shape b -> assoc m (bufs st) = None ->
  snd (build st [(n, v); (m, v)]) = Err KeyError /\ built (fst (build st [(n, v); (m, v)])) = true /\
  exists b', assoc n (bufs (fst (build st [(n, v); (m, v)]))) = Some b' /\ forall i, elt b' i = elt v (bidx (shape v) i).
Proof.
  intros Hb E S Em. cbn. rewrite E.
  assert (F : fits (shape b) (shape v)).
  { rewrite S. unfold fits, bshape. set (l := shape b).
    assert (G : forall r, bshape_rev r r = Ok r) by (induction r as [|d r IH]; cbn; [reflexivity|]; rewrite bdim_refl; cbn; rewrite IH; reflexivity).
    rewrite G. cbn. rewrite rev_involutive. reflexivity. }
  destruct (copy_ok b v) as [C _]. destruct (C F) as [b' [Eb [Sb Gb]]]. rewrite Eb. cbn. rewrite assoc_update.
  destruct (string_dec m n) as [->|Nm]; [congruence|]. rewrite Em. cbn. repeat split; [assumption|]. exists b'. rewrite assoc_update, E.
  destruct (string_dec n n); [auto|congruence].
Qed.
(** ** non-vacuity *)
Example fittable_example : let st := scaler_create (Some 2) in let v := mk [2; 1] (fun _ => 3%R) in
  built st = false /\ fitting (shapes st) (OBuild [("mean"%string, v); ("std"%string, v)]) /\ ~ fitting (shapes st) (OBuild [("foo"%string, v)]).
Proof.
  cbn. repeat split.
  - repeat constructor; cbn; eexists; split; reflexivity.
  - intros H. inversion H as [|? ? [s [H1 _]] _]; subst. cbn in H1. discriminate.
Qed.
