(** Who may change what: in-place augmentations, and the isolation of streaming state and datasets from their consumers. *)
From Coq Require Import FunctionalExtensionality.
From Verif Require Import Base Tensor Slicing_model Rutil Streaming_model Norm_model Norm_props Snap_props Oavg_props Heap_model.
Local Open Scope nat_scope.

(** ** Specification vocabulary *)
(** cell j of buffer a belongs to the tensor r *)
Definition owns (r : ref) (a : nat) (j : list nat) : Prop := a = r_addr r /\ exists i, inb i (r_shape r) /\ r_map r i = j.
(** distinct entries of the tensor are distinct cells (false only of expanded tensors) *)
Definition distinct_cells (r : ref) : Prop := forall i j, inb i (r_shape r) -> inb j (r_shape r) -> r_map r i = r_map r j -> i = j.
Definition allocated (h : heap) (r : ref) : Prop := r_addr r < h_next h.
(** h' differs from h at most in cells that satisfy P, and in newly allocated buffers *)
Definition writes_only (P : nat -> list nat -> Prop) (h h' : heap) : Prop :=
  h_next h <= h_next h' /\ forall a j, a < h_next h -> ~ P a j -> h_cell h' a j = h_cell h a j.
(** a call that changes nothing that existed before it *)
Definition only_allocates : heap -> heap -> Prop := writes_only (fun _ _ => False).

(** A session: calls of a stateful module [F] (update, state -> outputs, new state) from a heap in which the caller may write the
    cells in [P].  Before each call the caller does anything it can: it writes any of those cells, any buffer it allocated itself
    and any cell of the outputs it was handed by earlier calls; it only leaves the state alone, and passes it back.  The lists are
    the contents of the updates when they were passed and of the outputs when they were returned. *)
Inductive session (F : ref -> option ref -> heap -> res (heap * list ref * ref)) :
  heap -> (nat -> list nat -> Prop) -> option ref -> list (tensor R) -> list (list (tensor R)) -> Prop :=
| session_end h P st : session F h P st [] []
| session_call h P st h1 u h2 outs st' us os :
    writes_only P h h1 -> allocated h1 u -> F u st h1 = Ok (h2, outs, st') ->
    session F h2 (fun a j => P a j \/ h_next h <= a < h_next h1 \/ exists o, In o outs /\ owns o a j) (Some st') us os ->
    session F h P st (rd h1 u :: us) (map (rd h2) outs :: os).
(** at the start everything that exists is the caller's *)
Definition everything (h : heap) : nat -> list nat -> Prop := fun a _ => a < h_next h.

(** ** Basic facts *)
Lemma rd_new h t : rd (fst (new h t)) (snd (new h t)) = t.
Proof. unfold rd, new. cbn. destruct t as [s e]. cbn. f_equal. extensionality i. rewrite Nat.eqb_refl. reflexivity. Qed.
Lemma rd_eq h h' r : (forall i, h_cell h' (r_addr r) (r_map r i) = h_cell h (r_addr r) (r_map r i)) -> rd h' r = rd h r.
Proof. intros H. unfold rd. f_equal. extensionality i. apply H. Qed.
Lemma rd_keep h h' r : only_allocates h h' -> allocated h r -> rd h' r = rd h r.
Proof. intros [_ H] A. apply rd_eq. intros i. apply H; [exact A|tauto]. Qed.
Lemma new_allocates h t : only_allocates h (fst (new h t)).
Proof. split; cbn; [lia|]. intros a j Ha _. replace (a =? h_next h) with false by lia. reflexivity. Qed.
Lemma allocates_refl h : only_allocates h h. Proof. split; [lia|]. reflexivity. Qed.
Lemma allocates_trans h1 h2 h3 : only_allocates h1 h2 -> only_allocates h2 h3 -> only_allocates h1 h3.
Proof. intros [A B] [D E]. split; [lia|]. intros a j Ha Hn. rewrite E by (try lia; tauto). apply B; [lia|tauto]. Qed.
Lemma rd_slice h a b r : rd h (slice_last_h a b r) = slice_last a b (rd h r).
Proof. reflexivity. Qed.
Lemma rd_unsqueeze h r : rd h (unsqueeze0_h r) = unsqueeze0 (rd h r).
Proof. reflexivity. Qed.
Lemma rd_split2 h a b r : rmap (fun p => (rd h (fst p), rd h (snd p))) (split2_last_h a b r) = split2_last a b (rd h r).
Proof. unfold split2_last_h, split2_last. cbn [rd shape]. destruct (r_shape r); [reflexivity|]. match goal with |- context [if ?c then _ else _] => destruct c end; reflexivity. Qed.
Lemma rd_split1_from h r sizes : forall off, map (rd h) (split1_from_h off sizes r) = split1_from off sizes (rd h r).
Proof.
  induction sizes as [|n rest IH]; intros off; [reflexivity|]. cbn [split1_from_h split1_from map]. rewrite IH. f_equal.
  unfold rd at 2. cbn [shape]. destruct (r_shape r) as [|b [|c [|t [|]]]]; try reflexivity. unfold view, rd. cbn. f_equal. extensionality i.
  destruct i as [|k [|c' [|j [|]]]]; reflexivity.
Qed.
Lemma rd_split1 h r sizes : rmap (map (rd h)) (split1_h sizes r) = split1 sizes (rd h r).
Proof.
  unfold split1_h, split1. cbn [rd shape]. destruct (r_shape r) as [|b [|c [|t [|]]]]; try reflexivity. destruct (list_sum sizes =? c); [|reflexivity].
  cbn [rmap]. rewrite rd_split1_from. reflexivity.
Qed.
Lemma split1_from_addr r sizes o : forall off, In o (split1_from_h off sizes r) -> r_addr o = r_addr r.
Proof.
  induction sizes as [|n rest IH]; intros off H; [destruct H|]. cbn [split1_from_h] in H. destruct H as [<-|H]; [|apply (IH _ H)].
  destruct (r_shape r) as [|b [|c [|t [|]]]]; reflexivity.
Qed.
Lemma split1_addr r sizes outs o : split1_h sizes r = Ok outs -> In o outs -> r_addr o = r_addr r.
Proof.
  unfold split1_h. destruct (r_shape r) as [|b [|c [|t [|]]]]; try discriminate. destruct (list_sum sizes =? c); [|discriminate]. intros E H.
  injection E as <-. apply (split1_from_addr _ _ _ _ H).
Qed.

(** ** In-place augmentations *)
Lemma store_at h r y i : distinct_cells r -> inb i (r_shape r) -> elt (rd (store h r y) r) i = elt y i.
Proof.
  intros D Hi. unfold rd, store. cbn [elt h_cell]. rewrite Nat.eqb_refl.
  destruct (find _ _) as [i'|] eqn:E.
  - apply find_some in E. destruct E as [Hin E]. destruct (list_eq_dec _ _ _) as [E2|]; [|discriminate]. apply all_idx_spec in Hin. rewrite (D i' i Hin Hi E2). reflexivity.
  - exfalso. apply all_idx_spec in Hi. pose proof (find_none _ _ E i Hi) as N. cbn in N. destruct (list_eq_dec _ _ _); congruence.
Qed.
Lemma store_frame h r y a j : ~ owns r a j -> h_cell (store h r y) a j = h_cell h a j.
Proof.
  intros N. unfold store. cbn. destruct (Nat.eqb_spec a (r_addr r)) as [E|]; [|reflexivity].
  destruct (find _ _) as [i|] eqn:F; [|reflexivity]. exfalso. apply find_some in F. destruct F as [Hin F]. destruct (list_eq_dec _ _ _) as [E2|]; [|discriminate].
  apply N. split; [exact E|]. exists i. split; [apply all_idx_spec, Hin|exact E2].
Qed.
(** SignalInverter returns the very tensor it was given, with the series whose draw is below prob negated in place, and changes no
    cell outside it. *)
Theorem inverter_in_place prob rand (x : ref) h : distinct_cells x -> r_shape x <> [] ->
  exists h', invert_h prob rand x h = Ok (h', x) /\ writes_only (owns x) h h' /\ h_next h' = h_next h /\
    forall i, inb i (r_shape x) -> elt (rd h' x) i = if Rlt_dec (rand (removelast i)) prob then (- elt (rd h x) i)%R else elt (rd h x) i.
Proof.
  intros D Hs. destruct (signal_inverter_spec prob rand (rd h x) Hs) as [y [E [Sy V]]]. unfold invert_h. rewrite E. cbn [bind].
  exists (store h x y). split; [reflexivity|]. split; [split; [cbn; lia|intros a j _ N; apply store_frame, N]|]. split; [reflexivity|].
  intros i Hi. rewrite store_at by assumption. destruct (V i Hi) as [V1 V2]. destruct (Rlt_dec _ _); [apply V1; assumption|apply V2; apply Rnot_lt_ge; assumption].
Qed.
(** SignalReverser likewise *)
Theorem reverser_in_place prob rand (x : ref) h : distinct_cells x -> r_shape x <> [] ->
  exists h', reverse_h prob rand x h = Ok (h', x) /\ writes_only (owns x) h h' /\ h_next h' = h_next h /\
    forall i t, inb (i ++ [t]) (r_shape x) -> elt (rd h' x) (i ++ [t]) =
      if Rlt_dec (rand i) prob then elt (rd h x) (i ++ [last (r_shape x) 0 - 1 - t]) else elt (rd h x) (i ++ [t]).
Proof.
  intros D Hs. destruct (signal_reverser_spec prob rand (rd h x) Hs) as [y [E [Sy V]]]. unfold reverse_h. rewrite E. cbn [bind].
  exists (store h x y). split; [reflexivity|]. split; [split; [cbn; lia|intros a j _ N; apply store_frame, N]|]. split; [reflexivity|].
  intros i t Hi. rewrite store_at by assumption. destruct (V i t Hi) as [V1 V2]. destruct (Rlt_dec _ _); [apply V1; assumption|apply V2; apply Rnot_lt_ge; assumption].
Qed.

(** ** Windows and kernels *)
Theorem slice_kernels_fresh x idx k h : allocated h x ->
  match slice_kernels_h x idx k h with
  | Ok (h', y) => slice_kernels (rd h x) idx k = Ok (rd h' y) /\ only_allocates h h' /\ h_next h <= r_addr y < h_next h' /\ distinct_cells y
  | Err e => slice_kernels (rd h x) idx k = Err e
  end.
Proof.
  intros A. unfold slice_kernels_h. destruct (slice_kernels (rd h x) idx k) as [y|e]; [|reflexivity]. cbn [bind]. destruct (new h y) as [h' r] eqn:E.
  pose proof (rd_new h y) as E1. pose proof (new_allocates h y) as E2. rewrite E in E1, E2. cbn in E1, E2. rewrite E1. split; [reflexivity|]. split; [exact E2|].
  unfold new in E. injection E as <- <-. cbn. split; [lia|]. intros i j _ _ H. exact H.
Qed.
(** the windows of unfold_windows are a copy; the tail, when there is one, is a view of the end of x *)
Theorem unfold_windows_sharing x w s drop h : allocated h x ->
  match unfold_windows_h x w s drop h with
  | Ok (h', y, tail) =>
      unfold_windows 0%R (rd h x) w s drop = Ok (rd h' y, option_map (rd h') tail) /\ only_allocates h h' /\ h_next h <= r_addr y < h_next h' /\
      forall t, tail = Some t -> let rem := Z.to_nat ((Z.of_nat (last (r_shape x) 0) - w) mod s) in
        (rem = 0 -> r_addr t <> r_addr x) /\
        (0 < rem -> forall h'' i k, elt (rd h'' t) (0 :: i ++ [k]) = elt (rd h'' x) (i ++ [last (r_shape x) 0 - rem + k]))
  | Err e => unfold_windows 0%R (rd h x) w s drop = Err e
  end.
Proof.
  intros A. unfold unfold_windows_h. destruct (unfold_windows 0%R (rd h x) w s drop) as [[y tl]|e] eqn:EU; [|reflexivity]. cbn [bind].
  destruct (new h y) as [h1 wr] eqn:E. pose proof (rd_new h y) as E1. pose proof (new_allocates h y) as E2. rewrite E in E1, E2. cbn in E1, E2.
  assert (Ewr : r_addr wr = h_next h /\ h_next h1 = S (h_next h)) by (unfold new in E; injection E as <- <-; split; reflexivity). destruct Ewr as [Ewr Eh1].
  destruct tl as [t|]; [|cbn [option_map]; rewrite E1; repeat split; try apply E2; try lia; discriminate].
  set (T := Z.of_nat (last (r_shape x) 0)). set (nw := ((T - w) / s + 1)%Z). set (rm := (T - w - (nw - 1) * s)%Z).
  assert (EUr := EU). unfold unfold_windows in EUr. destruct (last_dim (rd h x)) as [T'|] eqn:ET; [|discriminate]. cbn [bind] in EUr.
  assert (HT : T' = T) by (unfold last_dim in ET; cbn [rd shape] in ET; unfold T; destruct (r_shape x); [discriminate|injection ET as <-; reflexivity]). subst T'.
  destruct (Z.eqb_spec s 0) as [|Hs]; [discriminate|]. fold nw rm in EUr.
  assert (Hrm : rm = ((T - w) mod s)%Z) by (unfold rm, nw; rewrite (Z.mod_eq (T - w) s Hs); ring).
  destruct drop; [exfalso; destruct (rm =? 0)%Z; cbn [bind] in EUr; [|destruct (split2_last _ _ _) as [[? ?]|]; cbn [bind] in EUr; [|discriminate]];
    repeat (apply bind_ok in EUr; destruct EUr as [? [_ EUr]]); discriminate|].
  destruct (rm =? 0)%Z eqn:Er; cbn [bind] in EUr.
  - destruct (new h1 t) as [h2 tr] eqn:En. pose proof (rd_new h1 t) as N1. pose proof (new_allocates h1 t) as N2. rewrite En in N1, N2. cbn in N1, N2.
    assert (Etr : r_addr tr = h_next h1 /\ h_next h2 = S (h_next h1)) by (unfold new in En; injection En as <- <-; split; reflexivity).
    rewrite (rd_keep h1 h2 wr N2) by (unfold allocated; lia). rewrite E1. cbn [option_map]. rewrite N1. split; [reflexivity|]. split; [eapply allocates_trans; eassumption|]. split; [lia|].
    intros t0 Ht0. injection Ht0 as <-. cbv zeta. fold T. rewrite <- Hrm. apply Z.eqb_eq in Er. rewrite Er. split; [intros _; unfold allocated in A; lia|]. intros HH. exfalso. cbn in HH. lia.
  - pose proof (rd_split2 h1 (T - rm) rm x) as R2. rewrite (rd_keep h h1 x E2 A) in R2.
    destruct (split2_last (T - rm) rm (rd h x)) as [[a b]|] eqn:Es; [|discriminate]. cbn [bind] in EUr.
    destruct (split2_last_h (T - rm) rm x) as [[p q]|] eqn:Eh; [|discriminate]. cbn [rmap fst snd] in R2. assert (R2b : rd h1 q = b) by congruence. cbn [bind].
    assert (Et : t = unsqueeze0 b) by (do 4 (apply bind_ok in EUr; destruct EUr as [? [_ EUr]]); congruence).
    cbn [option_map]. rewrite E1, rd_unsqueeze, R2b, Et. split; [reflexivity|]. split; [exact E2|]. split; [lia|].
    intros t0 Ht0. injection Ht0 as <-. cbv zeta. fold T. rewrite <- Hrm. apply Z.eqb_neq in Er.
    unfold split2_last_h in Eh. destruct (r_shape x) as [|d ds] eqn:Ex; [discriminate|]. rewrite <- Ex in *.
    match type of Eh with (if ?c then _ else _) = _ => destruct c eqn:Ec; [discriminate|] end. apply orb_false_iff in Ec. destruct Ec as [Ec _]. apply orb_false_iff in Ec. destruct Ec as [Ec1 Ec2].
    split; [intros H0; exfalso; lia|]. intros _ h'' i k. injection Eh as _ <-. unfold unsqueeze0_h, view, rd. cbn [elt r_addr r_map tl]. rewrite removelast_last, last_last.
    f_equal. f_equal. f_equal. f_equal. clear - Ec1 Ec2 Ex. rewrite Ex. unfold T in *. clearbody rm. lia.
Qed.

(** ** Sessions *)
(** [F] computes what the pure function [G] computes from the contents of its arguments, changes nothing that existed before the
    call, and no cell of its outputs is a cell of the state it returns. *)
Definition refines (F : ref -> option ref -> heap -> res (heap * list ref * ref)) (G : tensor R -> option (tensor R) -> res (list (tensor R) * tensor R)) : Prop :=
  forall u st h, allocated h u -> (forall r, st = Some r -> allocated h r) ->
  match F u st h with
  | Ok (h', outs, st') => G (rd h u) (option_map (rd h) st) = Ok (map (rd h') outs, rd h' st') /\ only_allocates h h' /\ h_next h <= r_addr st' < h_next h' /\
      (forall o, In o outs -> h_next h <= r_addr o < h_next h')
  | Err e => G (rd h u) (option_map (rd h) st) = Err e
  end.
Definition separates (F : ref -> option ref -> heap -> res (heap * list ref * ref)) : Prop :=
  forall u st h h' outs st', F u st h = Ok (h', outs, st') -> forall o i, In o outs -> ~ owns o (r_addr st') (r_map st' i).

Fixpoint run (G : tensor R -> option (tensor R) -> res (list (tensor R) * tensor R)) (us : list (tensor R)) (st : option (tensor R)) : res (list (list (tensor R))) :=
  match us with [] => Ok [] | u :: us' => let* (o, st') := G u st in let* os := run G us' (Some st') in Ok (o :: os) end.

Lemma session_run F G : refines F G -> separates F -> forall h P st us os, session F h P st us os ->
  (forall r, st = Some r -> allocated h r /\ forall i, ~ P (r_addr r) (r_map r i)) -> (forall a j, P a j -> a < h_next h) ->
  run G us (option_map (rd h) st) = Ok os.
Proof.
  intros HR HI h P st us os Hs. induction Hs as [h P st|h P st h1 u h2 outs st' us os [N1 K1] Hu EF Hs IH]; intros HP HB; [reflexivity|].
  assert (E1 : option_map (rd h) st = option_map (rd h1) st).
  { destruct st as [r|]; [|reflexivity]. cbn. f_equal. symmetry. destruct (HP r eq_refl) as [A NP]. apply rd_eq. intros i. apply K1; [exact A|apply NP]. }
  assert (A1 : forall r, st = Some r -> allocated h1 r) by (intros r Er; destruct (HP r Er) as [A _]; unfold allocated in *; lia).
  pose proof (HR u st h1 Hu A1) as R. rewrite EF in R. destruct R as [R1 [R2 [R3 R4]]]. cbn [run]. rewrite E1, R1. cbn [bind].
  assert (EI : run G us (option_map (rd h2) (Some st')) = Ok os).
  { apply IH.
    - intros r Er. injection Er as <-. split; [unfold allocated; lia|]. intros i [Q|[Q|[o [Ho Q]]]]; [apply HB in Q; lia|lia|]. apply (HI u st h1 h2 outs st' EF o i Ho Q).
    - intros a j [Q|[Q|[o [Ho Q]]]]; [apply HB in Q; destruct R2; lia|destruct R2; lia|]. destruct Q as [-> _]. apply R4 in Ho. lia. }
  cbn [option_map] in EI. rewrite EI. reflexivity.
Qed.
(** Sessions really exist: whenever the pure run succeeds, from fresh copies of the updates and with a caller that writes nothing. *)
Lemma session_exists F G : refines F G -> forall us h P st os, (forall r, st = Some r -> allocated h r) ->
  run G us (option_map (rd h) st) = Ok os -> session F h P st us os.
Proof.
  intros HR us. induction us as [|u us IH]; intros h P st os A E; [injection E as <-; constructor|].
  cbn [run] in E. apply bind_ok in E. destruct E as [[o t] [E1 E]]. apply bind_ok in E. destruct E as [os' [E2 E]]. injection E as <-.
  set (h1 := fst (new h u)). set (r := snd (new h u)). pose proof (new_allocates h u) as NA. fold h1 in NA.
  assert (Er : rd h1 r = u) by apply rd_new. assert (Ar : allocated h1 r) by (unfold allocated; cbn; lia).
  assert (As : forall q, st = Some q -> allocated h1 q) by (intros q Eq; specialize (A q Eq); unfold allocated in *; cbn; lia).
  pose proof (HR r st h1 Ar As) as R. assert (Est : option_map (rd h1) st = option_map (rd h) st) by (destruct st as [q|]; [cbn; f_equal; apply (rd_keep h); [exact NA|apply A; reflexivity]|reflexivity]).
  rewrite Er, Est, E1 in R. destruct (F r st h1) as [[[h2 outs] st']|] eqn:EF; [|discriminate]. destruct R as [R1 [R2 [R3 R4]]]. injection R1 as -> ->.
  rewrite <- Er. apply (session_call F h P st h1 r h2 outs st'); [split; [apply NA|intros a j Ha _; apply NA; [exact Ha|tauto]]|exact Ar|exact EF|].
  apply IH; [|exact E2]. intros q Eq. injection Eq as <-. unfold allocated. lia.
Qed.

(** ** Snapshotter *)
Lemma alloc_view h r s f : allocated h (view r s f) <-> allocated h r. Proof. reflexivity. Qed.
(** at every batch size a call computes what the value model computes, and leaves its arguments and all earlier outputs alone *)
Theorem snapshotter_refines s : refines (snap_h s) (snap_forward 0%R s).
Proof.
  intros u st h Hu Hst. unfold snap_h, snap_forward.
  set (p := match st with Some r => (h, r) | None => new h (snap_init 0%R s) end).
  assert (Hp : only_allocates h (fst p) /\ allocated (fst p) (snd p) /\ rd (fst p) (snd p) = match option_map (rd h) st with Some t => t | None => snap_init 0%R s end).
  { unfold p. destruct st as [r|]; cbn [fst snd option_map].
    - split; [apply allocates_refl|]. split; [apply Hst; reflexivity|reflexivity].
    - split; [apply new_allocates|]. split; [unfold allocated; cbn; lia|apply rd_new]. }
  destruct p as [h0 r0]. cbn [fst snd] in Hp. destruct Hp as [P1 [P2 P3]]. rewrite <- P3, (rd_keep h h0 u P1 Hu).
  destruct (cat_last2 (rd h0 r0) (rd h u)) as [cat|e]; [|reflexivity]. cbn [bind].
  destruct (new h0 cat) as [h1 sn] eqn:En. pose proof (rd_new h0 cat) as N1. pose proof (new_allocates h0 cat) as N2. rewrite En in N1, N2. cbn [fst snd] in N1, N2.
  assert (En2 : r_addr sn = h_next h0 /\ h_next h1 = S (h_next h0)) by (unfold new in En; injection En as <- <-; split; reflexivity). destruct En2 as [Ea1 Ea2].
  assert (N0 : h_next h <= h_next h0) by apply P1.
  assert (B : match (if 1 <? sn_batch s then let* (h, w, _) := unfold_windows_h sn (Z.of_nat (sn_size s)) (Z.of_nat (sn_stride s)) true h1 in Ok (h, w) else Ok (h1, unsqueeze0_h sn)) with
              | Ok (h2, ss) => (if 1 <? sn_batch s then let* (y, _) := unfold_windows 0%R cat (Z.of_nat (sn_size s)) (Z.of_nat (sn_stride s)) true in Ok y else Ok (unsqueeze0 cat)) = Ok (rd h2 ss)
                  /\ only_allocates h1 h2 /\ h_next h0 <= r_addr ss < h_next h2
              | Err e => (if 1 <? sn_batch s then let* (y, _) := unfold_windows 0%R cat (Z.of_nat (sn_size s)) (Z.of_nat (sn_stride s)) true in Ok y else Ok (unsqueeze0 cat)) = Err e
              end).
  { destruct (1 <? sn_batch s).
    - assert (As : allocated h1 sn) by (unfold allocated; lia).
      pose proof (unfold_windows_sharing sn (Z.of_nat (sn_size s)) (Z.of_nat (sn_stride s)) true h1 As) as U. rewrite N1 in U.
      destruct (unfold_windows_h sn _ _ true h1) as [[[h2 w] t]|e]; cbn [bind]; [|rewrite U; reflexivity]. destruct U as [U1 [U2 [U3 _]]]. rewrite U1. cbn [bind]. split; [reflexivity|]. split; [exact U2|lia].
    - rewrite rd_unsqueeze, N1. split; [reflexivity|]. split; [apply allocates_refl|]. cbn. lia. }
  match type of B with match ?X with _ => _ end => destruct X as [[h2 ss]|e] end; [|cbn [bind]; rewrite B; reflexivity].
  destruct B as [B1 [B2 B3]]. rewrite B1. cbn [bind].
  assert (Hall : only_allocates h h2) by (eapply allocates_trans; [exact P1|]; eapply allocates_trans; eassumption).
  assert (Est : rd h2 (slice_last_h (Some (- Z.of_nat (sn_state s))%Z) None sn) = slice_last (Some (- Z.of_nat (sn_state s))%Z) None cat).
  { rewrite rd_slice. rewrite (rd_keep h1 h2 sn B2) by (unfold allocated; lia). rewrite N1. reflexivity. }
  assert (N3 : h_next h1 <= h_next h2) by apply B2.
  destruct (sn_cps s) as [sizes|].
  - change (shape (rd h2 ss)) with (r_shape ss). destruct (nth_error (r_shape ss) 1) as [c|]; [|reflexivity]. destruct (negb _); [reflexivity|].
    pose proof (rd_split1 h2 ss sizes) as R1. destruct (split1_h sizes ss) as [outs|e] eqn:E1; cbn [rmap bind] in R1 |- *; rewrite <- R1; cbn [bind]; [|reflexivity].
    rewrite Est. split; [reflexivity|]. split; [exact Hall|]. split; [cbn; lia|]. intros o Ho. rewrite (split1_addr _ _ _ _ E1 Ho). lia.
  - cbn [bind map]. rewrite Est. split; [reflexivity|]. split; [exact Hall|]. split; [cbn; lia|]. intros o [<-|[]]. lia.
Qed.
(** with batch_size > 1 no cell of a returned snapshot belongs to the state *)
Theorem snapshotter_separates s : 1 < sn_batch s -> separates (snap_h s).
Proof.
  intros Hb u st h h' outs st' E o i Ho [Ea _]. unfold snap_h in E.
  set (p := match st with Some r => (h, r) | None => new h (snap_init 0%R s) end) in E. destruct p as [h0 r0]. cbn iota beta in E.
  apply bind_ok in E. destruct E as [cat [_ E]]. destruct (new h0 cat) as [h1 sn] eqn:En.
  assert (En2 : r_addr sn = h_next h0 /\ h_next h1 = S (h_next h0)) by (unfold new in En; injection En as <- <-; split; reflexivity). destruct En2 as [Ea1 Ea2].
  replace (1 <? sn_batch s) with true in E by lia. apply bind_ok in E. destruct E as [[h2 ss] [E1 E]]. apply bind_ok in E1. destruct E1 as [[[h3 w] t] [E1 E2]]. injection E2 as <- <-.
  assert (As : allocated h1 sn) by (unfold allocated; lia).
  pose proof (unfold_windows_sharing sn (Z.of_nat (sn_size s)) (Z.of_nat (sn_stride s)) true h1 As) as U. rewrite E1 in U. destruct U as [_ [_ [U3 _]]].
  apply bind_ok in E. destruct E as [outs0 [E3 E]]. injection E as <- <- <-. cbn in Ea.
  destruct (sn_cps s) as [sizes|].
  - destruct (nth_error (r_shape w) 1); [|discriminate]. destruct (negb _); [discriminate|]. rewrite (split1_addr _ _ _ _ E3 Ho) in Ea. lia.
  - injection E3 as <-. destruct Ho as [<-|[]]. lia.
Qed.

Lemma run_snap {A} (zero : A) s : forall us st, rmap fst (snap_run zero s us st) = (fix go us st := match us with [] => Ok [] | u :: us' => let* (o, st') := snap_forward zero s u st in let* os := go us' (Some st') in Ok (o :: os) end) us st.
Proof.
  induction us as [|u us IH]; intros st; [reflexivity|]. cbn [snap_run]. destruct (snap_forward zero s u st) as [[o st']|]; [|reflexivity]. cbn [bind].
  rewrite <- IH. destruct (snap_run zero s us (Some st')) as [[os st'']|]; reflexivity.
Qed.
Lemma run_snap_eq s us st : run (snap_forward 0%R s) us st = rmap fst (snap_run 0%R s us st).
Proof. rewrite run_snap. revert st. induction us as [|u us IH]; intros st; [reflexivity|]. cbn [run]. destruct (snap_forward 0%R s u st) as [[o st']|]; [|reflexivity]. cbn [bind]. rewrite IH. reflexivity. Qed.

(** With batch_size > 1 a consumer may do anything to the snapshots it is handed (augment them in place, overwrite them, keep them and
    change them later) and to its own update tensors after passing them: every snapshot is still the next window of the stream. *)
Theorem snapshotter_isolated C size stride batch cps s h us os ns :
  snap_create C size stride batch cps = Ok s -> 0 < C -> 0 < stride -> 1 < batch -> us <> [] -> Forall2 (good_update C stride batch) ns us ->
  session (snap_h s) h (everything h) None us os ->
  length os = length us /\ forall i n o, nth_error ns i = Some n -> nth_error os i = Some o ->
    snapshots_of (fun c => stream 0%R (size - stride) c us) C size stride cps (list_sum (firstn i ns)) n o.
Proof.
  intros Hc HC Hst Hb Hne HF Hs. assert (Eb : sn_batch s = batch) by (destruct (snap_create_inv C size stride batch cps s Hc) as [_ [-> _]]; reflexivity).
  assert (E : run (snap_forward 0%R s) us None = Ok os).
  { apply (session_run (snap_h s) _ (snapshotter_refines s) (snapshotter_separates s ltac:(lia)) h (everything h) None us os Hs); [discriminate|]. intros a j H. exact H. }
  rewrite run_snap_eq in E. destruct (snapshotter_stream 0%R C size stride batch cps s ns us Hc HC Hst Hne HF) as [outs [st [E2 [L [W _]]]]].
  rewrite E2 in E. injection E as <-. split; [exact L|exact W].
Qed.
(** With batch_size 1 the snapshot and the state share their cells: at any later time the state is the end of whatever the
    snapshot tensor contains by then. *)
Theorem snapshot_state_shared s u st h h' o st' : sn_batch s <= 1 -> sn_cps s = None -> 0 < sn_state s -> snap_h s u st h = Ok (h', [o], st') ->
  exists C N, r_shape o = [1; C; N] /\ forall h'' c t, r_shape st' = [C; Nat.min (sn_state s) N] /\
    elt (rd h'' st') [c; t] = elt (rd h'' o) [0; c; N - sn_state s + t].
Proof.
  intros Hb Hcps Hpos E. unfold snap_h in E.
  set (p := match st with Some r => (h, r) | None => new h (snap_init 0%R s) end) in E. destruct p as [h0 r0]. cbn iota beta in E.
  apply bind_ok in E. destruct E as [cat [Ec E]]. destruct (new h0 cat) as [h1 sn] eqn:En.
  replace (1 <? sn_batch s) with false in E by lia. cbn [bind] in E. rewrite Hcps in E. cbn [bind] in E. injection E as <- <- <-.
  assert (Es : r_shape sn = shape cat) by (unfold new in En; injection En as <- <-; reflexivity).
  unfold cat_last2 in Ec. destruct (shape (rd h0 r0)) as [|C [|n [|]]]; try discriminate. destruct (shape (rd h0 u)) as [|C' [|m [|]]]; try discriminate.
  destruct (C =? C'); [|discriminate]. injection Ec as <-. cbn [shape] in Es. exists C, (n + m). split; [cbn; rewrite Es; reflexivity|].
  intros h'' c t. unfold slice_last_h, view, unsqueeze0_h, rd. cbn [r_shape r_addr r_map elt view tl]. rewrite Es. cbn [removelast last app].
  split; [do 2 f_equal; unfold slice_lo, slice_hi, py_clamp; replace (_ <? 0)%Z with true by lia; lia|].
  cbn [removelast last app]. f_equal. f_equal. f_equal. f_equal. unfold slice_lo, py_clamp. replace (_ <? 0)%Z with true by lia. lia.
Qed.
(** ... so the next call continues from whatever the consumer has put there: overwriting the snapshot with y makes the state the end of y *)
Theorem snapshot_overwritten s u st h h' o st' (y : tensor R) : sn_batch s <= 1 -> sn_cps s = None -> 0 < sn_state s -> snap_h s u st h = Ok (h', [o], st') ->
  distinct_cells o /\ forall C N, r_shape o = [1; C; N] -> sn_state s <= N -> forall c t, c < C -> t < sn_state s ->
    elt (rd (store h' o y) st') [c; t] = elt y [0; c; N - sn_state s + t].
Proof.
  intros Hb Hcps Hpos E. assert (D : distinct_cells o).
  { unfold snap_h in E. set (p := match st with Some r => (h, r) | None => new h (snap_init 0%R s) end) in E. destruct p as [h0 r0]. cbn iota beta in E.
    apply bind_ok in E. destruct E as [cat [Ec E]]. destruct (new h0 cat) as [h1 sn] eqn:En.
    replace (1 <? sn_batch s) with false in E by lia. cbn [bind] in E. rewrite Hcps in E. cbn [bind] in E. injection E as <- <- <-.
    unfold new in En. injection En as <- <-. intros i j Hi Hj Eij. cbn in Hi, Hj, Eij. destruct i as [|a i]; [destruct Hi|]. destruct j as [|b j]; [destruct Hj|].
    cbn in Eij. destruct Hi as [Hi _], Hj as [Hj _]. f_equal; [lia|exact Eij]. }
  split; [exact D|]. intros C N Es HN c t Hc Ht. destruct (snapshot_state_shared s u st h h' o st' Hb Hcps Hpos E) as [C' [N' [Es' Sh]]].
  rewrite Es in Es'. injection Es' as <- <-. destruct (Sh (store h' o y) c t) as [_ ->]. apply store_at; [exact D|]. rewrite Es. cbn. repeat split; lia.
Qed.
(** the isolation theorem is false for batch_size 1: a consumer that inverts each snapshot in place corrupts the next one *)
Theorem snapshotter_isolated_refuted : exists s h us os ns, snap_create 1 2 1 1 None = Ok s /\ Forall2 (good_update 1 1 1) ns us /\
  session (snap_h s) h (everything h) None us os /\
  exists i n o, nth_error ns i = Some n /\ nth_error os i = Some o /\ ~ snapshots_of (fun c => stream 0%R 1 c us) 1 2 1 None (list_sum (firstn i ns)) n o.
Proof.
  set (s := {| sn_channels := 1; sn_size := 2; sn_stride := 1; sn_state := 1; sn_batch := 1; sn_cps := None |}).
  set (u1 := mk [1; 1] (fun _ => 1%R)). set (u2 := mk [1; 1] (fun _ => 2%R)).
  set (h0 := Heap 2 (fun a _ => if a =? 0 then 1%R else 2%R)). set (r1 := Ref 0 [1; 1] (fun i => i)). set (r2 := Ref 1 [1; 1] (fun i => i)).
  assert (S1 : exists h1 o st, snap_h s r1 None h0 = Ok (h1, [o], st) /\ r_shape o = [1; 1; 2] /\ h_next h1 = 4 /\ (forall a j, a < 2 -> h_cell h1 a j = h_cell h0 a j) /\ elt (rd h1 o) [0; 0; 1] = 1%R).
  { eexists. eexists. eexists. split; [reflexivity|]. repeat split. intros a j Ha. cbn. replace (a =? 3) with false by lia. replace (a =? 2) with false by lia. reflexivity. }
  destruct S1 as [h1 [o [st [E1 [So [N1 [K1 V1]]]]]]].
  destruct (snapshot_overwritten s r1 None h0 h1 o st (tmap (fun v => - v)%R (rd h1 o)) ltac:(cbn; lia) eq_refl ltac:(cbn; lia) E1) as [D W].
  specialize (W 1 2 So ltac:(cbn; lia) 0 0 ltac:(lia) ltac:(cbn; lia)). cbn [sn_state s] in W. cbn [Nat.sub Nat.add] in W.
  set (h2 := store h1 o (tmap (fun v => - v)%R (rd h1 o))) in *. assert (W' : elt (rd h2 st) [0; 0] = (-1)%R) by (rewrite W; unfold tmap; cbn [elt]; rewrite V1; reflexivity).
  pose proof (snapshotter_refines s r1 None h0 ltac:(cbn; unfold allocated; cbn; lia) ltac:(discriminate)) as R1. rewrite E1 in R1. destruct R1 as [R1 [_ [R1a R1b]]].
  assert (A2 : allocated h2 r2) by (unfold allocated; cbn; lia). assert (A3 : allocated h2 st) by (unfold allocated, h2; cbn; lia).
  pose proof (snapshotter_refines s r2 (Some st) h2 A2 ltac:(intros r Er; injection Er as <-; exact A3)) as R2.
  assert (Er2 : rd h2 r2 = u2).
  { transitivity (rd h0 r2); [|unfold rd, h0, r2, u2; reflexivity]. apply rd_eq. intros i. unfold h2. rewrite store_frame.
    - apply K1. cbn. lia.
    - intros [Ea _]. specialize (R1b o ltac:(left; reflexivity)). cbn in Ea, R1b. lia. }
  rewrite Er2 in R2. destruct (snapshot_state_shared s r1 None h0 h1 o st ltac:(cbn; lia) eq_refl ltac:(cbn; lia) E1) as [C' [N' [So' Sh]]]. rewrite So in So'. injection So' as <- <-.
  assert (Sst : shape (rd h2 st) = [1; 1]) by (destruct (Sh h2 0 0) as [Q _]; exact Q).
  destruct (snap_h s r2 (Some st) h2) as [[[h3 outs] st3]|e] eqn:E2.
  2:{ exfalso. unfold snap_forward, cat_last2 in R2. cbn [option_map] in R2. rewrite Sst in R2. discriminate R2. }
  destruct R2 as [R2 _]. unfold snap_forward, cat_last2 in R2. cbn [option_map] in R2. rewrite Sst in R2. cbn [shape u2 Nat.eqb bind sn_batch s] in R2. replace (1 <? 1) with false in R2 by reflexivity. change (sn_cps s) with (@None (list nat)) in R2. cbn [bind] in R2.
  assert (Eo : [unsqueeze0 (mk [1; 2] (fun i => match i with [k; t] => if t <? 1 then elt (rd h2 st) [k; t] else elt u2 [k; t - 1] | _ => elt (rd h2 st) i end))] = map (rd h3) outs) by (injection R2 as R2 _; exact R2).
  exists s, h0, [u1; u2], [map (rd h1) [o]; map (rd h3) outs], [1; 1]. split; [reflexivity|].
  split; [repeat constructor; cbn; lia|]. split.
  - change u1 with (rd h0 r1). apply (session_call (snap_h s) h0 _ None h0 r1 h1 [o] st); [split; [lia|reflexivity]|unfold allocated; cbn; lia|exact E1|].
    rewrite <- Er2. apply (session_call (snap_h s) h1 _ (Some st) h2 r2 h3 outs st3); [|exact A2|exact E2|constructor].
    split; [cbn; lia|]. intros a j Ha NP. apply store_frame. intros Q. apply NP. right. right. exists o. split; [left; reflexivity|exact Q].
  - exists 1, 1, (map (rd h3) outs). split; [reflexivity|]. split; [reflexivity|]. rewrite <- Eo. intros [_ Sn]. destruct (Sn 0 0 1 eq_refl) as [y [Ey [_ V]]]. injection Ey as <-.
    destruct (V 0 0 0 ltac:(lia) ltac:(lia) ltac:(lia)) as [v [G1 G2]]. clear - G1 G2 W'. cbn in G2.
    rewrite get_inb in G1 by (cbn; repeat split; lia). unfold unsqueeze0 in G1. change (Some (elt (rd h2 st) [0; 0]) = Some v) in G1. rewrite W' in G1. assert (Q : (-1)%R = 1%R) by congruence. lra.
Qed.

(** ** OnlineAverager *)
Definition oa_pure (m : oavg) (u : tensor R) (st : option (tensor R)) : res (list (tensor R) * tensor R) := rmap (fun p => ([fst p], snd p)) (oa_forward m u st).
Lemma oa_forward_sum m u st : oa_forward m u st = let* total := oa_sum m u (match st with Some s => s | None => oa_init m end) in
  if oa_n m =? 1 then Ok (total, oa_init m) else split2_last (Z.of_nat (oa_b m) * Z.of_nat (oa_u m)) (Z.of_nat (oa_n m - 1) * Z.of_nat (oa_u m)) total.
Proof.
  unfold oa_forward, oa_sum. destruct (oa_off m) as [o|]; (destruct (negb _); [reflexivity|]);
  (destruct (unfold_windows _ _ _ _ _) as [[w t]|]; [|reflexivity]); cbn [bind]; (destruct (bzip_inplace Rdiv _ _) as [w1|]; [|reflexivity]); cbn [bind];
  (destruct (bzip_inplace Rplus _ _) as [w2|]; [|reflexivity]); cbn [bind]; (destruct (scatter3 _ _ _) as [w3|]; reflexivity).
Qed.
Theorem averager_refines m : refines (oa_h m) (oa_pure m).
Proof.
  intros u st h Hu Hst. unfold oa_h, oa_pure. rewrite oa_forward_sum.
  set (p := match st with Some r => (h, r) | None => new h (oa_init m) end).
  assert (Hp : only_allocates h (fst p) /\ allocated (fst p) (snd p) /\ rd (fst p) (snd p) = match option_map (rd h) st with Some t => t | None => oa_init m end).
  { unfold p. destruct st as [r|]; cbn [fst snd option_map].
    - split; [apply allocates_refl|]. split; [apply Hst; reflexivity|reflexivity].
    - split; [apply new_allocates|]. split; [unfold allocated; cbn; lia|apply rd_new]. }
  destruct p as [h0 r0]. cbn [fst snd] in Hp. destruct Hp as [P1 [P2 P3]]. rewrite <- P3, (rd_keep h h0 u P1 Hu).
  destruct (oa_sum m (rd h u) (rd h0 r0)) as [tot|e]; [|reflexivity]. cbn [bind].
  destruct (new h0 tot) as [h1 sn] eqn:En. pose proof (rd_new h0 tot) as N1. pose proof (new_allocates h0 tot) as N2. rewrite En in N1, N2. cbn [fst snd] in N1, N2.
  assert (En2 : r_addr sn = h_next h0 /\ h_next h1 = S (h_next h0)) by (unfold new in En; injection En as <- <-; split; reflexivity). destruct En2 as [Ea1 Ea2].
  assert (N0 : h_next h <= h_next h0) by apply P1.
  destruct (oa_n m =? 1).
  - destruct (new h1 (oa_init m)) as [h2 z] eqn:Ez. pose proof (rd_new h1 (oa_init m)) as Z1. pose proof (new_allocates h1 (oa_init m)) as Z2. rewrite Ez in Z1, Z2. cbn [fst snd] in Z1, Z2.
    assert (Ez2 : r_addr z = h_next h1 /\ h_next h2 = S (h_next h1)) by (unfold new in Ez; injection Ez as <- <-; split; reflexivity).
    cbn [rmap fst snd map]. rewrite Z1, (rd_keep h1 h2 sn Z2), N1 by (unfold allocated; lia). split; [reflexivity|]. split; [eapply allocates_trans; [exact P1|]; eapply allocates_trans; eassumption|].
    split; [lia|]. intros o [<-|[]]. lia.
  - pose proof (rd_split2 h1 (Z.of_nat (oa_b m) * Z.of_nat (oa_u m)) (Z.of_nat (oa_n m - 1) * Z.of_nat (oa_u m)) sn) as R2. rewrite N1 in R2. rewrite <- R2.
    destruct (split2_last_h _ _ sn) as [[a b]|e] eqn:E2; [|reflexivity]. cbn [rmap bind fst snd map]. split; [reflexivity|]. split; [eapply allocates_trans; eassumption|].
    assert (Eab : r_addr a = r_addr sn /\ r_addr b = r_addr sn).
    { unfold split2_last_h in E2. destruct (r_shape sn); [discriminate|]. match type of E2 with (if ?c then _ else _) = _ => destruct c; [discriminate|] end. injection E2 as <- <-. split; reflexivity. }
    split; [lia|]. intros o [<-|[]]. lia.
Qed.
(** output and state are disjoint pieces of one tensor (or separate tensors) *)
Theorem averager_separates m : separates (oa_h m).
Proof.
  intros u st h h' outs st' E o i Ho [Ea [k [Hk Ek]]]. unfold oa_h in E.
  set (p := match st with Some r => (h, r) | None => new h (oa_init m) end) in E. destruct p as [h0 r0]. cbn iota beta in E.
  apply bind_ok in E. destruct E as [tot [_ E]]. destruct (new h0 tot) as [h1 sn] eqn:En.
  assert (En2 : r_addr sn = h_next h0 /\ h_next h1 = S (h_next h0)) by (unfold new in En; injection En as <- <-; split; reflexivity). destruct En2 as [Ea1 Ea2].
  destruct (oa_n m =? 1).
  - destruct (new h1 (oa_init m)) as [h2 z] eqn:Ez. assert (Ez2 : r_addr z = h_next h1) by (unfold new in Ez; injection Ez as <- <-; reflexivity).
    injection E as <- <- <-. destruct Ho as [<-|[]]. lia.
  - apply bind_ok in E. destruct E as [[a b] [E2 E]]. injection E as <- <- <-. destruct Ho as [<-|[]].
    assert (Em : r_map sn = fun i => i) by (unfold new in En; injection En as <- <-; reflexivity).
    unfold split2_last_h in E2. destruct (r_shape sn) as [|d ds] eqn:Es; [discriminate|]. rewrite <- Es in *. match type of E2 with (if ?c then _ else _) = _ => destruct c; [discriminate|] end. injection E2 as <- <-.
    cbn [view r_addr r_shape r_map] in *. rewrite Em in Ek. cbn beta in Ek. subst k.
    assert (Hne : removelast (r_shape sn) ++ [Z.to_nat (Z.of_nat (oa_b m) * Z.of_nat (oa_u m))] <> []) by (destruct (removelast (r_shape sn)); discriminate).
    destruct (inb_removelast _ _ Hne Hk) as [_ [Hlt _]]. rewrite !last_last in Hlt. lia.
Qed.
Lemma run_oa m : forall us st, run (oa_pure m) us st = rmap (fun p => map (fun o => [o]) (fst p)) (oa_run m us st).
Proof.
  induction us as [|u us IH]; intros st; [reflexivity|]. cbn [run oa_run]. unfold oa_pure at 1. destruct (oa_forward m u st) as [[o st']|]; [|reflexivity]. cbn [rmap bind fst snd].
  rewrite IH. destruct (oa_run m us (Some st')) as [[os st'']|]; reflexivity.
Qed.
(** The averager is isolated at every setting: whatever the consumer does to the averages it was handed and to its predictions after
    passing them, every later output is still the average of the predictions covering it. *)
Theorem averager_isolated u b n c off m h us os :
  oa_create u b n c off = Ok m -> 0 < u -> 0 < b -> 0 < n -> 0 < c -> off <> Some 0 -> us <> [] ->
  Forall (good_batch u b n c off) us -> session (oa_h m) h (everything h) None us os ->
  length os = length us /\ forall i outs, nth_error os i = Some outs -> exists out, outs = [out] /\ shape out = [c; b * u] /\
    forall l t, l < c -> t < b * u -> get out [l; t] = Some (average u n (length us * b) (prediction us b u n (match off with Some k => k | None => 0 end)) l (i * (b * u) + t)).
Proof.
  intros Hm Hu Hb Hn Hc Ho Hne HF Hs.
  assert (E : run (oa_pure m) us None = Ok os).
  { apply (session_run (oa_h m) _ (averager_refines m) (averager_separates m) h (everything h) None us os Hs); [discriminate|]. intros a j H. exact H. }
  rewrite run_oa in E. destruct (online_averager_stream u b n c off m us Hm Hu Hb Hn Hc Ho Hne HF) as [outs [st [E2 [L [W _]]]]].
  rewrite E2 in E. cbn [rmap fst] in E. injection E as <-. split; [rewrite map_length; exact L|]. intros i o Hi. rewrite nth_error_map' in Hi.
  destruct (nth_error outs i) as [out|] eqn:Eo; [|discriminate]. injection Hi as <-. exists out. destruct (W i out Eo) as [W1 W2]. split; [reflexivity|]. split; assumption.
Qed.

(** ** Datasets *)
(** An epoch over the tensor X: batches of kernels cut with slice_kernels; between batches the consumer writes whatever it can reach
    (its own buffers, P, and the batches it was handed). *)
Inductive epoch (X : ref) (k : Z) : heap -> (nat -> list nat -> Prop) -> list (tensor Z) -> list (tensor R) -> heap -> Prop :=
| epoch_end h P h1 : writes_only P h h1 -> epoch X k h P [] [] h1
| epoch_batch h P h1 idx h2 y ixs ys h3 :
    writes_only P h h1 -> slice_kernels_h X idx k h1 = Ok (h2, y) ->
    epoch X k h2 (fun a j => P a j \/ h_next h <= a < h_next h1 \/ owns y a j) ixs ys h3 ->
    epoch X k h P (idx :: ixs) (rd h2 y :: ys) h3.
(** every batch is cut from the original data, and the data are intact at the end *)
Theorem dataset_isolated X k h P ixs ys h' : epoch X k h P ixs ys h' -> allocated h X -> (forall i, ~ P (r_addr X) (r_map X i)) ->
  Forall2 (fun idx y => slice_kernels (rd h X) idx k = Ok y) ixs ys /\ rd h' X = rd h X.
Proof.
  induction 1 as [h P h1 [N K]|h P h1 idx h2 y ixs ys h3 [N K] E Hs IH]; intros A NP.
  - split; [constructor|]. apply rd_eq. intros i. apply K; [exact A|apply NP].
  - assert (E1 : rd h1 X = rd h X) by (apply rd_eq; intros i; apply K; [exact A|apply NP]). assert (A1 : allocated h1 X) by (unfold allocated in *; lia).
    pose proof (slice_kernels_fresh X idx k h1 A1) as F. rewrite E in F. destruct F as [F1 [F2 [F3 _]]]. rewrite E1 in F1. pose proof (rd_keep h1 h2 X F2 A1) as E2.
    destruct IH as [I1 I2]; [destruct F2; unfold allocated in *; lia| |].
    + intros i [Q|[Q|Q]]; [apply (NP i Q)|unfold allocated in A; lia|]. destruct Q as [Q _]. unfold allocated in *. lia.
    + rewrite E2, E1 in I1, I2. split; [constructor; assumption|exact I2].
Qed.

(** A training epoch with both augmentations applied in place to each batch, as a loop over the library calls *)
Fixpoint train (X : ref) (k : Z) (pi pr : R) (ri rr : nat -> list nat -> R) (q : nat) (ixs : list (tensor Z)) (h : heap) : res (heap * list (tensor R)) :=
  match ixs with
  | [] => Ok (h, [])
  | idx :: rest =>
    let* (h, y) := slice_kernels_h X idx k h in
    let* (h, y) := invert_h pi (ri q) y h in
    let* (h, y) := reverse_h pr (rr q) y h in
    let* (h', ys) := train X k pi pr ri rr (S q) rest h in Ok (h', rd h y :: ys)
  end.
(** each batch is the kernels of the original data, flipped and reversed by its own draws only; the data are intact at the end; and the loop fails only where slice_kernels does *)
Theorem augmented_epoch X k pi pr ri rr : forall ixs q h, allocated h X ->
  match train X k pi pr ri rr q ixs h with
  | Ok (h', ys) => rd h' X = rd h X /\ length ys = length ixs /\
      forall b idx y, nth_error ixs b = Some idx -> nth_error ys b = Some y ->
        exists a, slice_kernels (rd h X) idx k = Ok a /\ shape y = shape a /\
          forall i t, inb (i ++ [t]) (shape a) ->
            let v := elt a (i ++ [if Rlt_dec (rr (q + b) i) pr then last (shape a) 0 - 1 - t else t]) in
            elt y (i ++ [t]) = if Rlt_dec (ri (q + b) i) pi then (- v)%R else v
  | Err e => exists idx, In idx ixs /\ slice_kernels (rd h X) idx k = Err e
  end.
Proof.
  induction ixs as [|idx rest IH]; intros q h A; [split; [reflexivity|]; split; [reflexivity|]; intros [|] idx y H; discriminate|].
  cbn [train]. pose proof (slice_kernels_fresh X idx k h A) as F. destruct (slice_kernels_h X idx k h) as [[h1 y]|e]; [|cbn [bind]; exists idx; split; [left; reflexivity|exact F]].
  destruct F as [F1 [F2 [F3 D]]]. cbn [bind].
  assert (HA : allocated h1 X) by (destruct F2; unfold allocated in *; lia).
  assert (Inv : exists h2, invert_h pi (ri q) y h1 = Ok (h2, y) /\ h_next h2 = h_next h1 /\ (forall a j, ~ owns y a j -> h_cell h2 a j = h_cell h1 a j) /\
    forall i t, inb (i ++ [t]) (r_shape y) -> elt (rd h2 y) (i ++ [t]) = if Rlt_dec (ri q i) pi then (- elt (rd h1 y) (i ++ [t]))%R else elt (rd h1 y) (i ++ [t])).
  { destruct (list_eq_dec Nat.eq_dec (r_shape y) []) as [E0|E0].
    - unfold invert_h, invert. cbn [rd shape]. rewrite E0. cbn [bind]. eexists. split; [reflexivity|]. split; [reflexivity|]. split; [intros a j; apply store_frame|].
      intros i t Hi. destruct i; destruct Hi.
    - destruct (inverter_in_place pi (ri q) y h1 D E0) as [h2 [E1 [W [N V]]]]. unfold invert_h in E1 |- *. destruct (invert pi (ri q) (rd h1 y)) as [z|]; [|discriminate]. cbn [bind] in E1 |- *. injection E1 as <-.
      eexists. split; [reflexivity|]. split; [reflexivity|]. split; [intros a j; apply store_frame|]. intros i t Hi. specialize (V (i ++ [t]) Hi). rewrite removelast_last in V. exact V. }
  destruct Inv as [h2 [E2 [N2 [K2 V2]]]]. rewrite E2. cbn [bind].
  assert (Rev : exists h3, reverse_h pr (rr q) y h2 = Ok (h3, y) /\ h_next h3 = h_next h2 /\ (forall a j, ~ owns y a j -> h_cell h3 a j = h_cell h2 a j) /\
    forall i t, inb (i ++ [t]) (r_shape y) -> elt (rd h3 y) (i ++ [t]) = if Rlt_dec (rr q i) pr then elt (rd h2 y) (i ++ [last (r_shape y) 0 - 1 - t]) else elt (rd h2 y) (i ++ [t])).
  { destruct (list_eq_dec Nat.eq_dec (r_shape y) []) as [E0|E0].
    - unfold reverse_h, reverse. cbn [rd shape]. rewrite E0. cbn [bind]. eexists. split; [reflexivity|]. split; [reflexivity|]. split; [intros a j; apply store_frame|].
      intros i t Hi. destruct i; destruct Hi.
    - destruct (reverser_in_place pr (rr q) y h2 D E0) as [h3 [E1 [W [N V]]]]. unfold reverse_h in E1 |- *. destruct (reverse pr (rr q) (rd h2 y)) as [z|]; [|discriminate]. cbn [bind] in E1 |- *. injection E1 as <-.
      eexists. split; [reflexivity|]. split; [reflexivity|]. split; [intros a j; apply store_frame|]. exact V. }
  destruct Rev as [h3 [E3 [N3 [K3 V3]]]]. rewrite E3. cbn [bind].
  assert (EX : rd h3 X = rd h X).
  { rewrite <- (rd_keep h h1 X F2 A). apply rd_eq. intros i. assert (NO : ~ owns y (r_addr X) (r_map X i)) by (intros [Q _]; unfold allocated in A; lia). rewrite K3, K2 by exact NO. reflexivity. }
  assert (A3 : allocated h3 X) by (unfold allocated in *; lia). specialize (IH (S q) h3 A3).
  destruct (train X k pi pr ri rr (S q) rest h3) as [[h' ys]|e]; cbn [bind].
  - destruct IH as [I1 [I2 I3]]. rewrite EX in I1. split; [exact I1|]. split; [cbn; rewrite I2; reflexivity|].
    intros [|b] idx' y' Hi Hy; cbn in Hi, Hy.
    + injection Hi as <-. injection Hy as <-. exists (rd h1 y). split; [exact F1|]. split; [reflexivity|]. intros i t Hit. change (shape (rd h1 y)) with (r_shape y) in *. rewrite Nat.add_0_r in *.
      rewrite V3 by exact Hit. destruct (Rlt_dec (rr q i) pr); [|apply V2, Hit]. apply V2. clear - Hit.
      destruct (inb_removelast (i ++ [t]) (r_shape y)) as [Hi [Ht _]]; [intros Q; rewrite Q in Hit; destruct i; destruct Hit|exact Hit|]. rewrite removelast_last in Hi. rewrite last_last in Ht.
      rewrite (app_removelast_last 0 (l := r_shape y)) at 2 by (intros Q; rewrite Q in Hit; destruct i; destruct Hit). apply inb_app; [exact Hi|]. cbn. split; [lia|exact I].
    + destruct (I3 b idx' y' Hi Hy) as [a [Ea [Sa Va]]]. rewrite EX in Ea. exists a. split; [exact Ea|]. split; [exact Sa|]. intros i t Hit. replace (q + S b) with (S q + b) by lia. apply Va, Hit.
  - destruct IH as [idx' [Hin He]]. rewrite EX in He. exists idx'. split; [right; exact Hin|exact He].
Qed.

(** ** Concrete cases *)
(** three samples of a two-channel tensor; the inverter negates channel 1 (draw 1/4 < 1/2) and leaves channel 0 (draw 3/4) *)
Example inverter_ex : exists h h' x, distinct_cells x /\ r_shape x = [2; 3] /\
  invert_h (1 / 2) (fun i => match i with [0] => 3 / 4 | _ => 1 / 4 end)%R x h = Ok (h', x) /\ elt (rd h' x) [1; 2] = (-7)%R /\ elt (rd h' x) [0; 2] = 7%R.
Proof.
  set (x := Ref 0 [2; 3] (fun i => i)). set (h := Heap 1 (fun _ _ => 7%R)). set (dr := fun i => match i with [0] => (3 / 4)%R | _ => (1 / 4)%R end).
  assert (D : distinct_cells x) by (intros i j _ _ E; exact E). destruct (inverter_in_place (1 / 2) dr x h D ltac:(discriminate)) as [h' [E [_ [_ V]]]].
  exists h, h', x. split; [exact D|]. split; [reflexivity|]. split; [exact E|]. split.
  - rewrite V by (cbn; lia). cbn [removelast]. destruct (Rlt_dec _ _) as [|N]; [reflexivity|exfalso; apply N; unfold dr; lra].
  - rewrite V by (cbn; lia). cbn [removelast]. destruct (Rlt_dec _ _) as [N|]; [exfalso; unfold dr in N; lra|reflexivity].
Qed.
(** sessions with batch_size 2 exist for every history the stream theorem covers *)
Example snapshotter_session_ex : exists s h us os, snap_create 1 3 1 2 None = Ok s /\ Forall2 (good_update 1 1 2) [2; 2] us /\ session (snap_h s) h (everything h) None us os.
Proof.
  set (u := mk [1; 2] (fun i => INR (last i 0))). destruct (snap_create 1 3 1 2 None) as [s|] eqn:E; [|discriminate].
  assert (G : Forall2 (good_update 1 1 2) [2; 2] [u; u]) by (repeat constructor; cbn; lia).
  destruct (snapshotter_stream 0%R 1 3 1 2 None s [2; 2] [u; u] E ltac:(lia) ltac:(lia) ltac:(discriminate) G) as [os [st [Er _]]].
  exists s, (Heap 0 (fun _ _ => 0%R)), [u; u], os. split; [reflexivity|]. split; [exact G|].
  apply (session_exists _ (snap_forward 0%R s) (snapshotter_refines s)); [discriminate|]. cbn [option_map]. rewrite run_snap_eq, Er. reflexivity.
Qed.
(** a caller that overwrites the snapshots it was handed is one of the callers allowed *)
Example overwriting_allowed (outs : list ref) (o : ref) (y : tensor R) h P : In o outs -> writes_only (fun a j => P a j \/ exists q, In q outs /\ owns q a j) h (store h o y).
Proof. intros Ho. split; [cbn; lia|]. intros a j _ N. apply store_frame. intros Q. apply N. right. exists o. split; assumption. Qed.
