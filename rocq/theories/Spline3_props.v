(** Property C51, part 3: the SplineInterpolate1D / 2D modules, including their state across calls. *)
From Coq Require Import Sorted.
From Verif Require Import Base Tensor Rutil Slicing_model Norm_model Gw_model Linsolve Spline_model Spline_props Spline2_props.
Local Open Scope R_scope.

(** ** specification *)
(** acceptable data for [n] coordinates along the width: 1 to 4 dimensions, the last of size n *)
Definition accepted1 (n : nat) (Z : tensor R) : bool := ((1 <=? ndim Z) && (ndim Z <=? 4) && (last (shape Z) 0 =? n))%nat.
(** ... and for an ny x nx grid *)
Definition accepted2 (ny nx : nat) (Z : tensor R) : bool :=
  ((2 <=? ndim Z) && (ndim Z <=? 4) && (last (removelast (shape Z)) 0 =? ny) && (last (shape Z) 0 =? nx))%nat.
(** the data is viewed with leading unit axes up to four dimensions *)
Definition shape4 (Z : tensor R) : list nat := repeat 1%nat (4 - ndim Z) ++ shape Z.
Definition data4 (Z : tensor R) (i : list nat) : R := elt Z (skipn (4 - ndim Z) i).
(** the output coordinates in force after a history of calls: those of the last accepted call that gave any, else the constructor's *)
Definition grid_after (n : nat) (x0 : option (list R)) (h : list (tensor R * option (list R))) : option (list R) :=
  fold_left (fun g c => match snd c with Some xs => if accepted1 n (fst c) then Some xs else g | None => g end) h x0.
Definition call_grid (g xo : option (list R)) : option (list R) := match xo with Some _ => xo | None => g end.

(** ** 1D *)
Fixpoint calls1 (m : spline1) (h : list (tensor R * option (list R))) : spline1 :=
  match h with [] => m | c :: h => calls1 (snd (spline1_forward m (fst c) (snd c))) h end.
Theorem spline1_create_spec x k s xo : ((List.length x < k + 2)%nat -> spline1_create x k s xo = Err ValueError) /\
  ((k + 2 <= List.length x)%nat -> exists m, spline1_create x k s xo = Ok m).
Proof. unfold spline1_create. destruct (Nat.ltb_spec (List.length x) (k + 2)); split; intros; try lia; eauto. Qed.

Lemma pad4_shape Z : (1 <= ndim Z <= 4)%nat -> shape (pad_ndim4 Z) = shape4 Z.
Proof.
  unfold pad_ndim4, shape4, ndim. destruct Z as [[|a [|b [|c [|d [|e l]]]]] f]; cbn; intros; try lia; reflexivity.
Qed.
Lemma pad4_elt Z p q r j : (1 <= ndim Z <= 4)%nat -> elt (pad_ndim4 Z) [p; q; r; j] = data4 Z [p; q; r; j].
Proof.
  unfold pad_ndim4, data4, ndim. destruct Z as [[|a [|b [|c [|d [|e l]]]]] f]; cbn; intros; try lia; reflexivity.
Qed.
Lemma shape4_split Z n : (1 <= ndim Z <= 4)%nat -> last (shape Z) 0%nat = n -> exists b c h, shape4 Z = [b; c; h; n].
Proof.
  unfold shape4, ndim. destruct Z as [[|a [|b [|c [|d [|e l]]]]] f]; cbn; intros; try lia; subst; eauto.
Qed.
Lemma validate1_ok m Z xo : (xo <> None \/ s1_xout m <> None) -> accepted1 (List.length (s1_x m)) Z = true -> validate1 m Z xo = Ok (pad_ndim4 Z).
Proof.
  unfold accepted1, validate1. intros H A. apply andb_prop in A. destruct A as [A C]. apply andb_prop in A. destruct A as [A B].
  apply Nat.leb_le in A. apply Nat.leb_le in B. rewrite C.
  replace (4 <? ndim Z)%nat with false by (symmetry; apply Nat.ltb_ge; lia). replace (ndim Z =? 0)%nat with false by (symmetry; apply Nat.eqb_neq; lia).
  destruct xo; [reflexivity|]. destruct (s1_xout m); [reflexivity|]. destruct H; congruence.
Qed.
Lemma validate1_bad m Z xo : ((xo = None /\ s1_xout m = None) \/ accepted1 (List.length (s1_x m)) Z = false) -> exists e, validate1 m Z xo = Err e /\ (e = ValueError \/ e = IndexError /\ ndim Z = 0%nat).
Proof.
  unfold accepted1, validate1. intros H. destruct xo as [xs|].
  - destruct H as [[? _]|H]; [congruence|]. destruct (Nat.ltb_spec 4 (ndim Z)); [eauto|]. destruct (Nat.eqb_spec (ndim Z) 0); [eauto|].
    replace (1 <=? ndim Z)%nat with true in H by (symmetry; apply Nat.leb_le; lia). replace (ndim Z <=? 4)%nat with true in H by (symmetry; apply Nat.leb_le; lia). cbn [andb] in H. rewrite H. eauto.
  - destruct (s1_xout m); [|eauto]. destruct H as [[_ ?]|H]; [congruence|]. destruct (Nat.ltb_spec 4 (ndim Z)); [eauto|]. destruct (Nat.eqb_spec (ndim Z) 0); [eauto|].
    replace (1 <=? ndim Z)%nat with true in H by (symmetry; apply Nat.leb_le; lia). replace (ndim Z <=? 4)%nat with true in H by (symmetry; apply Nat.leb_le; lia). cbn [andb] in H. rewrite H. eauto.
Qed.
(** the state invariant *)
Definition holds1 (m : spline1) (x : list R) (k : nat) (s : R) (x0 g : option (list R)) : Prop :=
  s1_x m = x /\ s1_k m = k /\ s1_s m = s /\ s1_xout m = x0 /\ s1_B m = option_map (fun xs => (List.length xs, out_matrix (fit_knots x k) k xs)) g.
Lemma forward1_state m x k s x0 g Z xo : holds1 m x k s x0 g ->
  holds1 (snd (spline1_forward m Z xo)) x k s x0 (match xo with Some xs => if accepted1 (List.length x) Z then Some xs else g | None => g end).
Proof.
  intros [H1 [H2 [H3 [H4 H5]]]]. unfold spline1_forward. destruct (validate1 m Z xo) as [Z'|e] eqn:V.
  - assert (A : accepted1 (List.length x) Z = true).
    { destruct (accepted1 (List.length x) Z) eqn:A; [reflexivity|]. destruct (validate1_bad m Z xo) as [e [E _]]; [rewrite H1; tauto|congruence]. }
    rewrite A. set (m' := match xo with Some _ => _ | None => m end).
    assert (K : holds1 m' x k s x0 (match xo with Some xs => Some xs | None => g end)).
    { unfold m', holds1, s1_knots. destruct xo; cbn; rewrite ?H1, ?H2, ?H3, ?H4, ?H5; repeat split; reflexivity. }
    clearbody m'. destruct (shape Z') as [|? [|? [|? [|? [|? ?]]]]]; try exact K. destruct (s1_B m') as [[rows Bo]|]; [|exact K].
    destruct (fit1 _ _ _ _); [exact K|]. destruct (_ =? 0)%nat; exact K.
  - cbn [snd]. destruct xo as [xs|]; [|repeat split; assumption]. destruct (accepted1 (List.length x) Z) eqn:A; [|repeat split; assumption].
    rewrite validate1_ok in V; [discriminate|left; congruence|rewrite H1; assumption].
Qed.
Lemma calls1_state x k s x0 h : forall m g, holds1 m x k s x0 g ->
  holds1 (calls1 m h) x k s x0 (fold_left (fun g c => match snd c with Some xs => if accepted1 (List.length x) (fst c) then Some xs else g | None => g end) h g).
Proof.
  induction h as [|[Z xo] h IH]; intros m g H; cbn [calls1 fold_left fst snd]; [exact H|]. apply IH.
  pose proof (forward1_state m x k s x0 g Z xo H) as K. destruct xo; exact K.
Qed.
Lemma create1_state x k s x0 m : spline1_create x k s x0 = Ok m -> (k + 2 <= List.length x)%nat /\ holds1 m x k s x0 x0.
Proof.
  unfold spline1_create. destruct (Nat.ltb_spec (List.length x) (k + 2)); [discriminate|]. intros E. inversion E. split; [assumption|]. repeat split; reflexivity.
Qed.

(** one call after any history: each row along the width becomes the fitted spline evaluated at the coordinates in force *)
Theorem spline1_spec x k s x0 m h Z xo xs : spline1_create x k s x0 = Ok m -> (xo <> None \/ x0 <> None) -> accepted1 (List.length x) Z = true ->
  call_grid (grid_after (List.length x) x0 h) xo = Some xs ->
  exists b c w, shape4 Z = [b; c; w; List.length x] /\
  ((exists u, fit1 x k s (fun _ => 0) = Some u) ->
   exists Y, fst (spline1_forward (calls1 m h) Z xo) = Ok Y /\ shape Y = [b; c; w; List.length xs] /\
    forall p q r o, inb [p; q; r; o] (shape Y) -> exists u, fit1 x k s (fun j => data4 Z [p; q; r; j]) = Some u /\ get Y [p; q; r; o] = Some (spline_at x k u (at_ xs o))) /\
  (fit1 x k s (fun _ => 0) = None -> (b * c * w <> 0)%nat -> fst (spline1_forward (calls1 m h) Z xo) = Err RuntimeError).
Proof.
  intros E Hg A G. destruct (create1_state _ _ _ _ _ E) as [Hn H0]. pose proof (calls1_state x k s x0 h m x0 H0) as H. fold (grid_after (List.length x) x0 h) in H.
  set (m1 := calls1 m h) in *. clearbody m1. destruct H as [H1 [H2 [H3 [H4 H5]]]].
  assert (ND : (1 <= ndim Z <= 4)%nat /\ last (shape Z) 0%nat = List.length x).
  { unfold accepted1 in A. apply andb_prop in A. destruct A as [A C]. apply andb_prop in A. destruct A as [A B]. apply Nat.leb_le in A. apply Nat.leb_le in B. apply Nat.eqb_eq in C. lia. }
  destruct ND as [ND LZ]. destruct (shape4_split Z _ ND LZ) as [b [c [w SZ]]]. exists b, c, w. split; [exact SZ|].
  assert (FW : spline1_forward m1 Z xo = let m' := mks1 x k s x0 (Some (List.length xs, out_matrix (fit_knots x k) k xs)) in
     match fit1 x k s (fun _ => 0), (b * c * w =? 0)%nat with
      | None, false => (Err RuntimeError, m')
      | _, _ => (Ok (mk [b; c; w; List.length xs] (fun i => match i with
            | [p; q; r; o] => Rsum (List.length x) (fun j => out_matrix (fit_knots x k) k xs o j * coef_or0 (fit1 x k s (fun j => elt (pad_ndim4 Z) [p; q; r; j])) j)
            | _ => 0 end)), m') end).
  { unfold spline1_forward. rewrite validate1_ok; [|rewrite H4; exact Hg|rewrite H1; exact A]. rewrite pad4_shape, SZ by assumption.
    assert (M : match xo with Some xs0 => mks1 (s1_x m1) (s1_k m1) (s1_s m1) (s1_xout m1) (Some (List.length xs0, out_matrix (s1_knots m1) (s1_k m1) xs0)) | None => m1 end
                = mks1 x k s x0 (Some (List.length xs, out_matrix (fit_knots x k) k xs))).
    { unfold call_grid in G. destruct xo as [xs0|].
      - injection G as ->. unfold s1_knots. rewrite H1, H2, H3, H4. reflexivity.
      - rewrite G in H5. cbn in H5. destruct m1; cbn in *; subst; reflexivity. }
    rewrite M. cbn [s1_x s1_k s1_s s1_B]. reflexivity. }
  split.
  - intros [u0 Hu]. rewrite FW, Hu. cbn zeta. destruct (b * c * w =? 0)%nat; cbn [fst]; eexists; (split; [reflexivity|]; split; [reflexivity|]; intros p q r o Hi;
    destruct (fit1_some x k s (fun _ => 0) (fun j => data4 Z [p; q; r; j]) u0 Hu) as [u Fu]; exists u; split; [exact Fu|]; rewrite get_inb by exact Hi; cbn [elt]; f_equal;
    replace (fit1 x k s (fun j => elt (pad_ndim4 Z) [p; q; r; j])) with (fit1 x k s (fun j => data4 Z [p; q; r; j]));
     [rewrite Fu; cbn [coef_or0]; apply out_matrix_eval; [assumption|cbn [shape inb] in Hi; tauto]
     |f_equal; unfold data4, pad_ndim4, ndim in *; clear - ND; destruct Z as [[|a1 [|a2 [|a3 [|a4 [|a5 l]]]]] f]; cbn in *; try lia; reflexivity]).
  - intros Hu Hne. rewrite FW, Hu. cbn zeta. replace (b * c * w =? 0)%nat with false by (symmetry; apply Nat.eqb_neq; assumption). reflexivity.
Qed.
(** data reproduced at its own coordinates, whatever the history, with no regularisation *)
Theorem spline1_reproduces x k x0 m h Z xo xs Y : spline1_create x k 0 x0 = Ok m -> (1 <= k)%nat -> increasing x -> call_grid (grid_after (List.length x) x0 h) xo = Some xs ->
  fst (spline1_forward (calls1 m h) Z xo) = Ok Y ->
  forall p q r o i v, get Y [p; q; r; o] = Some v -> at_ xs o = at_ x i -> (i < List.length x)%nat -> v = data4 Z [p; q; r; i].
Proof.
  intros E Hk HI G FY p q r o i v HY Ho Hi. destruct (create1_state _ _ _ _ _ E) as [Hn H0].
  pose proof (calls1_state x k 0 x0 h m x0 H0) as H. fold (grid_after (List.length x) x0 h) in H.
  assert (V : (xo <> None \/ x0 <> None) /\ accepted1 (List.length x) Z = true).
  { destruct H as [H1 [H2 [H3 [H4 H5]]]]. unfold spline1_forward in FY.
    assert (B : ~ ((xo = None /\ x0 = None) \/ accepted1 (List.length x) Z = false)).
    { intros B. destruct (validate1_bad (calls1 m h) Z xo) as [e [Ee _]]; [rewrite H4, H1; exact B|]. rewrite Ee in FY. discriminate. }
    split; [destruct xo; [left; congruence|destruct x0; [right; congruence|tauto]]|]. destruct (accepted1 (List.length x) Z); [reflexivity|tauto]. }
  destruct V as [Hg A]. destruct (spline1_spec x k 0 x0 m h Z xo xs E Hg A G) as [b [c [w [SZ [OKc NOc]]]]].
  destruct (fit1 x k 0 (fun _ => 0)) as [u0|] eqn:F0.
  - destruct (OKc (ex_intro _ u0 eq_refl)) as [Y' [EY [SY VY]]]. rewrite EY in FY. injection FY as <-.
    assert (IB : inb [p; q; r; o] (shape Y')) by (apply get_some in HY; tauto).
    destruct (VY p q r o IB) as [u [Fu GY]]. rewrite GY in HY. injection HY as <-. rewrite Ho. apply (fit_interpolates x k _ u Hk Hn HI Fu i Hi).
  - exfalso. destruct (Nat.eq_dec (b * c * w) 0) as [Z0|NZ]; [|rewrite NOc in FY by (try reflexivity; assumption); discriminate].
    (* an empty batch has no entries *)
    assert (SH : exists o', shape Y = [b; c; w; o']).
    { unfold spline1_forward in FY. destruct H as [H1 [H2 [H3 [H4 H5]]]].
      rewrite validate1_ok in FY by (rewrite ?H4, ?H1; assumption). 
      assert (ND : (1 <= ndim Z <= 4)%nat). { unfold accepted1 in A. apply andb_prop in A. destruct A as [A _]. apply andb_prop in A. destruct A as [A B]. apply Nat.leb_le in A. apply Nat.leb_le in B. lia. }
      rewrite pad4_shape, SZ in FY by assumption. destruct (s1_B _) as [[rows Bo]|]; [|discriminate FY].
      destruct (fit1 _ _ _ _) in FY; [|destruct (_ =? 0)%nat in FY]; cbn [fst] in FY; inversion FY; eexists; reflexivity. }
    destruct SH as [o' SH]. apply get_some in HY. destruct HY as [IB _]. rewrite SH in IB. cbn in IB. apply Nat.eq_mul_0 in Z0. destruct Z0 as [Z0|Z0]; [apply Nat.eq_mul_0 in Z0|]; lia.
Qed.
Theorem spline1_errors x k s x0 m h Z xo : spline1_create x k s x0 = Ok m ->
  (xo = None -> x0 = None -> fst (spline1_forward (calls1 m h) Z xo) = Err ValueError) /\
  ((xo <> None \/ x0 <> None) -> accepted1 (List.length x) Z = false ->
     fst (spline1_forward (calls1 m h) Z xo) = Err (if (ndim Z =? 0)%nat then IndexError else ValueError)).
Proof.
  intros E. destruct (create1_state _ _ _ _ _ E) as [Hn H0]. pose proof (calls1_state x k s x0 h m x0 H0) as H.
  set (m1 := calls1 m h) in *. clearbody m1. destruct H as [H1 [H2 [H3 [H4 _]]]]. split.
  - intros -> ->. unfold spline1_forward, validate1. rewrite H4. reflexivity.
  - intros Hg A. unfold spline1_forward. enough (V : validate1 m1 Z xo = Err (if (ndim Z =? 0)%nat then IndexError else ValueError)) by (rewrite V; reflexivity).
    unfold validate1, accepted1 in *. rewrite H1, H4. assert (W : (if (4 <? ndim Z)%nat then Err ValueError else if (ndim Z =? 0)%nat then Err IndexError else
       if (last (shape Z) 0 =? List.length x)%nat then Ok (pad_ndim4 Z) else Err ValueError) = Err (if (ndim Z =? 0)%nat then IndexError else ValueError)).
    { destruct (Nat.ltb_spec 4 (ndim Z)); [destruct (Nat.eqb_spec (ndim Z) 0); [lia|reflexivity]|]. destruct (Nat.eqb_spec (ndim Z) 0); [reflexivity|].
      replace (1 <=? ndim Z)%nat with true in A by (symmetry; apply Nat.leb_le; lia). replace (ndim Z <=? 4)%nat with true in A by (symmetry; apply Nat.leb_le; lia). cbn [andb] in A. rewrite A. reflexivity. }
    destruct xo; [exact W|]. destruct x0; [exact W|]. destruct Hg; congruence.
Qed.
(** documented: x_out in a call "overrides any value that was set during initialization"; it also does so for later calls that give none *)
Theorem override_persists_refuted x k s xs0 xs1 m Z1 Z2 : spline1_create x k s (Some xs0) = Ok m -> accepted1 (List.length x) Z1 = true ->
  grid_after (List.length x) (Some xs0) [(Z1, Some xs1)] = Some xs1 /\
  fst (spline1_forward (calls1 m [(Z1, Some xs1)]) Z2 None) = fst (spline1_forward m Z2 (Some xs1)).
Proof.
  intros E A. split; [cbn; rewrite A; reflexivity|]. destruct (create1_state _ _ _ _ _ E) as [Hn H0].
  pose proof (forward1_state m x k s (Some xs0) (Some xs0) Z1 (Some xs1) H0) as H. rewrite A in H. cbn [calls1 fst snd].
  set (m1 := snd _) in *. clearbody m1. destruct H as [H1 [H2 [H3 [H4 H5]]]], H0 as [K1 [K2 [K3 [K4 K5]]]].
  unfold spline1_forward. assert (V : validate1 m1 Z2 None = validate1 m Z2 (Some xs1)) by (unfold validate1; rewrite H4, H1, K1; reflexivity).
  rewrite V. destruct (validate1 m Z2 (Some xs1)) as [Z'|]; [|reflexivity]. cbn [s1_x s1_k s1_s s1_B s1_xout]. unfold s1_knots. rewrite H1, H2, H3, H5, K1, K2, K3. cbn [option_map].
  destruct (shape Z') as [|? [|? [|? [|? [|? ?]]]]]; try reflexivity. destruct (fit1 _ _ _ _); [reflexivity|]. destruct (_ =? 0)%nat; reflexivity.
Qed.
