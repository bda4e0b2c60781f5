(** Property C51, part 4: SplineInterpolate2D. *)
From Coq Require Import Sorted FunctionalExtensionality.
From Verif Require Import Base Tensor Rutil Slicing_model Norm_model Gw_model Linsolve Spline_model Spline_props Spline2_props Spline3_props.
Local Open Scope R_scope.

(** ** specification *)
Definition call2 : Type := tensor R * (option (list R) * option (list R)).   (* data, x_out, y_out *)
Definition some {A} (o : option A) : bool := match o with Some _ => true | None => false end.
(** a call is accepted when both output grids are known (from construction or this call) and the data fits *)
Definition accepted_call (ny nx : nat) (x0 y0 : option (list R)) (c : call2) : bool :=
  (some (fst (snd c)) || some x0) && (some (snd (snd c)) || some y0) && accepted2 ny nx (fst c).
Definition gridx_after (ny nx : nat) (x0 y0 : option (list R)) (h : list call2) : option (list R) :=
  fold_left (fun g c => match fst (snd c) with Some xs => if accepted_call ny nx x0 y0 c then Some xs else g | None => g end) h x0.
Definition gridy_after (ny nx : nat) (x0 y0 : option (list R)) (h : list call2) : option (list R) :=
  fold_left (fun g c => match snd (snd c) with Some ys => if accepted_call ny nx x0 y0 c then Some ys else g | None => g end) h y0.
Fixpoint calls2 (m : spline2) (h : list call2) : spline2 :=
  match h with [] => m | c :: h => calls2 (snd (spline2_forward m (fst c) (fst (snd c)) (snd (snd c)))) h end.

(** ** the bivariate fit is the composition of the two univariate ones *)
Lemma solvable_iff x k s z : solvable x k s = true <-> exists c, fit1 x k s z = Some c.
Proof.
  unfold solvable. destruct (fit1 x k s (fun _ => 0)) as [c|] eqn:E.
  - split; [intros _; eapply fit1_some; exact E|reflexivity].
  - split; [discriminate|]. intros [c Hc]. destruct (fit1_some x k s z (fun _ => 0) c Hc) as [c' Hc']. congruence.
Qed.
Lemma fit1_solves x k s z c : fit1 x k s z = Some c -> forall i, (i < List.length x)%nat ->
  mvec (List.length x) (gram (List.length x) (bmat (fit_knots x k) k x) s) c i = Rsum (List.length x) (fun j => bmat (fit_knots x k) k x j i * z j).
Proof. intros E. apply (gsolve_sound _ _ _ _ E). Qed.
Lemma fit1_eq x k s z c c' : fit1 x k s z = Some c -> (forall i, (i < List.length x)%nat ->
  mvec (List.length x) (gram (List.length x) (bmat (fit_knots x k) k x) s) c' i = Rsum (List.length x) (fun j => bmat (fit_knots x k) k x j i * z j)) ->
  forall j, (j < List.length x)%nat -> c' j = c j.
Proof. intros E H j Hj. unfold fit1 in E. apply (gsolve_unique _ _ _ _ E _ c' c H (gsolve_sound _ _ _ _ E) j Hj). Qed.

Section Bivariate.
Variables (m : spline2) (z : nat -> nat -> R) (P Q : nat -> R).
Let x := s2_x m. Let y := s2_y m. Let kx := s2_kx m. Let ky := s2_ky m. Let sx := s2_sx m. Let sy := s2_sy m.
Let nx := List.length x. Let ny := List.length y.
Let Bx := bmat (fit_knots x kx) kx x. Let By := bmat (fit_knots y ky) ky y.
(** P: weights of the y coefficients (an output row of basis values), Q: of the x coefficients *)
Lemma fit2_separable (u : nat -> nat -> R) d :
  (forall l, fit1 y ky sy (fun i => z i l) = Some (u l)) ->
  fit1 x kx sx (fun l => Rsum ny (fun j => P j * u l j)) = Some d ->
  Rsum ny (fun j => Rsum nx (fun l => P j * fit2 m z j l * Q l)) = Rsum nx (fun l => Q l * d l).
Proof.
  intros Hu Hd.
  assert (SX : forall b, exists c, gsolve nx (gram nx Bx sx) b = Some c).
  { intros b. apply (proj2 (gsolve_some_iff _ _ b)). apply (gsolve_some_iff nx (gram nx Bx sx) (fun i => Rsum nx (fun j => Bx j i * Rsum ny (fun k => P k * u j k)))). exists d. exact Hd. }
  assert (SY : forall b, exists c, gsolve ny (gram ny By sy) b = Some c).
  { intros b. apply (proj2 (gsolve_some_iff _ _ b)). apply (gsolve_some_iff ny (gram ny By sy) (fun i => Rsum ny (fun j => By j i * z j 0%nat))). exists (u 0%nat). exact (Hu 0%nat). }
  set (rhs := fun j l => Rsum ny (fun i => Rsum nx (fun k => By i j * z i k * Bx k l))).
  set (E := fun j l => coef_or0 (gsolve ny (gram ny By sy) (fun i => rhs i l)) j).
  assert (FE : forall j l, fit2 m z j l = coef_or0 (gsolve nx (gram nx Bx sx) (fun i => E j i)) l) by reflexivity.
  (* E j l = sum over data columns of u *)
  assert (HE : forall l j, (j < ny)%nat -> E j l = Rsum nx (fun k => u k j * Bx k l)).
  { intros l j Hj. unfold E. destruct (SY (fun i => rhs i l)) as [c Hc]. rewrite Hc. cbn [coef_or0]. symmetry.
    apply (gsolve_unique _ _ _ _ Hc (fun i => rhs i l) (fun j => Rsum nx (fun k => u k j * Bx k l)) c); [|apply (gsolve_sound _ _ _ _ Hc)|assumption].
    intros i Hi. unfold mvec.
    rewrite (Rsum_ext ny _ (fun j => Rsum nx (fun k => Bx k l * (gram ny By sy i j * u k j)))) by (intros; rewrite <- Rsum_scal; apply Rsum_ext; intros; ring).
    rewrite Rsum_swap. unfold rhs. rewrite (Rsum_swap ny nx). apply Rsum_ext. intros k Hk. rewrite Rsum_scal.
    pose proof (fit1_solves y ky sy _ _ (Hu k) i Hi) as S. unfold mvec in S. fold ny By in S. rewrite S, <- Rsum_scal. apply Rsum_ext. intros; ring. }
  rewrite Rsum_swap. apply Rsum_ext. intros l Hl.
  rewrite (Rsum_ext ny _ (fun j => Q l * (P j * fit2 m z j l))) by (intros; ring). rewrite Rsum_scal. f_equal.
  unfold fit1 in Hd. fold nx Bx in Hd.
  apply (gsolve_unique _ _ _ _ Hd (fun i => Rsum nx (fun j => Bx j i * Rsum ny (fun k => P k * u j k))) (fun l => Rsum ny (fun j => P j * fit2 m z j l)) d); [|apply (gsolve_sound _ _ _ _ Hd)|assumption].
  intros i Hi. unfold mvec.
  rewrite (Rsum_ext nx _ (fun j => Rsum ny (fun k => P k * (gram nx Bx sx i j * fit2 m z k j)))) by (intros; rewrite <- Rsum_scal; apply Rsum_ext; intros; ring).
  rewrite Rsum_swap.
  rewrite (Rsum_ext ny _ (fun k => Rsum nx (fun j => P k * (u j k * Bx j i)))).
  - rewrite Rsum_swap. apply Rsum_ext. intros j Hj. rewrite <- Rsum_scal. apply Rsum_ext. intros; ring.
  - intros k Hk. rewrite !Rsum_scal. f_equal. destruct (SX (fun i => E k i)) as [c Hc].
    rewrite (Rsum_ext nx _ (fun j => gram nx Bx sx i j * c j)) by (intros j Hj; rewrite FE, Hc; reflexivity).
    rewrite <- HE by assumption. apply (gsolve_sound _ _ _ _ Hc i Hi).
Qed.
End Bivariate.

(** ** state *)
Lemma validate2_iff m Z xo yo : accepted_call (List.length (s2_y m)) (List.length (s2_x m)) (s2_xout m) (s2_yout m) (Z, (xo, yo)) = true ->
  validate2 m Z xo yo = Ok (pad_ndim4 Z).
Proof.
  unfold accepted_call, accepted2, validate2. cbn [fst snd]. intros A.
  apply andb_prop in A. destruct A as [A1 A]. apply andb_prop in A1. destruct A1 as [GX GY]. apply andb_prop in A. destruct A as [A C]. apply andb_prop in A. destruct A as [A D]. apply andb_prop in A. destruct A as [A B].
  apply Nat.leb_le in A. apply Nat.leb_le in B. rewrite C, D. cbn [andb].
  replace (4 <? ndim Z)%nat with false by (symmetry; apply Nat.ltb_ge; lia). replace (ndim Z <? 2)%nat with false by (symmetry; apply Nat.ltb_ge; lia).
  destruct xo, yo, (s2_xout m), (s2_yout m); try reflexivity; discriminate.
Qed.
Lemma validate2_bad m Z xo yo : accepted_call (List.length (s2_y m)) (List.length (s2_x m)) (s2_xout m) (s2_yout m) (Z, (xo, yo)) = false ->
  validate2 m Z xo yo = Err ValueError.
Proof.
  unfold accepted_call, accepted2, validate2. cbn [fst snd]. intros A.
  assert (W : (some xo || some (s2_xout m)) && (some yo || some (s2_yout m)) = true ->
    (if (4 <? ndim Z)%nat then Err ValueError else if (ndim Z <? 2)%nat then Err ValueError else
     if (last (removelast (shape Z)) 0 =? List.length (s2_y m))%nat && (last (shape Z) 0 =? List.length (s2_x m))%nat then Ok (pad_ndim4 Z) else Err ValueError) = Err ValueError).
  { intros G. rewrite G in A. destruct (Nat.ltb_spec 4 (ndim Z)); [reflexivity|]. destruct (Nat.ltb_spec (ndim Z) 2); [reflexivity|].
    replace (2 <=? ndim Z)%nat with true in A by (symmetry; apply Nat.leb_le; lia). replace (ndim Z <=? 4)%nat with true in A by (symmetry; apply Nat.leb_le; lia). cbn [andb] in A. rewrite A. reflexivity. }
  destruct xo, yo, (s2_xout m), (s2_yout m); cbn [some orb andb] in W; try reflexivity; apply W; reflexivity.
Qed.
Definition held (x : list R) (k : nat) (g : option (list R)) := option_map (fun xs => (List.length xs, out_matrix (fit_knots x k) k xs)) g.
Definition holds2 (m : spline2) x y kx ky sx sy x0 y0 gx gy : Prop :=
  m = mks2 x y kx ky sx sy x0 y0 (held x kx gx) (held y ky gy).
Lemma forward2_state m x y kx ky sx sy x0 y0 gx gy Z xo yo : holds2 m x y kx ky sx sy x0 y0 gx gy ->
  holds2 (snd (spline2_forward m Z xo yo)) x y kx ky sx sy x0 y0
   (match xo with Some xs => if accepted_call (List.length y) (List.length x) x0 y0 (Z, (xo, yo)) then Some xs else gx | None => gx end)
   (match yo with Some ys => if accepted_call (List.length y) (List.length x) x0 y0 (Z, (xo, yo)) then Some ys else gy | None => gy end).
Proof.
  unfold holds2. intros ->. destruct (accepted_call (List.length y) (List.length x) x0 y0 (Z, (xo, yo))) eqn:A.
  - unfold spline2_forward. rewrite validate2_iff by exact A. cbn [s2_x s2_y s2_kx s2_ky s2_sx s2_sy s2_xout s2_yout s2_Bx s2_By].
    assert (K : forall r : res (tensor R), snd (r, mks2 x y kx ky sx sy x0 y0 (match xo with Some xs => Some (List.length xs, out_matrix (fit_knots x kx) kx xs) | None => held x kx gx end)
        (match yo with Some ys => Some (List.length ys, out_matrix (fit_knots y ky) ky ys) | None => held y ky gy end)) =
        mks2 x y kx ky sx sy x0 y0 (held x kx match xo with Some xs => Some xs | None => gx end) (held y ky match yo with Some ys => Some ys | None => gy end)).
    { intros r. cbn [snd]. destruct xo, yo; reflexivity. }
    destruct (shape (pad_ndim4 Z)) as [|? [|? [|? [|? [|? ?]]]]]; try apply K.
    destruct (match xo with Some xs => _ | None => held x kx gx end) as [[? ?]|]; [|apply K].
    destruct (match yo with Some xs => _ | None => held y ky gy end) as [[? ?]|]; [|apply K].
    destruct (_ || _); apply K.
  - unfold spline2_forward. rewrite validate2_bad by exact A. cbn [snd]. destruct xo, yo; reflexivity.
Qed.
Lemma calls2_state x y kx ky sx sy x0 y0 h : forall m gx gy, holds2 m x y kx ky sx sy x0 y0 gx gy ->
  holds2 (calls2 m h) x y kx ky sx sy x0 y0
   (fold_left (fun g c => match fst (snd c) with Some xs => if accepted_call (List.length y) (List.length x) x0 y0 c then Some xs else g | None => g end) h gx)
   (fold_left (fun g c => match snd (snd c) with Some ys => if accepted_call (List.length y) (List.length x) x0 y0 c then Some ys else g | None => g end) h gy).
Proof.
  induction h as [|[Z [xo yo]] h IH]; intros m gx gy H; cbn [calls2 fold_left fst snd]; [exact H|]. apply IH. apply (forward2_state _ _ _ _ _ _ _ _ _ _ _ Z xo yo H).
Qed.
Lemma create2_state x y kx ky sx sy x0 y0 m : spline2_create x y kx ky sx sy x0 y0 = Ok m ->
  (kx + 2 <= List.length x)%nat /\ (ky + 2 <= List.length y)%nat /\ holds2 m x y kx ky sx sy x0 y0 x0 y0.
Proof.
  unfold spline2_create. destruct (Nat.ltb_spec (List.length x) (kx + 2)); [discriminate|]. destruct (Nat.ltb_spec (List.length y) (ky + 2)); [discriminate|].
  intros E. injection E as <-. split; [assumption|]. split; [assumption|]. reflexivity.
Qed.
Theorem spline2_create_spec x y kx ky sx sy x0 y0 : ((List.length x < kx + 2)%nat \/ (List.length y < ky + 2)%nat -> spline2_create x y kx ky sx sy x0 y0 = Err ValueError) /\
  ((kx + 2 <= List.length x)%nat -> (ky + 2 <= List.length y)%nat -> exists m, spline2_create x y kx ky sx sy x0 y0 = Ok m).
Proof. unfold spline2_create. destruct (Nat.ltb_spec (List.length x) (kx + 2)); destruct (Nat.ltb_spec (List.length y) (ky + 2)); split; intros; try lia; eauto. Qed.
Lemma shape4_split2 Z ny nx : (2 <= ndim Z <= 4)%nat -> last (removelast (shape Z)) 0%nat = ny -> last (shape Z) 0%nat = nx -> exists b c, shape4 Z = [b; c; ny; nx].
Proof.
  unfold shape4, ndim. destruct Z as [[|a [|b [|c [|d [|e l]]]]] f]; cbn; intros; try lia; subst; eauto.
Qed.

(** one call after any history: each image becomes the tensor-product spline at the grids in force: the columns are fitted along y and
    evaluated at the y coordinate, and the resulting row is fitted along x and evaluated at the x coordinate *)
Theorem spline2_spec x y kx ky sx sy x0 y0 m h Z xo yo xs ys : spline2_create x y kx ky sx sy x0 y0 = Ok m ->
  accepted_call (List.length y) (List.length x) x0 y0 (Z, (xo, yo)) = true ->
  call_grid (gridx_after (List.length y) (List.length x) x0 y0 h) xo = Some xs -> call_grid (gridy_after (List.length y) (List.length x) x0 y0 h) yo = Some ys ->
  exists b c, shape4 Z = [b; c; List.length y; List.length x] /\
  ((exists u v, fit1 x kx sx (fun _ => 0) = Some u /\ fit1 y ky sy (fun _ => 0) = Some v) ->
   exists Y, fst (spline2_forward (calls2 m h) Z xo yo) = Ok Y /\ shape Y = [b; c; List.length ys; List.length xs] /\
    forall p q r o, inb [p; q; r; o] (shape Y) -> exists (u : nat -> nat -> R) d,
      (forall l, fit1 y ky sy (fun i => data4 Z [p; q; i; l]) = Some (u l)) /\
      fit1 x kx sx (fun l => spline_at y ky (u l) (at_ ys r)) = Some d /\
      get Y [p; q; r; o] = Some (spline_at x kx d (at_ xs o))) /\
  (fit1 x kx sx (fun _ => 0) = None \/ fit1 y ky sy (fun _ => 0) = None -> (b * c <> 0)%nat -> fst (spline2_forward (calls2 m h) Z xo yo) = Err RuntimeError) /\
  ((b * c = 0)%nat -> exists Y, fst (spline2_forward (calls2 m h) Z xo yo) = Ok Y /\ shape Y = [b; c; List.length ys; List.length xs]).
Proof.
  intros E A GX GY. destruct (create2_state _ _ _ _ _ _ _ _ _ E) as [Hx [Hy H0]]. pose proof (calls2_state x y kx ky sx sy x0 y0 h m x0 y0 H0) as H.
  fold (gridx_after (List.length y) (List.length x) x0 y0 h) (gridy_after (List.length y) (List.length x) x0 y0 h) in H. unfold holds2 in H. rewrite H. clear H.
  set (gx := gridx_after _ _ _ _ h) in *. set (gy := gridy_after _ _ _ _ h) in *. clearbody gx gy.
  assert (A' := A). unfold accepted_call, accepted2 in A'. cbn [fst snd] in A'. apply andb_prop in A'. destruct A' as [_ A']. apply andb_prop in A'. destruct A' as [A' C]. apply andb_prop in A'. destruct A' as [A' D]. apply andb_prop in A'. destruct A' as [A' B].
  apply Nat.leb_le in A'. apply Nat.leb_le in B. apply Nat.eqb_eq in C. apply Nat.eqb_eq in D.
  destruct (shape4_split2 Z _ _ (conj A' B) D C) as [b [c SZ]]. exists b, c. split; [exact SZ|].
  set (m' := mks2 x y kx ky sx sy x0 y0 (held x kx (Some xs)) (held y ky (Some ys))).
  assert (FW : fst (spline2_forward (mks2 x y kx ky sx sy x0 y0 (held x kx gx) (held y ky gy)) Z xo yo) =
     if (b * c =? 0)%nat || (solvable y ky sy && solvable x kx sx) then
        Ok (mk [b; c; List.length ys; List.length xs] (fun i => match i with
            | [p; q; r; o] => let C := fit2 m' (fun i k => elt (pad_ndim4 Z) [p; q; i; k]) in
                              Rsum (List.length y) (fun k => Rsum (List.length x) (fun l => out_matrix (fit_knots y ky) ky ys r k * C k l * out_matrix (fit_knots x kx) kx xs o l))
            | _ => 0 end)) else Err RuntimeError).
  { unfold spline2_forward. rewrite validate2_iff by exact A. cbn [s2_x s2_y s2_kx s2_ky s2_sx s2_sy s2_xout s2_yout s2_Bx s2_By]. rewrite pad4_shape, SZ by lia.
    assert (EX : match xo with Some xs0 => Some (List.length xs0, out_matrix (fit_knots x kx) kx xs0) | None => held x kx gx end = held x kx (Some xs)).
    { unfold call_grid in GX. destruct xo; [injection GX as ->; reflexivity|rewrite GX; reflexivity]. }
    assert (EY : match yo with Some ys0 => Some (List.length ys0, out_matrix (fit_knots y ky) ky ys0) | None => held y ky gy end = held y ky (Some ys)).
    { unfold call_grid in GY. destruct yo; [injection GY as ->; reflexivity|rewrite GY; reflexivity]. }
    rewrite EX, EY. fold m'. cbn [held option_map]. destruct (_ || _); reflexivity. }
  rewrite FW. split; [|split].
  - intros [u0 [v0 [Hu Hv]]]. assert (SX : solvable x kx sx = true) by (apply (solvable_iff x kx sx (fun _ => 0)); eauto). assert (SY : solvable y ky sy = true) by (apply (solvable_iff y ky sy (fun _ => 0)); eauto).
    rewrite SX, SY, orb_true_r. eexists. split; [reflexivity|]. split; [reflexivity|]. intros p q r o Hi.
    exists (fun l => coef_or0 (fit1 y ky sy (fun i => data4 Z [p; q; i; l]))).
    assert (HU : forall l, fit1 y ky sy (fun i => data4 Z [p; q; i; l]) = Some (coef_or0 (fit1 y ky sy (fun i => data4 Z [p; q; i; l])))).
    { intros l. destruct (proj1 (solvable_iff y ky sy (fun i => data4 Z [p; q; i; l])) SY) as [u Hu']. rewrite Hu'. reflexivity. }
    set (uu := fun l => coef_or0 (fit1 y ky sy (fun i => data4 Z [p; q; i; l]))) in *.
    destruct (proj1 (solvable_iff x kx sx (fun l => spline_at y ky (uu l) (at_ ys r))) SX) as [d Hd]. exists d. split; [exact HU|]. split; [exact Hd|].
    rewrite get_inb by exact Hi. f_equal. cbn [elt]. cbv zeta. cbn [shape inb] in Hi. destruct Hi as [_ [_ [Hr [Ho _]]]].
    rewrite <- (out_matrix_eval x kx xs o d Hx Ho).
    assert (EZ : fit2 m' (fun i k => elt (pad_ndim4 Z) [p; q; i; k]) = fit2 m' (fun i k => data4 Z [p; q; i; k])).
    { f_equal. unfold data4, pad_ndim4, ndim in *. clear - A' B. destruct Z as [[|a1 [|a2 [|a3 [|a4 [|a5 l]]]]] f]; cbn in *; try lia; reflexivity. }
    rewrite EZ. apply (fit2_separable m' (fun i k => data4 Z [p; q; i; k]) (out_matrix (fit_knots y ky) ky ys r) (out_matrix (fit_knots x kx) kx xs o) uu d); [exact HU|].
    cbn [m' s2_x s2_y s2_kx s2_sx]. rewrite <- Hd. f_equal. apply functional_extensionality. intros l. apply out_matrix_eval; assumption.
  - intros Hn Hbc. replace (b * c =? 0)%nat with false by (symmetry; apply Nat.eqb_neq; assumption). cbn [orb].
    destruct (solvable x kx sx) eqn:SX, (solvable y ky sy) eqn:SY; try reflexivity. exfalso.
    destruct (proj1 (solvable_iff x kx sx (fun _ => 0)) SX), (proj1 (solvable_iff y ky sy (fun _ => 0)) SY). destruct Hn; congruence.
  - intros Hbc. rewrite Hbc. cbn [Nat.eqb orb]. eexists. split; reflexivity.
Qed.

(** unregularised: the data is reproduced at its own grid points *)
Theorem spline2_reproduces x y kx ky x0 y0 m h Z xo yo xs ys Y : spline2_create x y kx ky 0 0 x0 y0 = Ok m -> (1 <= kx)%nat -> (1 <= ky)%nat -> increasing x -> increasing y ->
  call_grid (gridx_after (List.length y) (List.length x) x0 y0 h) xo = Some xs -> call_grid (gridy_after (List.length y) (List.length x) x0 y0 h) yo = Some ys ->
  fst (spline2_forward (calls2 m h) Z xo yo) = Ok Y ->
  forall p q r o i l v, get Y [p; q; r; o] = Some v -> at_ ys r = at_ y i -> (i < List.length y)%nat -> at_ xs o = at_ x l -> (l < List.length x)%nat -> v = data4 Z [p; q; i; l].
Proof.
  intros E Hkx Hky IX IY GX GY FY p q r o i l v HY Er Hi Eo Hl. destruct (create2_state _ _ _ _ _ _ _ _ _ E) as [Hx [Hy H0]].
  assert (A : accepted_call (List.length y) (List.length x) x0 y0 (Z, (xo, yo)) = true).
  { destruct (accepted_call (List.length y) (List.length x) x0 y0 (Z, (xo, yo))) eqn:A; [reflexivity|]. exfalso.
    pose proof (calls2_state x y kx ky 0 0 x0 y0 h m x0 y0 H0) as H. unfold holds2 in H. rewrite H in FY. unfold spline2_forward in FY. rewrite validate2_bad in FY by exact A. discriminate. }
  destruct (spline2_spec x y kx ky 0 0 x0 y0 m h Z xo yo xs ys E A GX GY) as [b [c [SZ [OKc [NOc EMc]]]]].
  destruct (Nat.eq_dec (b * c) 0) as [B0|BN].
  { exfalso. destruct (EMc B0) as [Y' [EY SY]]. rewrite EY in FY. injection FY as <-. apply get_some in HY. destruct HY as [IB _]. rewrite SY in IB. cbn in IB. apply Nat.eq_mul_0 in B0. lia. }
  destruct (fit1 x kx 0 (fun _ => 0)) as [u0|] eqn:FX; [|rewrite NOc in FY by (try assumption; left; reflexivity); discriminate].
  destruct (fit1 y ky 0 (fun _ => 0)) as [v0|] eqn:FYy; [|rewrite NOc in FY by (try assumption; right; reflexivity); discriminate].
  destruct (OKc (ex_intro _ u0 (ex_intro _ v0 (conj eq_refl eq_refl)))) as [Y' [EY [SY VY]]]. rewrite EY in FY. injection FY as <-.
  assert (IB : inb [p; q; r; o] (shape Y')) by (apply get_some in HY; tauto).
  destruct (VY p q r o IB) as [u [d [HU [HD GYv]]]]. rewrite GYv in HY. injection HY as <-. rewrite Eo.
  rewrite (fit_interpolates x kx _ d Hkx Hx IX HD l Hl). rewrite Er. apply (fit_interpolates y ky _ (u l) Hky Hy IY (HU l) i Hi).
Qed.
Theorem spline2_errors x y kx ky sx sy x0 y0 m h Z xo yo : spline2_create x y kx ky sx sy x0 y0 = Ok m ->
  accepted_call (List.length y) (List.length x) x0 y0 (Z, (xo, yo)) = false -> fst (spline2_forward (calls2 m h) Z xo yo) = Err ValueError.
Proof.
  intros E A. destruct (create2_state _ _ _ _ _ _ _ _ _ E) as [Hx [Hy H0]].
  pose proof (calls2_state x y kx ky sx sy x0 y0 h m x0 y0 H0) as H. unfold holds2 in H. rewrite H. unfold spline2_forward. rewrite validate2_bad by exact A. reflexivity.
Qed.
(** a rejected call leaves the coordinates in force unchanged *)
Theorem rejected_keeps_state x y kx ky sx sy x0 y0 m Z xo yo : spline2_create x y kx ky sx sy x0 y0 = Ok m ->
  accepted_call (List.length y) (List.length x) x0 y0 (Z, (xo, yo)) = false -> snd (spline2_forward m Z xo yo) = m.
Proof.
  intros E A. destruct (create2_state _ _ _ _ _ _ _ _ _ E) as [Hx [Hy H]]. unfold holds2 in H. rewrite H. unfold spline2_forward. rewrite validate2_bad by exact A. reflexivity.
Qed.
(** the hypotheses are met: a linear 1D interpolator on 0,1,3,4 given new coordinates in a call *)
Example spline1_ex : exists m u, spline1_create [0; 1; 3; 4] 1 0 None = Ok m /\ accepted1 4 (mk [2; 4]%nat (fun i => INR (nth 1 i 0%nat))) = true /\
  call_grid (grid_after 4 None []) (Some [1/2; 2]) = Some [1/2; 2] /\ fit1 [0; 1; 3; 4] 1 0 (fun _ => 0) = Some u.
Proof.
  destruct (fit_degree_one [0; 1; 3; 4] (fun _ => 0)) as [c [Hc _]]; [cbn; lia| |].
  - intros i j Hi Hj. cbn [List.length] in Hj. destruct j as [|[|[|[|j]]]]; try lia; destruct i as [|[|[|i]]]; try lia; unfold at_; cbn [nth]; lra.
  - eexists. exists c. split; [reflexivity|]. split; [reflexivity|]. split; [reflexivity|exact Hc].
Qed.
