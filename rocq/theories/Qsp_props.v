(** Property C75: the spline method of SingleQTransform and QScan. *)
From Coq Require Import String Sorted.
From Verif Require Import Base Tensor Rutil Slicing_model Slicing_proofs2 Autoenc_model Norm_model Norm_props Dft Gw_model Gw_props Snr_props Spectral_model Spectral_props Trans_model Decim_props Whiten_props
  Qt_model Qt_props Qt2_props Qtr_props Qtr2_props Qtr3_props Qscan_props Linsolve Spline_model Spline_props Spline2_props Spline3_props Spline4_props Sw_props Sw2_props Gen_row Qsp_model.
Local Open Scope R_scope.

(** ** specification *)
(** the instants of a row of N tiles covering dur seconds: 0, dur/N, 2 dur/N, ... *)
Definition tile_times (dur : R) (N : nat) : list R := map (fun l => INR l * (dur / INR N)) (seq 0 N).
(** the y-th of nf log-spaced frequencies from lo to hi *)
Definition log_grid (lo hi : R) (nf y : nat) : R := if (nf =? 1)%nat then lo else lo * Rpower (hi / lo) (INR y / (INR nf - 1)).
(** c are the coefficients of the cubic spline on the coordinates x through the values z (unique, by [fit_exists]) *)
Definition cubic_through (x : list R) (z : nat -> R) (c : nat -> R) : Prop := forall i, (i < List.length x)%nat -> spline_at x 3 c (at_ x i) = z i.

(** ** grids *)
Lemma rceil_INR n : rceil (INR n) = Z.of_nat n.
Proof. apply rceil_unique; rewrite <- INR_IZR_INZ; lra. Qed.
Lemma arange_times dur n : 0 < dur -> (0 < n)%nat -> arange_r dur (dur / INR n) = tile_times dur n.
Proof.
  intros Hd Hn. unfold arange_r, tile_times. assert (N : INR n <> 0) by (apply not_0_INR; lia).
  replace (dur / (dur / INR n)) with (INR n) by (field; lra). rewrite rceil_INR, Nat2Z.id. reflexivity.
Qed.
Lemma tile_times_len dur N : List.length (tile_times dur N) = N.
Proof. unfold tile_times. rewrite map_length, seq_length. reflexivity. Qed.
Lemma tile_times_at dur N l : (l < N)%nat -> at_ (tile_times dur N) l = INR l * (dur / INR N).
Proof.
  intros H. unfold at_, tile_times. rewrite (nth_indep _ 0 (INR 0 * (dur / INR N))) by (rewrite map_length, seq_length; assumption).
  rewrite (map_nth (fun l => INR l * (dur / INR N))). rewrite seq_nth by assumption. reflexivity.
Qed.
Lemma tile_times_increasing dur N : 0 < dur -> increasing (tile_times dur N).
Proof.
  intros Hd i j Hij Hj. rewrite tile_times_len in Hj. rewrite !tile_times_at by lia. apply Rmult_lt_compat_r; [|apply lt_INR; assumption].
  apply Rdiv_lt_0_compat; [assumption|]. apply lt_0_INR. lia.
Qed.
Lemma sorted_increasing l : StronglySorted Rlt l -> increasing l.
Proof.
  intros SS i j Hij Hj. revert i j Hij Hj. induction SS as [|a l SS IH HF]; intros i j Hij Hj; [cbn in Hj; lia|].
  destruct j as [|j]; [lia|]. cbn in Hj. unfold at_. cbn [nth]. destruct i as [|i].
  - rewrite Forall_forall in HF. apply HF. apply nth_In. lia.
  - apply (IH i j); lia.
Qed.
Lemma logspace_len a b n : List.length (logspace a b n) = n.
Proof. unfold logspace. rewrite map_length, seq_length. reflexivity. Qed.
Lemma logspace_at lo hi nf y : 0 < lo -> 0 < hi -> (y < nf)%nat -> at_ (logspace (log10 lo) (log10 hi) nf) y = log_grid lo hi nf y.
Proof.
  intros Hl Hh Hy. unfold at_, logspace, log_grid. set (f := fun k => Rpower 10 _).
  rewrite (nth_indep _ 0 (f 0%nat)) by (rewrite map_length, seq_length; assumption). rewrite (map_nth f), seq_nth by assumption. unfold f. cbn [plus].
  assert (L10 : 0 < ln 10) by (rewrite <- ln_1; apply ln_increasing; lra). unfold Rpower, log10.
  destruct (Nat.eqb_spec nf 1) as [E|E].
  - rewrite Rmult_0_r, Rplus_0_r. unfold Rdiv. rewrite Rmult_assoc, Rinv_l, Rmult_1_r by lra. apply exp_ln. assumption.
  - assert (N1 : INR nf - 1 <> 0). { intros K. assert (INR nf = INR 1) by (cbn; lra). apply INR_eq in H. contradiction. }
    assert (K : ln (hi / lo) = ln hi - ln lo) by (unfold Rdiv; rewrite ln_mult, ln_Rinv by (try assumption; apply Rinv_0_lt_compat; assumption); ring).
    rewrite K. transitivity (exp (ln lo) * exp (INR y / (INR nf - 1) * (ln hi - ln lo))); [|rewrite exp_ln by assumption; reflexivity].
    rewrite <- exp_plus. f_equal. field. lra.
Qed.

(** ** stacking and concatenating *)
Lemma stack_m2_spec B D N ts : ts <> [] -> Forall (fun t => shape t = [B; D; N]) ts ->
  exists G, stack_m2 ts = Ok G /\ shape G = [B; D; List.length ts; N] /\ forall p q r o, (r < List.length ts)%nat -> elt G [p; q; r; o] = elt (nth r ts (mk [] (fun _ => 0))) [p; q; o].
Proof.
  intros NE F. destruct ts as [|t0 ts']; [congruence|]. unfold stack_m2. set (ts := t0 :: ts') in *.
  assert (S0 : shape t0 = [B; D; N]) by (inversion F; assumption).
  replace (forallb _ ts) with true.
  - eexists. split; [reflexivity|]. rewrite S0. cbn [removelast last app shape elt]. split; [reflexivity|]. intros p q r o Hr. rewrite (nth_indep ts t0 (mk [] (fun _ => 0))) by assumption. reflexivity.
  - symmetry. apply forallb_forall. intros t Ht. rewrite Forall_forall in F. rewrite (F t Ht), S0. destruct (list_eq_dec _ _ _); [reflexivity|congruence].
Qed.
(** reading a concatenation: row r is the row of the group that holds the r-th element *)
Lemma cat_elt_spec (P : nat -> R -> Prop) p q o gs rows :
  Forall2 (fun g Y => nth 2 (shape Y) 0%nat = List.length g /\ forall r, (r < List.length g)%nat -> P (nth r g 0%nat) (elt Y [p; q; r; o])) gs rows ->
  forall r, (r < List.length (concat gs))%nat -> P (nth r (concat gs) 0%nat) (cat_elt rows p q r o).
Proof.
  induction 1 as [|g Y gs rows [Hh HP] F IH]; cbn [concat cat_elt]; intros r Hr; [cbn in Hr; lia|]. rewrite Hh. rewrite app_length in Hr.
  destruct (Nat.ltb_spec r (List.length g)).
  - rewrite app_nth1 by assumption. apply HP. assumption.
  - rewrite app_nth2 by lia. apply IH. lia.
Qed.
Lemma cat_m2_spec B D W gs rows : rows <> [] -> Forall2 (fun (g : list nat) Y => shape Y = [B; D; List.length g; W]) gs rows ->
  exists c, cat_m2 rows = Ok c /\ shape c = [B; D; List.length (concat gs); W] /\ forall p q r o, elt c [p; q; r; o] = cat_elt rows p q r o.
Proof.
  intros NE F. assert (L : list_sum (map (fun t => nth 2 (shape t) 0%nat) rows) = List.length (concat gs)).
  { clear NE. induction F as [|g Y gs rows S F IH]; [reflexivity|]. cbn [map list_sum fold_right concat]. rewrite app_length, S. cbn [nth]. fold (list_sum (map (fun t => nth 2 (shape t) 0%nat) rows)). rewrite IH. reflexivity. }
  assert (A : Forall (fun Y => exists h, shape Y = [B; D; h; W]) rows) by (clear NE L; induction F; constructor; eauto).
  destruct rows as [|Y0 rows']; [congruence|]. set (rows := Y0 :: rows') in *. unfold cat_m2. unfold rows at 1. inversion A as [|? ? [h0 S0] _]; subst. rewrite S0.
  replace (forallb _ rows) with true.
  - rewrite L. eexists. split; [reflexivity|]. split; reflexivity.
  - symmetry. apply forallb_forall. intros t Ht. rewrite Forall_forall in A. destruct (A t Ht) as [h ->]. rewrite !Nat.eqb_refl. reflexivity.
Qed.

(** one interpolator, called without coordinates of its own *)
Lemma spline_call x x0 s Z B D W : spline1_create x 3 0 (Some x0) = Ok s -> increasing x -> shape Z = [B; D; W; List.length x] ->
  exists Y, fst (spline1_forward s Z None) = Ok Y /\ shape Y = [B; D; W; List.length x0] /\
   forall p q r o, (p < B)%nat -> (q < D)%nat -> (r < W)%nat -> (o < List.length x0)%nat ->
     exists u, cubic_through x (fun j => elt Z [p; q; r; j]) u /\ elt Y [p; q; r; o] = spline_at x 3 u (at_ x0 o).
Proof.
  intros E HI SZ.
  assert (Hn : (5 <= List.length x)%nat) by (destruct (Nat.le_gt_cases 5 (List.length x)) as [|L]; [assumption|]; rewrite (proj1 (spline1_create_spec x 3 0 (Some x0)) ltac:(lia)) in E; discriminate).
  destruct (spline1_total x 3 0 (Some x0) s [] Z None x0 E ltac:(lia) HI ltac:(lra) ltac:(right; discriminate)) as [b [c [w [Y [S4 [EY [SY VY]]]]]]]; [|reflexivity|].
  { unfold accepted1, ndim. rewrite SZ. cbn [List.length last]. rewrite Nat.eqb_refl. reflexivity. }
  unfold shape4, ndim in S4. rewrite SZ in S4. cbn in S4. injection S4 as <- <- <-. exists Y. split; [exact EY|]. split; [exact SY|]. intros p q r o Hp Hq Hr Ho.
  assert (IB : inb [p; q; r; o] (shape Y)) by (rewrite SY; cbn; auto). destruct (VY p q r o IB) as [u [Fu G]]. exists u. split.
  - intros i Hi. rewrite (fit_interpolates x 3 _ u ltac:(lia) ltac:(lia) HI Fu i Hi). unfold data4, ndim. rewrite SZ. reflexivity.
  - rewrite get_inb in G by assumption. congruence.
Qed.

(** ** construction *)
Lemma sequence_Forall2 {A B} (f : A -> res B) l r : sequence (map f l) = Ok r -> Forall2 (fun a b => f a = Ok b) l r.
Proof. apply sequence_map_inv. Qed.
Lemma create_parts dur sr q fr mm nf nt m : qsp_create dur sr q fr mm nf nt = Ok m -> 0 < dur ->
  (0 < nt)%nat /\ qtr_create dur sr q fr mm "spline" = Ok (qsp_base m) /\
  Forall2 (fun n s => n <> 0%Z /\ spline1_create (arange_r dur (dur / IZR n)) 3 0 (Some (tile_times dur nt)) = Ok s) (zunique (map ntiles (tr_tiles (qsp_base m)))) (qsp_times m) /\
  spline1_create (tr_freqs (qsp_base m)) 3 0 (Some (logspace (log10 (fst (tr_frange (qsp_base m)))) (log10 (snd (tr_frange (qsp_base m)))) nf)) = Ok (qsp_freq m).
Proof.
  intros E Hd. unfold qsp_create in E. destruct (qtr_create dur sr q fr mm "spline") as [b|]; [|discriminate]. cbn [bind] in E.
  destruct (Nat.eqb_spec nt 0) as [|Hn]; [discriminate|]. rewrite arange_times in E by (try assumption; lia).
  destruct (sequence _) as [ts|] eqn:Es in E; [|discriminate]. cbn [bind] in E. destruct (spline1_create (tr_freqs b) 3 0 _) as [f|] eqn:Ef; [|discriminate]. cbn [bind] in E. injection E as <-.
  cbn [qsp_base qsp_times qsp_freq]. split; [lia|]. split; [reflexivity|]. split; [|exact Ef].
  apply sequence_Forall2 in Es. revert Es. generalize (zunique (map ntiles (tr_tiles b))). intros l Es. induction Es as [|n s l l' H _ IH]; constructor; [|exact IH].
  cbv beta in H. destruct (Z.eqb_spec n 0); [discriminate|]. auto.
Qed.
(** what a created transform looks like *)
Lemma base_parts dur sr q fr mm b : 0 < dur -> 0 < sr -> 0 < q -> 0 < mm -> qtr_create dur sr q fr mm "spline" = Ok b ->
  tr_frange b = (resolved_lo q dur fr, resolved_hi q sr fr) /\ 0 < resolved_lo q dur fr /\ 0 < resolved_hi q sr fr /\
  get_freqs q dur mm (resolved_lo q dur fr) (resolved_hi q sr fr) = Ok (tr_freqs b) /\ tr_freqs b <> [] /\
  tr_tiles b = map (fun f => mkqt q f dur sr mm) (tr_freqs b) /\ StronglySorted Rlt (tr_freqs b).
Proof.
  intros Hd Hs Hq Hm E. destruct (qtr_construction dur sr q fr mm "spline" Hd Hs Hq Hm) as [C1 [_ [C3 C4]]].
  destruct (Rle_lt_dec (max_q dur sr) q) as [L|L]; [rewrite C1 in E by assumption; discriminate|].
  destruct (Rle_lt_dec (resolved_hi q sr fr) 0) as [G|G]; [rewrite C3 in E by assumption; discriminate|].
  destruct (C4 L Spline eq_refl G) as [fs [Ef [NE Ec]]]. rewrite Ec in E. injection E as <-. cbn [tr_frange tr_freqs tr_tiles].
  assert (Lo : 0 < resolved_lo q dur fr).
  { assert (0 < default_lo q dur) by (unfold default_lo; pose proof PI_RGT_0; apply Rdiv_lt_0_compat; [lra|apply Rmult_lt_0_compat; lra]).
    unfold resolved_lo. destruct fr as [[lo hi]|]; [|assumption]. destruct (Rle_dec lo 0); [assumption|lra]. }
  repeat split; try assumption.
  destruct (qtr_frequencies q dur mm _ _ Hd Hm Lo G) as [n [fs' [E' [_ [SS _]]]]]. rewrite Ef in E'. injection E' as <-. exact SS.
Qed.

(** ** the spectrogram *)
Lemma sequence_zip {Z0 A B Y} (P : Z0 -> A -> Prop) (Q : Z0 -> B -> Prop) (W : Z0 -> Y -> Prop) (f : A * B -> res Y) zs gs ss :
  Forall2 P zs gs -> Forall2 Q zs ss -> (forall z g s, In z zs -> P z g -> Q z s -> exists y, f (g, s) = Ok y /\ W z y) ->
  exists ys, sequence (map f (combine gs ss)) = Ok ys /\ Forall2 W zs ys.
Proof.
  intros FP. revert ss. induction FP as [|z g zs gs Hz _ IH]; intros ss FQ H; inversion FQ as [|? s ? ss' Hs FQ']; subst.
  - exists []. split; [reflexivity|constructor].
  - destruct (H z g s (or_introl eq_refl) Hz Hs) as [y [Ey Wy]]. destruct (IH ss' FQ') as [ys [Eys F]]; [intros; apply (H z0 g0 s0); auto; right; assumption|].
    exists (y :: ys). cbn [combine map sequence]. rewrite Ey. cbn [bind]. rewrite Eys. split; [reflexivity|constructor; assumption].
Qed.
(** the value at instant tau of the cubic spline through row e, whose N tiles cover dur seconds *)
Definition row_value (dur : R) (N : nat) (e : nat -> R) (tau v : R) : Prop :=
  exists c, cubic_through (tile_times dur N) e c /\ v = spline_at (tile_times dur N) 3 c tau.
Theorem qsp_interpolate_spec dur sr q fr mm nf nt m tiles B D : 0 < dur -> 0 < sr -> 0 < q -> 0 < mm -> qsp_create dur sr q fr mm nf nt = Ok m ->
  Forall (fun f => 0 < f) (tr_freqs (qsp_base m)) ->
  Forall2 (fun t tile => shape tile = [B; D; Z.to_nat (ntiles t)]) (tr_tiles (qsp_base m)) tiles ->
  exists out, qsp_interpolate m (Some tiles) = Ok out /\ shape out = [B; D; nf; nt] /\
   forall b d y z, (b < B)%nat -> (d < D)%nat -> (y < nf)%nat -> (z < nt)%nat ->
     exists v c, (forall k tile, nth_error tiles k = Some tile -> row_value dur (last (shape tile) 0%nat) (fun l => elt tile [b; d; l]) (INR z * (dur / INR nt)) (v k)) /\
       cubic_through (tr_freqs (qsp_base m)) v c /\
       get out [b; d; y; z] = Some (spline_at (tr_freqs (qsp_base m)) 3 c (log_grid (resolved_lo q dur fr) (resolved_hi q sr fr) nf y)).
Proof.
  intros Hd Hs Hq Hm E Fp F. destruct (create_parts dur sr q fr mm nf nt m E Hd) as [Hnt [Eb [Ft Ef]]].
  destruct (base_parts dur sr q fr mm (qsp_base m) Hd Hs Hq Hm Eb) as [Efr [Lo [Hhi [_ [NE [ET SS]]]]]]. rewrite Efr in Ef. cbn [fst snd] in Ef.
  set (ts := tr_tiles (qsp_base m)) in *. set (fs := tr_freqs (qsp_base m)) in *. set (dflt := mk [] (fun _ : list nat => 0)).
  assert (Lts : List.length ts = List.length fs) by (rewrite ET, map_length; reflexivity).
  assert (Ltl : List.length tiles = List.length fs) by (rewrite <- (Forall2_len _ _ _ F); exact Lts).
  assert (Pos : Forall positive ts). { rewrite ET. apply Forall_forall. intros t Ht. apply in_map_iff in Ht. destruct Ht as [f [<- Hf]]. rewrite Forall_forall in Fp. specialize (Fp f Hf). repeat split; assumption. }
  assert (GR : concat (stack_idx (qsp_base m)) = seq 0 (List.length fs) /\ Forall (fun g => g <> [] /\ exists n, forall i t, In i g -> nth_error ts i = Some t -> ntiles t = n) (stack_idx (qsp_base m))).
  { rewrite <- Lts. apply spline_groups; [assumption| |].
    - fold ts. rewrite ET. intros a b Ha Hb. apply in_map_iff in Ha, Hb. destruct Ha as [? [<- _]], Hb as [? [<- _]]. auto.
    - fold ts. rewrite ET, map_map. cbn [qt_f]. rewrite map_id. exact SS. }
  destruct GR as [GC GN]. unfold qsp_interpolate. unfold stack_idx in *. fold ts in GC, GN |- *. set (nts := map ntiles ts) in *.
  set (grp := fun n : Z => filter (fun i => (nth i nts 0 =? n)%Z) (seq 0 (List.length nts))) in *.
  assert (Lnts : List.length nts = List.length fs) by (unfold nts; rewrite map_length; exact Lts).
  (* a member of a group *)
  assert (MEM : forall n i, In i (grp n) -> (i < List.length fs)%nat /\ shape (nth i tiles dflt) = [B; D; Z.to_nat n]).
  { intros n i Hi. unfold grp in Hi. apply filter_In in Hi. destruct Hi as [Hi En]. apply in_seq in Hi. rewrite Lnts in Hi. split; [lia|]. apply Z.eqb_eq in En.
    destruct (nth_error ts i) as [t|] eqn:Et; [|apply nth_error_None in Et; lia]. destruct (Forall2_nth _ _ _ _ _ F Et) as [tile [Ht Sh]].
    rewrite (nth_error_nth _ _ dflt Ht). rewrite Sh. rewrite <- En. unfold nts. rewrite (nth_error_nth (map ntiles ts) i 0%Z (x := ntiles t)); [reflexivity|]. apply map_nth_error. exact Et. }
  assert (GNE : forall n, In n (zunique nts) -> grp n <> []). { intros n Hn. rewrite Forall_forall in GN. apply (GN (grp n)). apply in_map. assumption. }
  assert (NPOS : forall n, In n (zunique nts) -> (0 <= n)%Z). { intros n Hn. apply (proj1 (zunique_in _ _)) in Hn. unfold nts in Hn. apply in_map_iff in Hn. destruct Hn as [t [<- _]]. unfold ntiles. apply Z.pow_nonneg. lia. }
  (* the groups *)
  rewrite map_map. fold dflt.
  destruct (sequence_ok_map (fun n => stack_m2 (map (fun i => nth i tiles dflt) (grp n)))
     (fun n G => shape G = [B; D; List.length (grp n); Z.to_nat n] /\ forall p q r o, (r < List.length (grp n))%nat -> elt G [p; q; r; o] = elt (nth (nth r (grp n) 0%nat) tiles dflt) [p; q; o]) (zunique nts)) as [Gs [EG FG]].
  { intros n Hn. destruct (stack_m2_spec B D (Z.to_nat n) (map (fun i => nth i tiles dflt) (grp n))) as [G [E1 [S1 V1]]].
    - intros K. apply map_eq_nil in K. apply (GNE n Hn K).
    - apply Forall_forall. intros t Ht. apply in_map_iff in Ht. destruct Ht as [i [<- Hi]]. apply MEM. assumption.
    - rewrite map_length in S1, V1. exists G. split; [exact E1|]. split; [exact S1|]. intros p q' r o Hr. rewrite V1 by assumption. f_equal.
      rewrite (nth_indep _ _ ((fun i => nth i tiles dflt) 0%nat)) by (rewrite map_length; assumption). rewrite (map_nth (fun i => nth i tiles dflt)). reflexivity. }
  rewrite EG. cbn [bind].
  (* each group interpolated in time *)
  destruct (sequence_zip _ _ (fun n Y => shape Y = [B; D; List.length (grp n); nt] /\ forall p q' r o, (p < B)%nat -> (q' < D)%nat -> (r < List.length (grp n))%nat -> (o < nt)%nat ->
       row_value dur (last (shape (nth (nth r (grp n) 0%nat) tiles dflt)) 0%nat) (fun l => elt (nth (nth r (grp n) 0%nat) tiles dflt) [p; q'; l]) (INR o * (dur / INR nt)) (elt Y [p; q'; r; o]))
     (fun p => fst (spline1_forward (snd p) (fst p) None)) _ _ _ FG Ft) as [Ys [EY FY]].
  { intros n G s Hn [SG VG] [N0 Es]. cbn [fst snd]. pose proof (NPOS n Hn) as NP. set (N := Z.to_nat n) in *.
    assert (EN : IZR n = INR N) by (unfold N; rewrite INR_IZR_INZ, Z2Nat.id by assumption; reflexivity). rewrite EN, arange_times in Es by (try assumption; lia).
    destruct (spline_call _ _ s G B D (List.length (grp n)) Es (tile_times_increasing dur N Hd)) as [Y [E1 [S1 V1]]]; [rewrite tile_times_len; exact SG|].
    rewrite tile_times_len in S1, V1. exists Y. split; [exact E1|]. split; [exact S1|]. intros p q' r o Hp Hq' Hr Ho. destruct (V1 p q' r o Hp Hq' Hr Ho) as [u [Fu Vu]].
    rewrite tile_times_at in Vu by assumption. destruct (MEM n (nth r (grp n) 0%nat) (nth_In _ _ Hr)) as [_ Sh]. exists u. rewrite Sh. cbn [last]. fold N. split; [|exact Vu].
    intros i Hi. rewrite (Fu i Hi). apply VG. assumption. }
  rewrite EY. cbn [bind].
  (* the rows in order *)
  assert (FY' : Forall2 (fun g Y => shape Y = [B; D; List.length g; nt] /\ forall p q' r o, (p < B)%nat -> (q' < D)%nat -> (r < List.length g)%nat -> (o < nt)%nat ->
       row_value dur (last (shape (nth (nth r g 0%nat) tiles dflt)) 0%nat) (fun l => elt (nth (nth r g 0%nat) tiles dflt) [p; q'; l]) (INR o * (dur / INR nt)) (elt Y [p; q'; r; o])) (map grp (zunique nts)) Ys).
  { clear -FY. induction FY as [|n Y l l' H _ IH]; cbn [map]; constructor; assumption. }
  destruct (cat_m2_spec B D nt (map grp (zunique nts)) Ys) as [c [Ec [Sc Vc]]].
  { intros K. subst Ys. inversion FY' as [K|]. rewrite <- K in GC. cbn in GC. destruct fs; [congruence|discriminate]. }
  { clear -FY'. induction FY' as [|g Y l l' [H _] _ IH]; constructor; assumption. }
  rewrite Ec. cbn [bind]. rewrite GC, seq_length in Sc.
  (* over the frequencies *)
  destruct (spline_call _ _ (qsp_freq m) (mT c) B D nt Ef (sorted_increasing _ SS)) as [Y [E1 [S1 V1]]]; [unfold mT; rewrite Sc; reflexivity|].
  rewrite logspace_len in S1, V1. rewrite E1. cbn [bind]. eexists. split; [reflexivity|].
  assert (SO : shape (mT Y) = [B; D; nf; nt]) by (unfold mT; rewrite S1; reflexivity). split; [exact SO|]. intros b d y z Hb Hdd Hy Hz.
  destruct (V1 b d z y Hb Hdd Hz Hy) as [u [Fu Vu]]. rewrite logspace_at in Vu by assumption. exists (fun k => cat_elt Ys b d k z), u. split; [|split].
  - intros k tile Hk. pose proof (cat_elt_spec (fun i v => row_value dur (last (shape (nth i tiles dflt)) 0%nat) (fun l => elt (nth i tiles dflt) [b; d; l]) (INR z * (dur / INR nt)) v) b d z (map grp (zunique nts)) Ys) as K.
    assert (Lk : (k < List.length fs)%nat) by (rewrite <- Ltl; apply nth_error_Some; congruence).
    specialize (K ltac:(clear -FY' Hb Hdd Hz; induction FY' as [|g Y l l' [H1 H2] _ IH]; constructor; [split; [rewrite H1; reflexivity|intros r Hr; apply H2; assumption]|assumption])).
    rewrite GC in K. specialize (K k ltac:(rewrite seq_length; exact Lk)). rewrite seq_nth in K by exact Lk. cbn [plus] in K. rewrite (nth_error_nth _ _ dflt Hk) in K. exact K.
  - intros i Hi. rewrite (Fu i Hi). unfold mT. rewrite Sc. cbn [elt]. apply Vc.
  - rewrite get_inb by (rewrite SO; cbn; auto). unfold mT at 1. rewrite S1. cbn [elt]. rewrite Vu. reflexivity.
Qed.
Theorem qsp_before_compute m : qsp_interpolate m None = Err RuntimeError.
Proof. reflexivity. Qed.

(** ** construction *)
Lemma sorted_head (a : Z) l x : StronglySorted Z.lt (a :: l) -> In x (a :: l) -> (a <= x)%Z.
Proof. intros S I. inversion S as [|? ? _ HF]; subst. destruct I as [->|I]; [lia|]. rewrite Forall_forall in HF. specialize (HF x I). lia. Qed.
(** the spline method needs at least five tiles in every row and at least five frequencies *)
Theorem qsp_construction dur sr q fr mm nf nt : 0 < dur ->
  (forall e, qtr_create dur sr q fr mm "spline" = Err e -> qsp_create dur sr q fr mm nf nt = Err e) /\
  (forall b, qtr_create dur sr q fr mm "spline" = Ok b ->
    (nt = 0%nat \/ (exists t, In t (tr_tiles b) /\ ntiles t = 0%Z) -> qsp_create dur sr q fr mm nf nt = Err ZeroDivisionError) /\
    ((0 < nt)%nat -> Forall (fun t => (0 < ntiles t)%Z) (tr_tiles b) -> (exists t, In t (tr_tiles b) /\ (ntiles t < 5)%Z) \/ (List.length (tr_freqs b) < 5)%nat ->
       qsp_create dur sr q fr mm nf nt = Err ValueError) /\
    ((0 < nt)%nat -> Forall (fun t => (5 <= ntiles t)%Z) (tr_tiles b) -> (5 <= List.length (tr_freqs b))%nat ->
       exists m, qsp_create dur sr q fr mm nf nt = Ok m /\ qsp_base m = b)).
Proof.
  intros Hd. split; [intros e E; unfold qsp_create; rewrite E; reflexivity|]. intros b Eb. unfold qsp_create. rewrite Eb. cbn [bind].
  set (nts := map ntiles (tr_tiles b)). pose proof (zunique_sorted nts) as SS. pose proof (fun x => zunique_in x nts) as IN.
  assert (CR : forall n xo, (0 < n)%Z -> ((n < 5)%Z -> spline1_create (arange_r dur (dur / IZR n)) 3 0 xo = Err ValueError) /\ ((5 <= n)%Z -> exists s, spline1_create (arange_r dur (dur / IZR n)) 3 0 xo = Ok s)).
  { intros n xo Hn. assert (EN : IZR n = INR (Z.to_nat n)) by (rewrite INR_IZR_INZ, Z2Nat.id by lia; reflexivity). rewrite EN, arange_times by (try assumption; lia).
    destruct (spline1_create_spec (tile_times dur (Z.to_nat n)) 3 0 xo) as [A B]. rewrite tile_times_len in A, B. split; intros; [apply A|apply B]; lia. }
  assert (INt : forall n, In n nts <-> exists t, In t (tr_tiles b) /\ ntiles t = n) by (intros n; unfold nts; rewrite in_map_iff; split; intros [t [? ?]]; exists t; auto).
  destruct (Nat.eqb_spec nt 0) as [N0|N0].
  { split; [reflexivity|]. split; intros; lia. }
  set (xo := Some (arange_r dur (dur / INR nt))). set (mkx := fun n : Z => if (n =? 0)%Z then Err ZeroDivisionError else spline1_create (arange_r dur (dur / IZR n)) 3 0 xo).
  split; [|split].
  - intros [K|[t [It Et]]]; [contradiction|]. destruct (zunique nts) as [|a l] eqn:Ez; [destruct (proj2 (IN 0%Z)); apply INt; eauto|].
    assert (a = 0)%Z as ->.
    { assert (I0 : In 0%Z (a :: l)) by (apply IN, INt; eauto). pose proof (sorted_head a l 0%Z SS I0). assert (Ia : In a nts) by (apply IN; left; reflexivity).
      apply INt in Ia. destruct Ia as [t' [_ <-]]. unfold ntiles in *. pose proof (Z.pow_nonneg 2 (rceil (log2 (qt_dur t' * 2 * PI * qt_f t' / qt_q t' / deltam (qt_mm t')))) ltac:(lia)). lia. }
    reflexivity.
  - intros Hn Hp Hc. assert (POS : forall n, In n (zunique nts) -> (0 < n)%Z). { intros n I. apply IN, INt in I. destruct I as [t [It <-]]. rewrite Forall_forall in Hp. auto. }
    destruct (existsb (fun n => (n <? 5)%Z) (zunique nts)) eqn:Ex.
    + rewrite (sequence_one_err mkx ValueError (zunique nts)); [reflexivity| |].
      * intros n I. unfold mkx. pose proof (POS n I). replace (n =? 0)%Z with false by lia. destruct (Z_lt_le_dec n 5); [right; apply CR; assumption|left; apply CR; assumption].
      * apply existsb_exists in Ex. destruct Ex as [n [I L]]. exists n. split; [exact I|]. unfold mkx. pose proof (POS n I). replace (n =? 0)%Z with false by lia. apply CR; lia.
    + assert (G5 : forall n, In n (zunique nts) -> (5 <= n)%Z).
      { intros n I. destruct (Z_lt_le_dec n 5); [|assumption]. exfalso. assert (existsb (fun n => (n <? 5)%Z) (zunique nts) = true); [|congruence]. apply existsb_exists. exists n. split; [exact I|lia]. }
      destruct Hc as [[t [It Lt]]|L].
      { assert (In (ntiles t) (zunique nts)) by (apply IN, INt; eauto). specialize (G5 _ H). lia. }
      destruct (sequence_ok_map mkx (fun _ _ => True) (zunique nts)) as [ts [Es _]].
      { intros n I. unfold mkx. pose proof (G5 n I). replace (n =? 0)%Z with false by lia. destruct (proj2 (CR n xo ltac:(lia)) H) as [s ->]. eauto. }
      rewrite Es. cbn [bind]. rewrite (proj1 (spline1_create_spec (tr_freqs b) 3 0 _)) by lia. reflexivity.
  - intros Hn H5 Lf. destruct (sequence_ok_map mkx (fun _ _ => True) (zunique nts)) as [ts [Es _]].
    { intros n I. apply IN, INt in I. destruct I as [t [It <-]]. rewrite Forall_forall in H5. pose proof (H5 t It) as H. unfold mkx. replace (ntiles t =? 0)%Z with false by lia. destruct (proj2 (CR (ntiles t) xo ltac:(lia)) H) as [s ->]. eauto. }
    rewrite Es. cbn [bind]. destruct (proj2 (spline1_create_spec (tr_freqs b) 3 0 (Some (logspace (log10 (fst (tr_frange b))) (log10 (snd (tr_frange b))) nf))) ltac:(lia)) as [f ->].
    cbn [bind]. eexists. split; reflexivity.
Qed.

(** ** the default range *)
(** with the default lower limit no two steps share a frequency: exactly as many frequencies as steps *)
Lemma geo_mid_step lo hi n i : 0 < lo -> 0 < hi -> (0 < n)%nat -> geo_mid lo hi n (S i) = geo_mid lo hi n i * Rpower (hi / lo) (/ INR n).
Proof.
  intros Hl Hh Hn. assert (N : INR n <> 0) by (apply not_0_INR; lia). unfold geo_mid. rewrite Rmult_assoc, <- Rpower_plus. do 2 f_equal. rewrite S_INR. field. exact N.
Qed.
Lemma distinct_count (f : nat -> R) n l : NoDup l -> (forall i j, (i < j < n)%nat -> f i < f j) -> (forall x, In x l <-> exists i, (i < n)%nat /\ x = f i) -> List.length l = n.
Proof.
  intros ND M IN. assert (P : Permutation.Permutation l (map f (seq 0 n))).
  { apply Permutation.NoDup_Permutation; [exact ND| |].
    - assert (K : forall s k, (s + k <= n)%nat -> NoDup (map f (seq s k))).
      { intros s k. revert s. induction k as [|k IH]; intros s L; cbn [seq map]; constructor; [|apply IH; lia]. intros I. apply in_map_iff in I. destruct I as [j [Ej Ij]]. apply in_seq in Ij.
        pose proof (M s j ltac:(lia)). lra. }
      apply K. lia.
    - intros x. rewrite IN, in_map_iff. split; [intros [i [Hi ->]]; exists i; split; [reflexivity|apply in_seq; lia]|intros [i [<- Hi]]; apply in_seq in Hi; exists i; split; [lia|reflexivity]]. }
  rewrite (Permutation.Permutation_length P), map_length, seq_length. reflexivity.
Qed.
Lemma sorted_nodup l : StronglySorted Rlt l -> NoDup l.
Proof. induction 1 as [|a l S IH HF]; constructor; [|assumption]. intros I. rewrite Forall_forall in HF. specialize (HF a I). lra. Qed.
Theorem default_frequency_count q dur mm hi : 1 <= q -> 0 < dur -> / 20 <= mm -> 0 < hi ->
  exists fs, get_freqs q dur mm (default_lo q dur) hi = Ok fs /\ least_steps (cum_mismatch q (default_lo q dur) hi) (step_mismatch mm) (List.length fs).
Proof.
  intros Hq Hd Hm Hh. pose proof PI_RGT_0 as Pp. pose proof PI_upper as Pu. set (lo := default_lo q dur).
  assert (Hlo : 0 < lo) by (unfold lo, default_lo; apply Rdiv_lt_0_compat; [lra|apply Rmult_lt_0_compat; lra]).
  assert (L0 : lo * dur = 50 * q / (2 * PI)) by (unfold lo, default_lo; field; lra).
  destruct (qtr_frequencies q dur mm lo hi Hd ltac:(lra) Hlo Hh) as [n [fs [E [LS [SS [NE [_ IN]]]]]]]. exists fs. split; [exact E|].
  assert (LEN : List.length fs = n); [|rewrite LEN; exact LS].
  apply (distinct_count (fun i => floor_to (1 / dur) (geo_mid lo hi n i))); [apply sorted_nodup; exact SS| |].
  2:{ intros x. rewrite IN. split; intros [i [Hi Gx]]; exists i; (split; [exact Hi|]); [|subst x; apply floor_to_grid; exact Hd].
      destruct Gx as [k [-> B1]]. destruct (floor_to_grid dur (geo_mid lo hi n i) Hd) as [k' [-> B2]]. f_equal. f_equal.
      assert (Q : forall a b, IZR a / dur <= geo_mid lo hi n i < (IZR a + 1) / dur -> IZR b / dur <= geo_mid lo hi n i < (IZR b + 1) / dur -> (a < b + 1)%Z).
      { intros a b [A1 A2] [C1 C2]. apply lt_IZR. rewrite plus_IZR. apply (Rmult_lt_reg_r (/ dur)); [apply Rinv_0_lt_compat; assumption|]. unfold Rdiv in *. lra. }
      pose proof (Q k k' B1 B2). pose proof (Q k' k B2 B1). lia. }
  (* one grid step or more between neighbours *)
  assert (STEP : (1 < n)%nat -> 1 < lo * dur * ln (Rpower (hi / lo) (/ INR n))).
  { intros Hn. rewrite L0. unfold Rpower. rewrite ln_exp. destruct LS as [_ [_ LS]].
    assert (T : INR (n - 1) * step_mismatch mm < cum_mismatch q lo hi).
    { destruct (Rle_lt_dec (cum_mismatch q lo hi) (INR (n - 1) * step_mismatch mm)) as [K|K]; [|exact K]. specialize (LS (n - 1)%nat ltac:(lia) K). lia. }
    assert (S1 : / 4 < step_mismatch mm).
    { unfold step_mismatch. assert (/ 8 < sqrt (mm / 3)); [|lra]. rewrite <- (sqrt_square (/ 8)) by lra. apply sqrt_lt_1_alt. lra. }
    assert (N2 : 2 <= INR n) by (change 2 with (INR 2); apply le_INR; lia). rewrite minus_INR in T by lia. cbn [INR] in T.
    unfold cum_mismatch in T. set (L := ln (hi / lo)) in *. set (s := step_mismatch mm) in *. set (r := sqrt (2 + q ^ 2)) in *.
    assert (R0 : 0 < r) by apply sqrt2q_pos. assert (R2 : r * r = 2 + q ^ 2) by (unfold r; apply sqrt_sqrt; nra).
    assert (R1 : r <= 7 / 4 * q). { apply Rsqr_incr_0; [unfold Rsqr; nra|lra|lra]. }
    assert (T2 : INR n / 2 * s < L * r / 2) by nra.
    assert (T3 : s < / INR n * L * r). { apply (Rmult_lt_reg_l (INR n)); [lra|]. replace (INR n * (/ INR n * L * r)) with (L * r) by (field; lra). lra. }
    set (l := / INR n * L) in *. clearbody l s r. clear - T3 S1 R0 R1 Pp Pu Hq.
    assert (0 < l) by nra. assert (A : s < l * (7 / 4 * q)) by nra. assert (B : / 7 < l * q) by lra.
    apply (Rmult_lt_reg_r (2 * PI)); [lra|]. replace (50 * q / (2 * PI) * l * (2 * PI)) with (50 * (l * q)) by (field; lra). lra. }
  assert (NB : forall i, (S i < n)%nat -> geo_mid lo hi n i * dur + 1 < geo_mid lo hi n (S i) * dur).
  { intros i Hi. specialize (STEP ltac:(lia)). rewrite geo_mid_step by (assumption || lia). set (r := Rpower (hi / lo) (/ INR n)) in *.
    assert (R0 : 0 < r) by apply exp_pos. assert (R1 : 1 + ln r <= r). { pose proof (exp_ineq1_le (ln r)) as K. rewrite exp_ln in K by exact R0. exact K. }
    assert (LD : 0 < lo * dur) by (apply Rmult_lt_0_compat; assumption). assert (LR : 0 < ln r) by nra.
    assert (G : lo <= geo_mid lo hi n i).
    { unfold geo_mid. assert (H1 : 1 <= Rpower (hi / lo) ((INR i + / 2) / INR n)); [|nra]. unfold r, Rpower in LR. rewrite ln_exp in LR. unfold Rpower. rewrite <- exp_0.
      assert (N0 : 0 < INR n) by (apply lt_0_INR; lia). assert (LN : 0 < ln (hi / lo)). { apply (Rmult_lt_reg_l (/ INR n)); [apply Rinv_0_lt_compat; exact N0|lra]. }
      assert (K : 0 <= (INR i + / 2) / INR n * ln (hi / lo)). { apply Rmult_le_pos; [|lra]. apply Rlt_le, Rdiv_lt_0_compat; [|exact N0]. pose proof (pos_INR i). lra. }
      destruct K as [K|K]; [left; apply exp_increasing; exact K|right; rewrite <- K; reflexivity]. }
    clearbody r. assert (GD : lo * dur <= geo_mid lo hi n i * dur) by (apply Rmult_le_compat_r; lra). set (g := geo_mid lo hi n i * dur) in *. replace (geo_mid lo hi n i * r * dur) with (g * r) by (unfold g; ring). clearbody g. nra. }
  intros i j [Hij Hj]. cbv beta.
  assert (NB' : geo_mid lo hi n i * dur + 1 < geo_mid lo hi n j * dur).
  { clear -NB Hij Hj. induction j as [|j IH]; [lia|]. destruct (Nat.eq_dec i j) as [->|]; [apply NB; exact Hj|]. specialize (IH ltac:(lia) ltac:(lia)). pose proof (NB j Hj). lra. }
  destruct (floor_to_grid dur (geo_mid lo hi n i) Hd) as [k [-> [B1 _]]]. destruct (floor_to_grid dur (geo_mid lo hi n j) Hd) as [k' [-> [_ B2]]].
  apply (Rmult_le_compat_r dur) in B1; [|lra]. apply (Rmult_lt_compat_r dur) in B2; [|lra].
  replace (IZR k / dur * dur) with (IZR k) in B1 by (field; lra). replace ((IZR k' + 1) / dur * dur) with (IZR k' + 1) in B2 by (field; lra).
  unfold Rdiv. apply Rmult_lt_compat_r; [apply Rinv_0_lt_compat; exact Hd|]. apply IZR_lt, lt_IZR. lra.
Qed.

Lemma step_pos mm : 0 < mm -> 0 < step_mismatch mm.
Proof. intros H. unfold step_mismatch. assert (0 < sqrt (mm / 3)) by (apply sqrt_lt_R0; lra). lra. Qed.
Lemma steps_five total step n : 0 < step -> least_steps total step n -> ((5 <= n)%nat <-> 4 * step < total).
Proof.
  intros Hs [Hn [L M]]. split.
  - intros H5. destruct (Rle_lt_dec total (4 * step)) as [K|K]; [|exact K]. specialize (M 4%nat ltac:(lia)). rewrite INR_IZR_INZ in M. specialize (M K). lia.
  - intros K. destruct (Nat.le_gt_cases 5 n) as [|G]; [assumption|]. exfalso. assert (INR n <= 4) by (change 4 with (IZR (Z.of_nat 4)); rewrite <- INR_IZR_INZ; apply le_INR; lia). nra.
Qed.
(** every row of the default range has at least 64 tiles *)
Lemma default_tiles q dur sr mm fs f : 1 <= q -> 0 < dur -> 0 < sr -> 0 < mm <= / 2 -> q < max_q dur sr ->
  get_freqs q dur mm (default_lo q dur) (default_hi q sr) = Ok fs -> In f fs -> 0 < f /\ (64 <= ntiles (mkqt q f dur sr mm))%Z.
Proof.
  intros Hq Hd Hs Hm Hx E Hf. pose proof PI_gt_3. pose proof PI_4. destruct (default_usable q dur sr mm fs f Hq Hd Hs Hm Hx E Hf) as [P _].
  assert (L : default_lo q dur < default_hi q sr) by (apply (proj1 (max_q_meaning q dur sr ltac:(lra) Hd Hs)); assumption).
  assert (L0 : default_lo q dur * dur = 50 * q / (2 * PI)) by (unfold default_lo; field; lra).
  assert (Hlo : 0 < default_lo q dur) by (unfold default_lo; apply Rdiv_lt_0_compat; [lra|apply Rmult_lt_0_compat; lra]).
  destruct (qtr_frequency_range q dur mm _ _ fs f Hd (proj1 Hm) Hlo (Rlt_le _ _ L) E Hf) as [[B1 _] _].
  assert (F : 50 * q / (2 * PI) - 1 < f * dur).
  { rewrite <- L0. replace (default_lo q dur * dur - 1) with ((default_lo q dur - 1 / dur) * dur) by (field; lra). apply Rmult_lt_compat_r; assumption. }
  assert (G : 50 * q - 2 * PI < 2 * PI * (f * dur)).
  { apply (Rmult_lt_compat_l (2 * PI)) in F; [|lra]. replace (2 * PI * (50 * q / (2 * PI) - 1)) with (50 * q - 2 * PI) in F by (field; lra). assumption. }
  split; [apply P|].
  assert (W : 32 < wanted_tiles (mkqt q f dur sr mm)).
  { unfold wanted_tiles. cbn [qt_f qt_q qt_dur qt_mm].
    assert (Sm : 0 < sqrt (mm / 3) < / 2).
    { split; [apply sqrt_lt_R0; lra|]. rewrite <- (sqrt_square (/ 2)) by lra. apply sqrt_lt_1_alt. lra. }
    set (s := sqrt (mm / 3)) in *. apply (Rmult_lt_reg_r (2 * s * q)); [apply Rmult_lt_0_compat; lra|].
    replace (2 * PI * f * dur / q / (2 * s) * (2 * s * q)) with (2 * PI * (f * dur)) by (field; lra). nra. }
  destruct (qtile_count _ P) as [_ C]. destruct (C ltac:(lra)) as [e [-> [U _]]].
  assert (E6 : (6 <= e)%nat).
  { destruct (Nat.le_gt_cases 6 e) as [|K]; [assumption|]. exfalso. assert (2 ^ e <= 2 ^ 5) by (apply Rle_pow; [lra|lia]). lra. }
  change 64%Z with (Z.of_nat (2 ^ 6)). apply inj_le. apply Nat.pow_le_mono_r; lia.
Qed.
(** the spline transform with the default frequency limits: built exactly when the range holds more than four mismatch steps, and then
    every input of the right length is mapped to a (batch, channel, nf, nt) spectrogram: cubic splines in time through the tiles of each
    frequency, read at nt equispaced instants, then a cubic spline over the frequencies, read at nf log-spaced frequencies *)
Theorem qsp_default dur sr q mm X B D T nf nt norm k : 0 < dur -> 0 < sr -> 1 <= q < max_q dur sr -> / 20 <= mm <= / 2 ->
  (0 < ndim X <= 3)%nat -> shape (pad_ndim3 X) = [B; D; T] -> INR T = dur * sr -> (0 < nt)%nat -> norm_kind norm k ->
  (cum_mismatch q (default_lo q dur) (default_hi q sr) <= 4 * step_mismatch mm -> qsp_create dur sr q None mm nf nt = Err ValueError) /\
  (4 * step_mismatch mm < cum_mismatch q (default_lo q dur) (default_hi q sr) ->
   exists m out tiles, qsp_create dur sr q None mm nf nt = Ok m /\ qsp_forward m X norm = Ok (out, tiles) /\
    let fs := tr_freqs (qsp_base m) in
    get_freqs q dur mm (default_lo q dur) (default_hi q sr) = Ok fs /\ tr_tiles (qsp_base m) = map (fun f => mkqt q f dur sr mm) fs /\
    Forall2 (fun t tile => exists h N, fitting t h N /\ shape tile = [B; D; N] /\
      forall b d n, (b < B)%nat -> (d < D)%nat -> (n < N)%nat ->
        get tile [b; d; n] = Some (renorm k N (row_energy t h N T (fun s => elt (pad_ndim3 X) [b; d; s])) n)) (tr_tiles (qsp_base m)) tiles /\
    shape out = [B; D; nf; nt] /\
    forall b d y z, (b < B)%nat -> (d < D)%nat -> (y < nf)%nat -> (z < nt)%nat ->
     exists v c, (forall j tile, nth_error tiles j = Some tile -> row_value dur (last (shape tile) 0%nat) (fun l => elt tile [b; d; l]) (INR z * (dur / INR nt)) (v j)) /\
       cubic_through fs v c /\ get out [b; d; y; z] = Some (spline_at fs 3 c (log_grid (default_lo q dur) (default_hi q sr) nf y))).
Proof.
  intros Hd Hs Hq Hm Hn HS HT Hnt HK.
  assert (T0 : (0 < T)%nat). { apply INR_lt. rewrite HT. cbn. apply Rmult_lt_0_compat; assumption. }
  assert (Hhi : 0 < default_hi q sr).
  { unfold default_hi. pose proof sqrt11_pos. assert (0 < sqrt 11 / q) by (apply Rdiv_lt_0_compat; lra). apply Rdiv_lt_0_compat; lra. }
  destruct (qtr_construction dur sr q None mm "spline" Hd Hs ltac:(lra) ltac:(lra)) as [_ [_ [_ C]]].
  destruct (C (proj2 Hq) Spline eq_refl Hhi) as [fs [Ef [NE Ec]]]. cbn [resolved_lo resolved_hi] in *.
  destruct (default_frequency_count q dur mm (default_hi q sr) (proj1 Hq) Hd (proj1 Hm) Hhi) as [fs' [Ef' LS]]. rewrite Ef in Ef'. injection Ef' as <-.
  pose proof (steps_five _ _ _ (step_pos mm ltac:(lra)) LS) as FIVE.
  set (b := mkqtr q (default_lo q dur, default_hi q sr) fs (map (fun f => mkqt q f dur sr mm) fs) Spline) in *.
  destruct (qsp_construction dur sr q None mm nf nt Hd) as [_ CC]. destruct (CC b Ec) as [_ [C1 C2]]. clear CC.
  assert (TL : Forall (fun t => (64 <= ntiles t)%Z) (tr_tiles b)).
  { apply Forall_forall. intros t Ht. cbn [tr_tiles b] in Ht. apply in_map_iff in Ht. destruct Ht as [f [<- Hf]]. apply (default_tiles q dur sr mm fs f); try assumption; lra. }
  split.
  - intros K. apply C1; [exact Hnt| |right].
    + eapply Forall_impl; [|exact TL]. intros t Ht. cbv beta in *. lia.
    + cbn [tr_freqs b]. destruct (Nat.le_gt_cases 5 (List.length fs)) as [G|G]; [|exact G]. apply FIVE in G. lra.
  - intros K. destruct C2 as [m [Em Eb]]; [exact Hnt| |cbn [tr_freqs b]; apply FIVE; exact K|].
    { eapply Forall_impl; [|exact TL]. intros t Ht. cbv beta in *. lia. }
    assert (U : Forall usable (tr_tiles b)).
    { apply Forall_forall. intros t Ht. cbn in Ht. apply in_map_iff in Ht. destruct Ht as [f [<- Hf]]. apply (default_usable q dur sr mm fs f); try assumption; lra. }
    assert (RT : Forall (fun t => rtrunc (qt_dur t * qt_sr t) <= Z.of_nat T)%Z (tr_tiles b)).
    { apply Forall_forall. intros t Ht. cbn in Ht. apply in_map_iff in Ht. destruct Ht as [f [<- Hf]]. cbn [qt_dur qt_sr]. rewrite (rtrunc_nonneg _ T) by lra. lia. }
    destruct (qtiles_spec b X B D T norm k U Hn HS T0 RT HK) as [tiles [Et F2]].
    destruct (qsp_interpolate_spec dur sr q None mm nf nt m tiles B D Hd Hs ltac:(lra) ltac:(lra) Em) as [out [Eo [So Vo]]]; rewrite ?Eb.
    { cbn [tr_freqs b]. apply Forall_forall. intros f Hf. apply (default_tiles q dur sr mm fs f); try assumption; lra. }
    { clear -F2. induction F2 as [|t tile l l' [h [N [Fi [S1 _]]]] _ IH]; constructor; [|exact IH]. destruct Fi as [_ [_ [-> _]]]. rewrite Nat2Z.id. exact S1. }
    rewrite Eb in Vo. exists m, out, tiles. split; [exact Em|]. rewrite Eb. cbv zeta. split; [unfold qsp_forward; rewrite Eb, Et; cbn [bind]; rewrite Eo; reflexivity|].
    split; [exact Ef|]. split; [reflexivity|]. split; [exact F2|]. split; [exact So|exact Vo].
Qed.
(** 1 s at 2048 Hz, q = 12, mismatch 1/5: the second alternative; the shape keeps the axes of size 1 *)
Example qsp_default_ex : 1 <= 12 < max_q 1 2048 /\ / 20 <= / 5 <= / 2 /\ 4 * step_mismatch (/ 5) < cum_mismatch 12 (default_lo 12 1) (default_hi 12 2048).
Proof.
  pose proof PI_gt_3. pose proof PI_4. assert (S11 : sqrt 11 < 4) by (apply Rsqr_incrst_0; [unfold Rsqr; rewrite sqrt_sqrt; lra|apply sqrt_pos|lra]).
  assert (Z11 : 0 < sqrt 11) by (apply sqrt_lt_R0; lra).
  split; [split; [lra|unfold max_q; lra]|]. split; [lra|].
  assert (S1 : step_mismatch (/ 5) < 1).
  { unfold step_mismatch. assert (sqrt (/ 5 / 3) < / 2); [|lra]. rewrite <- (sqrt_square (/ 2)) by lra. apply sqrt_lt_1_alt. lra. }
  assert (Q : 12 <= sqrt (2 + 12 ^ 2)). { rewrite <- (sqrt_square 12) at 1 by lra. apply sqrt_le_1_alt. lra. }
  assert (L : 1 <= ln (default_hi 12 2048 / default_lo 12 1)).
  { set (w := default_hi 12 2048 / default_lo 12 1). rewrite <- (ln_exp 1). pose proof exp_le_3 as E3. unfold w. assert (R : 3 <= default_hi 12 2048 / default_lo 12 1).
    { unfold default_hi, default_lo. replace (2048 / 2 / (1 + sqrt 11 / 12) / (50 * 12 / (2 * PI * 1))) with (2048 * PI / (600 * (1 + sqrt 11 / 12))) by (field; lra).
      apply (Rmult_le_reg_r (600 * (1 + sqrt 11 / 12))); [lra|]. replace (2048 * PI / (600 * (1 + sqrt 11 / 12)) * (600 * (1 + sqrt 11 / 12))) with (2048 * PI) by (field; lra). lra. }
    destruct (Rle_lt_or_eq_dec _ _ (Rle_trans _ _ _ E3 R)) as [H1|H1]; [left; apply ln_increasing; [apply exp_pos|exact H1]|right; rewrite <- H1; reflexivity]. }
  unfold cum_mismatch. set (a := ln _) in *. set (r := sqrt (2 + 12 ^ 2)) in *. nra.
Qed.

(** ** QScan with the spline method: the first plane with the largest maximal energy is interpolated *)
Theorem qscan_sp_selects ms X fsearch norm B D all : ms <> [] -> (0 < B)%nat -> (0 < D)%nat ->
  Forall2 (fun m tiles => compute_qtiles (qsp_base m) X norm = Ok tiles /\ Forall (tile_shape B D) tiles /\
                          exists sel, search_slice (tr_freqs (qsp_base m)) fsearch tiles = Ok sel /\ sel <> []) ms all ->
  exists i m tiles v, nth_error ms i = Some m /\ nth_error all i = Some tiles /\ plane_max (qsp_base m) tiles fsearch v /\
    (forall j m' tiles' u, nth_error ms j = Some m' -> nth_error all j = Some tiles' -> plane_max (qsp_base m') tiles' fsearch u -> u <= v /\ ((j < i)%nat -> u < v)) /\
    qscan_sp_forward ms X fsearch norm = qsp_interpolate m (Some tiles).
Proof.
  intros NE HB HD F. unfold qscan_sp_forward.
  assert (E1 : sequence (map (fun m => compute_qtiles (qsp_base m) X norm) ms) = Ok all).
  { clear NE. induction F as [|m t l l' [H _] _ IH]; cbn; [reflexivity|]. rewrite H. cbn [bind]. rewrite IH. reflexivity. }
  rewrite E1. cbn [bind]. clear E1.
  destruct (sequence_ok_map (fun p => get_max_energy (tr_freqs (qsp_base (fst p))) (Some (snd p)) fsearch "both")
     (fun p e => plane_max (qsp_base (fst p)) (snd p) fsearch (elt e [])) (combine ms all)) as [es [Ees F2]].
  { intros [m tiles] I. apply In_nth_error in I. destruct I as [i I]. apply combine_nth_error_inv in I. destruct I as [Im It].
    destruct (Forall2_nth _ _ _ _ _ F Im) as [t' [It' [_ [FS [sel [Esel NEs]]]]]]. rewrite It in It'. injection It' as <-.
    destruct (max_energy (tr_freqs (qsp_base m)) tiles fsearch sel B D Esel NEs HB HD FS) as [[r [Er [_ M]]] _]. exists r. split; [exact Er|]. exists sel. auto. }
  rewrite Ees. cbn [bind]. assert (Len : List.length ms = List.length all) by (eapply Forall2_len; exact F).
  assert (Les : List.length (combine ms all) = List.length es) by (eapply Forall2_len; exact F2). rewrite combine_length in Les.
  destruct (argmax_spec (map (fun e : tensor R => elt e []) es)) as [i [v [Ei [Vi Hi]]]].
  { intros K. apply map_eq_nil in K. subst es. rewrite <- Len, Nat.min_id in Les. destruct ms; [congruence|cbn in Les; lia]. }
  rewrite Ei. cbn [bind].
  assert (Li : (i < List.length es)%nat) by (rewrite <- (map_length (fun e : tensor R => elt e []) es); apply nth_error_Some; congruence).
  destruct (nth_error ms i) as [m|] eqn:Em; [|apply nth_error_None in Em; lia].
  destruct (nth_error all i) as [tiles|] eqn:Et; [|apply nth_error_None in Et; lia].
  pose proof (combine_nth_error _ _ _ _ _ Em Et) as Ec. rewrite Ec.
  assert (PM : forall j m' tiles', nth_error ms j = Some m' -> nth_error all j = Some tiles' -> exists e, nth_error (map (fun e : tensor R => elt e []) es) j = Some e /\ plane_max (qsp_base m') tiles' fsearch e).
  { intros j m' tiles' Hm' Ht'. destruct (Forall2_nth _ _ _ _ _ F2 (combine_nth_error _ _ _ _ _ Hm' Ht')) as [e [He P]]. exists (elt e []). split; [|exact P].
    apply (map_nth_error (fun e : tensor R => elt e [])). exact He. }
  assert (PU : forall m' tiles' u u', plane_max m' tiles' fsearch u -> plane_max m' tiles' fsearch u' -> u = u').
  { intros m' tiles' u u' [s1 [E1 M1]] [s2 [E2 M2]]. rewrite E1 in E2. injection E2 as <-. eapply is_max_unique; eassumption. }
  exists i, m, tiles, v. split; [assumption|]. split; [assumption|]. split.
  { destruct (PM i m tiles Em Et) as [e [He P]]. rewrite Vi in He. injection He as <-. exact P. }
  split; [|reflexivity]. intros j m' tiles' u Hm' Ht' P. destruct (PM j m' tiles' Hm' Ht') as [e [He P']]. rewrite (PU _ _ _ _ P P'). apply Hi. exact He.
Qed.
(** the Q range is that given, by default [4, 64] *)
Theorem qscan_sp_construction dur sr qr q0 q1 fr mm nf nt ms : 0 < q0 -> 0 < q1 -> (qr = Some (q0, q1) \/ qr = None /\ q0 = 4 /\ q1 = 64) -> qscan_sp_create dur sr qr fr mm nf nt = Ok ms ->
  exists qs, get_qs q0 q1 mm = Ok qs /\ Forall2 (fun q m => qsp_create dur sr q fr mm nf nt = Ok m) (filter (fun q => if Rlt_dec q (max_q dur sr) then true else false) qs) ms.
Proof.
  intros H0 H1 HQ E. assert (E' : qscan_sp_create dur sr (Some (q0, q1)) fr mm nf nt = Ok ms) by (destruct HQ as [-> |[-> [-> ->]]]; exact E).
  clear HQ. rename E into E0. rename E' into E. unfold qscan_sp_create in E. cbn [fst snd] in E. destruct (get_qs q0 q1 mm) as [qs|]; [|discriminate]. cbn [bind] in E.
  exists qs. split; [reflexivity|]. apply sequence_map_inv. exact E.
Qed.

(** ** what the splines do to a row *)
Lemma cubic_is_fit x z c : (5 <= List.length x)%nat -> increasing x -> cubic_through x z c ->
  exists u, fit1 x 3 0 z = Some u /\ forall xi, spline_at x 3 c xi = spline_at x 3 u xi.
Proof.
  intros Hn HI Hc. destruct (fit_exists x 3 z ltac:(lia) ltac:(lia) HI) as [u [E [_ U]]]. exists u. split; [exact E|]. intros xi. unfold spline_at. apply Rsum_ext. intros j Hj. f_equal. apply U; assumption.
Qed.
(** with five tiles or more the row value is determined; at the instant of a tile it is the tile; after the last tile it is held; a constant
    row stays constant *)
Theorem row_value_spec dur N e : 0 < dur -> (5 <= N)%nat ->
  (forall tau, exists v, row_value dur N e tau v /\ forall v', row_value dur N e tau v' -> v' = v) /\
  (forall l, (l < N)%nat -> row_value dur N e (INR l * (dur / INR N)) (e l)) /\
  (forall tau, INR (N - 1) * (dur / INR N) <= tau -> row_value dur N e tau (e (N - 1)%nat)) /\
  (forall a tau, (forall l, (l < N)%nat -> e l = a) -> row_value dur N e tau a).
Proof.
  intros Hd HN. pose proof (tile_times_increasing dur N Hd) as HI. pose proof (tile_times_len dur N) as HL.
  destruct (fit_exists (tile_times dur N) 3 e ltac:(lia) ltac:(lia) HI) as [c [E [HC U]]].
  split; [|split; [|split]].
  - intros tau. exists (spline_at (tile_times dur N) 3 c tau). split; [exists c; auto|]. intros v' [c' [Hc' ->]]. unfold spline_at. apply Rsum_ext. intros j Hj. f_equal. apply U; assumption.
  - intros l Hl. exists c. split; [exact HC|]. rewrite <- (tile_times_at dur N l Hl). symmetry. apply HC. lia.
  - intros tau Ht. exists c. split; [exact HC|]. destruct (fit_outside (tile_times dur N) 3 e c ltac:(lia) ltac:(lia) HI E) as [_ K]. rewrite HL in K. symmetry. apply K. rewrite tile_times_at by lia. exact Ht.
  - intros a tau He. exists c. split; [exact HC|]. rewrite (fit_line (tile_times dur N) 3 e c a 0 ltac:(lia) ltac:(lia) HI E); [ring|]. intros i Hi. rewrite He by lia. ring.
Qed.
