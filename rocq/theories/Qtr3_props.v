(** Property C47, third part: interpolation of the tiles to the spectrogram. *)
From Coq Require Import String Sorted.
From Verif Require Import Base Tensor Rutil Slicing_model Autoenc_model Norm_model Norm_props Dft Gw_model Gw_props Snr_props Spectral_model Spectral_props Trans_model Decim_props Whiten_props Qt_model Qt_props Qt2_props Qtr_props Qtr2_props.
From Coquelicot Require Import Complex.
Local Open Scope R_scope.

(** ** the two interpolation kernels *)
(** same size: nothing changes *)
Lemma Int_part_INR j : Int_part (INR j) = Z.of_nat j.
Proof. apply Int_part_unique. rewrite INR_IZR_INZ. lra. Qed.
Theorem interp_same m n f j : (j < n)%nat -> interp1 m n n f j = f j.
Proof.
  intros Hj. assert (Hn : 0 < INR n) by (apply INR_pos; lia).
  assert (E : (INR j + / 2) * (INR n / INR n) - / 2 = INR j) by (field; lra).
  assert (C : interp_cub n n f j = f j).
  { unfold interp_cub. rewrite E, Int_part_INR. replace (INR j - IZR (Z.of_nat j)) with 0 by (rewrite INR_IZR_INZ; lra).
    replace (Z.to_nat (Z.max 0 (Z.min (Z.of_nat j + 0) (Z.of_nat n - 1)))) with j by lia.
    unfold cub1, cub2. field. }
  destruct m; cbn [interp1]; try exact C.
  unfold interp_lin, interp_pos. rewrite E. pose proof (pos_INR j). rewrite Rmax_left by assumption. rewrite Int_part_INR, Nat2Z.id.
  replace (Nat.min j (n - 1)) with j by lia. ring.
Qed.
(** constants are kept *)
Theorem interp_const m n size c j : (0 < n)%nat -> (j < size)%nat -> interp1 m n size (fun _ => c) j = c.
Proof.
  intros Hn Hj. assert (C : interp_cub n size (fun _ => c) j = c).
  { unfold interp_cub. set (p := (INR j + / 2) * (INR n / INR size) - / 2). set (t := p - IZR (Int_part p)). unfold cub1, cub2. field. }
  destruct m; cbn [interp1]; try exact C.
  destruct (interp_lin_convex n size (fun _ => c) j Hn Hj) as [i0 [i1 [l [_ [_ [_ ->]]]]]]. ring.
Qed.
(** the bilinear kernel stays within the range of its input; the (default) bicubic one does not: it can turn non-negative
    energies negative *)
Theorem bilinear_range n size f j lo hi : (0 < n)%nat -> (j < size)%nat -> (forall i, (i < n)%nat -> lo <= f i <= hi) ->
  lo <= interp1 Bilinear n size f j <= hi.
Proof.
  intros Hn Hj Hf. cbn [interp1]. destruct (interp_lin_convex n size f j Hn Hj) as [i0 [i1 [l [H0 [H1 [Hl ->]]]]]].
  pose proof (Hf i0 H0). pose proof (Hf i1 H1). nra.
Qed.
Theorem bicubic_range_refuted : exists (f : nat -> R), (forall i, 0 <= f i) /\ interp1 Bicubic 4 8 f 3 < 0.
Proof.
  exists (fun i => if (i =? 0)%nat then 1 else 0). split; [intros i; destruct (i =? 0)%nat; lra|].
  cbn [interp1]. unfold interp_cub. rewrite !INR_IZR_INZ. change (IZR (Z.of_nat 3)) with 3. change (IZR (Z.of_nat 4)) with 4. change (IZR (Z.of_nat 8)) with 8.
  replace ((3 + / 2) * (4 / 8) - / 2) with (5 / 4) by lra. rewrite (Int_part_unique 1 (5 / 4)) by lra.
  change (Z.to_nat (Z.max 0 (Z.min (1 + -1) (Z.of_nat 4 - 1)))) with 0%nat. change (Z.to_nat (Z.max 0 (Z.min (1 + 0) (Z.of_nat 4 - 1)))) with 1%nat.
  change (Z.to_nat (Z.max 0 (Z.min (1 + 1) (Z.of_nat 4 - 1)))) with 2%nat. change (Z.to_nat (Z.max 0 (Z.min (1 + 2) (Z.of_nat 4 - 1)))) with 3%nat.
  cbn [Nat.eqb]. unfold cub1, cub2. lra.
Qed.
Lemma interp1_ext m n size f g j : (0 < n)%nat -> (forall i, (i < n)%nat -> f i = g i) -> interp1 m n size f j = interp1 m n size g j.
Proof.
  intros Hn H. assert (C : interp_cub n size f j = interp_cub n size g j) by (unfold interp_cub; rewrite !H by lia; reflexivity).
  destruct m; cbn [interp1]; try exact C. unfold interp_lin. rewrite !H by lia. reflexivity.
Qed.

Lemma Forall2_len {A B} (P : A -> B -> Prop) l r : Forall2 P l r -> List.length l = List.length r.
Proof. induction 1; cbn; congruence. Qed.
(** ** squeeze *)
(** the coordinates of an index along the axes that are not of size 1 *)
Fixpoint keep_coords (s i : list nat) : list nat :=
  match s, i with d :: s', x :: i' => if (d =? 1)%nat then keep_coords s' i' else x :: keep_coords s' i' | _, _ => [] end.
Lemma squeeze_idx s i : inb i s -> unsqueeze_idx s (keep_coords s i) = i /\ inb (keep_coords s i) (filter (fun d => negb (d =? 1)%nat) s).
Proof.
  revert i; induction s as [|d s IH]; intros [|x i]; intros HI; [cbn; auto|destruct HI|destruct HI|]. destruct HI as [Hx Hi].
  cbn [unsqueeze_idx keep_coords filter]. destruct (IH i Hi) as [E1 E2]. destruct (Nat.eqb_spec d 1) as [->|]; cbn [negb].
  - rewrite E1. split; [f_equal; lia|assumption].
  - rewrite E1. split; [reflexivity|]. cbn [inb]. auto.
Qed.
Lemma get_squeeze {A} (t : tensor A) i : inb i (shape t) -> get (squeeze t) (keep_coords (shape t) i) = get t i.
Proof.
  intros H. destruct (squeeze_idx (shape t) i H) as [E1 E2]. rewrite (get_inb t) by assumption. rewrite get_inb by (cbn [squeeze shape]; assumption).
  cbn [squeeze elt]. rewrite E1. reflexivity.
Qed.

(** ** the spectrogram *)
(** entry (y, z) for one batch element and channel: every row is resampled to nt instants, then every column to nf
    frequencies *)
Definition resampled (m : imethod) (nf nt F : nat) (len : nat -> nat) (row : nat -> nat -> R) (y z : nat) : R :=
  interp1 m F nf (fun k => interp1 m (len k) nt (row k) z) y.
Lemma interpolate_row m q nt B D N : shape q = [B; D; N] -> (0 < B)%nat -> (0 < D)%nat -> (0 < N)%nat -> (0 < nt)%nat ->
  exists r, interpolate2 m (nth 1 (shape q) 0%nat) nt (unsqueeze0 q) = Ok r /\ shape r = [1; B; D; nt]%nat /\
   forall b d z, (b < B)%nat -> (d < D)%nat -> (z < nt)%nat -> elt r [0; b; d; z]%nat = interp1 m N nt (fun l => elt q [b; d; l]) z.
Proof.
  intros S HB HD HN Ht. unfold interpolate2. rewrite S. cbn [nth unsqueeze0 shape]. rewrite S. cbn [Nat.eqb orb].
  replace (B =? 0)%nat with false by lia. replace (D =? 0)%nat with false by lia. replace (N =? 0)%nat with false by lia. replace (nt =? 0)%nat with false by lia.
  cbn [orb]. eexists. split; [reflexivity|]. split; [reflexivity|]. intros b d z Hb Hd Hz. cbn [elt unsqueeze0]. rewrite interp_same by assumption. reflexivity.
Qed.
Theorem spectrogram_spec m nf nt tiles B D : tiles <> [] -> (0 < B)%nat -> (0 < D)%nat -> (0 < nf)%nat -> (0 < nt)%nat ->
  (forall k q, nth_error tiles k = Some q -> exists N, shape q = [B; D; N] /\ (0 < N)%nat) ->
  exists out, interpolate_tiles m nf nt (Some tiles) = Ok out /\ shape out = filter (fun d => negb (d =? 1)%nat) [B; D; nf; nt] /\
   forall b d y z, (b < B)%nat -> (d < D)%nat -> (y < nf)%nat -> (z < nt)%nat ->
     get out (keep_coords [B; D; nf; nt] [b; d; y; z])
     = Some (resampled m nf nt (List.length tiles) (fun k => last (shape (nth k tiles (mk [] (fun _ => 0)))) 0%nat)
               (fun k l => elt (nth k tiles (mk [] (fun _ => 0))) [b; d; l]) y z).
Proof.
  intros NE HB HD Hf Ht HT. unfold interpolate_tiles. set (dflt := mk [] (fun _ : list nat => 0)).
  destruct (sequence_ok_map (fun q => interpolate2 m (nth 1 (shape q) 0%nat) nt (unsqueeze0 q))
     (fun q r => shape r = [1; B; D; nt]%nat /\ forall b d z, (b < B)%nat -> (d < D)%nat -> (z < nt)%nat ->
        elt r [0; b; d; z]%nat = interp1 m (last (shape q) 0%nat) nt (fun l => elt q [b; d; l]) z) tiles) as [rs [Es F2]].
  { intros q Hq. apply In_nth_error in Hq. destruct Hq as [k Hk]. destruct (HT k q Hk) as [N [Sq HN]].
    destruct (interpolate_row m q nt B D N Sq HB HD HN Ht) as [r [R1 [R2 R3]]]. exists r. split; [assumption|]. split; [assumption|].
    rewrite Sq. cbn [last]. assumption. }
  rewrite Es. cbn [bind].
  assert (L : List.length rs = List.length tiles) by (symmetry; eapply Forall2_len; eassumption).
  assert (NTH : forall k, (k < List.length tiles)%nat -> shape (nth k rs dflt) = [1; B; D; nt]%nat /\
     forall b d z, (b < B)%nat -> (d < D)%nat -> (z < nt)%nat -> elt (nth k rs dflt) [0; b; d; z]%nat = interp1 m (last (shape (nth k tiles dflt)) 0%nat) nt (fun l => elt (nth k tiles dflt) [b; d; l]) z).
  { clear -F2. induction F2 as [|q r qs rs' [Sr Er] F2 IH]; cbn; intros k Hk; [lia|]. destruct k; [split; assumption|]. apply IH. lia. }
  destruct rs as [|r0 rs']; [cbn in L; destruct tiles; [congruence|cbn in L; lia]|].
  assert (S0 : shape r0 = [1; B; D; nt]%nat) by (apply (NTH 0%nat); cbn in L; lia).
  unfold stack_m2. set (rs := r0 :: rs') in *.
  assert (ALL : forallb (fun t => if list_eq_dec Nat.eq_dec (shape t) (shape r0) then true else false) rs = true).
  { apply forallb_forall. intros r Hr. apply (In_nth _ _ dflt) in Hr. destruct Hr as [k [Hk <-]]. rewrite L in Hk. destruct (NTH k Hk) as [-> _].
    rewrite S0. destruct (list_eq_dec _ _ _); [reflexivity|congruence]. }
  rewrite ALL. cbn [bind]. rewrite S0. cbn [removelast last app]. unfold interpolate2, select0. cbn [shape tl].
  replace (B =? 0)%nat with false by lia. replace (D =? 0)%nat with false by lia. replace (nt =? 0)%nat with false by lia. replace (nf =? 0)%nat with false by lia.
  assert (LP : (0 < List.length rs)%nat) by (cbn; lia). replace (List.length rs =? 0)%nat with false by lia.
  cbn [orb bind]. eexists. split; [reflexivity|]. split; [reflexivity|]. intros b d y z Hb Hd Hy Hz.
  set (o := mk [B; D; nf; nt] _). change [B; D; nf; nt] with (shape o). rewrite get_squeeze by (cbn; auto).
  rewrite get_inb by (cbn; auto). f_equal. unfold o. cbn [elt]. unfold resampled. rewrite <- L. apply interp1_ext; [assumption|]. intros k Hk.
  rewrite (interp1_ext m nt nt _ (fun l => interp1 m (last (shape (nth k tiles dflt)) 0%nat) nt (fun l => elt (nth k tiles dflt) [b; d; l]) l)).
  - rewrite interp_same by assumption. reflexivity.
  - assumption.
  - intros l Hl. cbn [elt last removelast app]. rewrite (nth_indep rs r0 dflt) by assumption. apply NTH; try assumption. lia.
Qed.
(** hence the output always has the axes of [batch, channel, nf, nt] that are not of size 1; the documented "one more
    dimension than the input" fails, e.g., for a batch of one, or for one channel *)
Theorem one_more_dimension_refuted m nf nt tiles B D : tiles <> [] -> (0 < B)%nat -> (0 < D)%nat -> (1 < nf)%nat -> (1 < nt)%nat ->
  (forall k q, nth_error tiles k = Some q -> exists N, shape q = [B; D; N] /\ (0 < N)%nat) ->
  exists out, interpolate_tiles m nf nt (Some tiles) = Ok out /\
    ndim out = ((if (B =? 1)%nat then 0 else 1) + (if (D =? 1)%nat then 0 else 1) + 2)%nat.
Proof.
  intros NE HB HD Hf Ht HT. destruct (spectrogram_spec m nf nt tiles B D NE HB HD ltac:(lia) ltac:(lia) HT) as [out [E [S _]]].
  exists out. split; [assumption|]. unfold ndim. rewrite S. cbn [filter].
  replace (nf =? 1)%nat with false by lia. replace (nt =? 1)%nat with false by lia.
  destruct (B =? 1)%nat, (D =? 1)%nat; reflexivity.
Qed.
(** before any compute_qtiles: RuntimeError *)
Theorem interpolate_before_compute m nf nt : interpolate_tiles m nf nt None = Err RuntimeError.
Proof. reflexivity. Qed.

(** ** the whole transform in its default range *)
Theorem qtransform_default dur sr q mm method im X B D T nf nt norm k : 0 < dur -> 0 < sr -> 1 <= q < max_q dur sr -> 0 < mm <= / 2 ->
  known_method method = Some im -> im <> Spline -> (0 < ndim X <= 3)%nat -> shape (pad_ndim3 X) = [B; D; T] -> INR T = dur * sr ->
  (0 < B)%nat -> (0 < D)%nat -> (0 < nf)%nat -> (0 < nt)%nat -> norm_kind norm k ->
  exists m out tiles, qtr_create dur sr q None mm method = Ok m /\ qtr_forward m nf nt X norm = Ok (out, tiles) /\
    StronglySorted Rlt (tr_freqs m) /\ map qt_f (tr_tiles m) = tr_freqs m /\
    Forall2 (fun t tile => exists h N, fitting t h N /\ shape tile = [B; D; N] /\
      forall b d n, (b < B)%nat -> (d < D)%nat -> (n < N)%nat ->
        get tile [b; d; n] = Some (renorm k N (row_energy t h N T (fun s => elt (pad_ndim3 X) [b; d; s])) n)) (tr_tiles m) tiles /\
    shape out = filter (fun d => negb (d =? 1)%nat) [B; D; nf; nt] /\
    forall b d y z, (b < B)%nat -> (d < D)%nat -> (y < nf)%nat -> (z < nt)%nat ->
     get out (keep_coords [B; D; nf; nt] [b; d; y; z])
     = Some (resampled im nf nt (List.length tiles) (fun k => last (shape (nth k tiles (mk [] (fun _ => 0)))) 0%nat)
               (fun k l => elt (nth k tiles (mk [] (fun _ => 0))) [b; d; l]) y z).
Proof.
  intros Hd Hs Hq Hm Km Ns Hn HS HT HB HD Hnf Hnt HK.
  assert (T0 : (0 < T)%nat). { apply INR_lt. rewrite HT. cbn. apply Rmult_lt_0_compat; assumption. }
  assert (Hhi : 0 < default_hi q sr).
  { unfold default_hi. pose proof sqrt11_pos. assert (0 < sqrt 11 / q) by (apply Rdiv_lt_0_compat; lra). apply Rdiv_lt_0_compat; lra. }
  assert (Hlo : 0 < default_lo q dur).
  { unfold default_lo. pose proof PI_RGT_0. apply Rdiv_lt_0_compat; [lra|apply Rmult_lt_0_compat; lra]. }
  destruct (qtr_construction dur sr q None mm method Hd Hs ltac:(lra) (proj1 Hm)) as [_ [_ [_ C]]].
  destruct (C (proj2 Hq) im Km Hhi) as [fs [Ef [NE Ec]]]. cbn [resolved_lo resolved_hi] in *.
  set (m := mkqtr q (default_lo q dur, default_hi q sr) fs (map (fun f => mkqt q f dur sr mm) fs) im) in *.
  assert (U : Forall usable (tr_tiles m)).
  { apply Forall_forall. intros t Ht. cbn in Ht. apply in_map_iff in Ht. destruct Ht as [f [<- Hf]].
    apply (default_usable q dur sr mm fs f); try assumption; apply Hq. }
  assert (RT : Forall (fun t => rtrunc (qt_dur t * qt_sr t) <= Z.of_nat T)%Z (tr_tiles m)).
  { apply Forall_forall. intros t Ht. cbn in Ht. apply in_map_iff in Ht. destruct Ht as [f [<- Hf]]. cbn [qt_dur qt_sr].
    rewrite (rtrunc_nonneg _ T) by lra. lia. }
  destruct (qtiles_spec m X B D T norm k U Hn HS T0 RT HK) as [tiles [Et F2]].
  assert (LT : List.length tiles = List.length fs) by (apply Forall2_len in F2; rewrite <- F2; cbn; apply map_length).
  destruct (spectrogram_spec im nf nt tiles B D) as [out [Eo [So Go]]]; try assumption.
  { intros E. rewrite E in LT. cbn in LT. destruct fs; [congruence|cbn in LT; lia]. }
  { clear -F2. intros j tile Hj. revert j Hj. induction F2 as [|t tl ts tls [h [N [Fi [St _]]]] F2 IH]; intros [|j] Hj; cbn in Hj; try discriminate.
    - injection Hj as <-. exists N. split; [assumption|]. destruct Fi as [_ [_ [_ L]]]. lia.
    - apply (IH j). assumption. }
  exists m, out, tiles. split; [assumption|]. split.
  { unfold qtr_forward. rewrite Et. cbn [bind tr_method m]. rewrite Eo. reflexivity. }
  split. { destruct (qtr_frequencies q dur mm _ _ Hd (proj1 Hm) Hlo Hhi) as [n' [fs' [E' [_ [S' _]]]]]. rewrite Ef in E'. injection E' as <-. exact S'. }
  split. { cbn. rewrite map_map. cbn. apply map_id. }
  auto.
Qed.

(** ** the grouping of the spline method *)
Lemma zinsert_in x y l : In y (zinsert x l) <-> y = x \/ In y l.
Proof.
  induction l as [|a l IH]; cbn; [intuition|]. destruct (Z.eqb_spec x a) as [->|]; cbn; [intuition|].
  destruct (Z.ltb_spec x a); cbn; [intuition|]. rewrite IH. intuition.
Qed.
Lemma zunique_in y l : In y (zunique l) <-> In y l.
Proof. induction l as [|a l IH]; cbn; [tauto|]. rewrite zinsert_in. fold (zunique l). rewrite IH. intuition. Qed.
Lemma zunique_sorted l : StronglySorted Z.lt (zunique l).
Proof.
  induction l as [|x l IH]; cbn; [constructor|]. fold (zunique l). induction IH as [|a m SS IH HF]; cbn; [repeat constructor|].
  destruct (Z.eqb_spec x a); [constructor; assumption|]. destruct (Z.ltb_spec x a).
  - constructor; [constructor; assumption|]. constructor; [assumption|]. eapply Forall_impl; [|exact HF]. intros; lia.
  - constructor; [assumption|]. apply Forall_forall. intros y Hy. apply zinsert_in in Hy. rewrite Forall_forall in HF.
    destruct Hy as [->|Hy]; [lia|apply HF; assumption].
Qed.
Lemma sorted_filter (P : nat -> bool) l : StronglySorted lt l -> StronglySorted lt (filter P l).
Proof.
  induction 1 as [|a l SS IH HF]; cbn; [constructor|]. destruct (P a); [|assumption]. constructor; [assumption|].
  apply Forall_forall. intros y Hy. apply filter_In in Hy. rewrite Forall_forall in HF. apply HF. apply Hy.
Qed.
Lemma sorted_seq s n : StronglySorted lt (seq s n).
Proof. revert s; induction n as [|n IH]; intros s; cbn; constructor; [apply IH|]. apply Forall_forall. intros y Hy. apply in_seq in Hy. lia. Qed.
Lemma sorted_app (l l' : list nat) : StronglySorted lt l -> StronglySorted lt l' -> (forall a b, In a l -> In b l' -> (a < b)%nat) -> StronglySorted lt (l ++ l').
Proof.
  induction 1 as [|a l SS IH HF]; cbn; [auto|]. intros S' H. constructor; [apply IH; [assumption|intros; apply H; [right|]; assumption]|].
  apply Forall_app. split; [assumption|]. apply Forall_forall. intros b Hb. apply H; [left; reflexivity|assumption].
Qed.
Lemma sorted_same (l l' : list nat) : StronglySorted lt l -> StronglySorted lt l' -> (forall a, In a l <-> In a l') -> l = l'.
Proof.
  intros S; revert l'; induction S as [|a l SS IH HF]; intros l' S' H.
  - destruct l' as [|b l']; [reflexivity|]. exfalso. apply (H b). left; reflexivity.
  - destruct S' as [|b l' SS' HF']; [exfalso; apply (H a); left; reflexivity|]. rewrite Forall_forall in HF, HF'.
    assert (a = b).
    { destruct (proj1 (H a) (or_introl eq_refl)) as [E|I]; [auto|]. destruct (proj2 (H b) (or_introl eq_refl)) as [E|I']; [auto|].
      pose proof (HF b I'). pose proof (HF' a I). lia. }
    subst b. f_equal. apply IH; [assumption|]. intros c. split; intros Hc.
    + destruct (proj1 (H c) (or_intror Hc)) as [E|I]; [pose proof (HF c Hc); lia|assumption].
    + destruct (proj2 (H c) (or_intror Hc)) as [E|I]; [pose proof (HF' c Hc); lia|assumption].
Qed.
(** rows come back in frequency order: reading the groups one after the other visits the tiles 0, 1, 2, ... once each, and
    each group holds the tiles of one length *)
Definition same_q (ts : list qtile) : Prop := forall a b, In a ts -> In b ts -> qt_q a = qt_q b /\ qt_dur a = qt_dur b /\ qt_mm a = qt_mm b.
Lemma ntiles_mono a b : positive a -> positive b -> qt_q a = qt_q b -> qt_dur a = qt_dur b -> qt_mm a = qt_mm b -> qt_f a <= qt_f b -> (ntiles a <= ntiles b)%Z.
Proof.
  intros Pa Pb E1 E2 E3 L. assert (W : wanted_tiles a <= wanted_tiles b).
  { unfold wanted_tiles. rewrite E1, E2, E3. destruct Pb as [Hq [_ [Hd [_ Hm]]]]. pose proof PI_RGT_0.
    assert (0 < sqrt (qt_mm b / 3)) by (apply sqrt_lt_R0; lra). unfold Rdiv.
    apply Rmult_le_compat_r; [apply Rlt_le, Rinv_0_lt_compat; lra|]. apply Rmult_le_compat_r; [apply Rlt_le, Rinv_0_lt_compat; lra|].
    apply Rmult_le_compat_r; [lra|]. apply Rmult_le_compat_l; lra. }
  destruct (qtile_count a Pa) as [A0 A1]. destruct (qtile_count b Pb) as [B0 B1].
  destruct (Rle_lt_dec (wanted_tiles a) (/ 2)) as [La|La].
  - rewrite A0 by assumption. unfold ntiles. apply Z.pow_nonneg. lia.
  - destruct (A1 La) as [e [-> [_ M]]]. destruct (B1 ltac:(lra)) as [e' [-> [M' _]]].
    specialize (M e' ltac:(lra)). apply Nat2Z.inj_le. apply Nat.pow_le_mono_r; lia.
Qed.
Lemma groups_concat (nt : list Z) : (forall i j, (i <= j < List.length nt)%nat -> (nth i nt 0 <= nth j nt 0)%Z) ->
  concat (map (fun n => filter (fun i => (nth i nt 0 =? n)%Z) (seq 0 (List.length nt))) (zunique nt)) = seq 0 (List.length nt).
Proof.
  intros M. apply sorted_same; [|apply sorted_seq|].
  - pose proof (zunique_sorted nt) as S. induction S as [|a l SS IH HF]; cbn [map concat]; [constructor|].
    apply sorted_app; [apply sorted_filter, sorted_seq|assumption|]. intros i j Hi Hj. apply filter_In in Hi. destruct Hi as [Hi1 Hi2]. apply in_seq in Hi1.
    apply in_concat in Hj. destruct Hj as [g [Hg Hj]]. apply in_map_iff in Hg. destruct Hg as [n [<- Hn]]. apply filter_In in Hj. destruct Hj as [Hj1 Hj2]. apply in_seq in Hj1.
    rewrite Forall_forall in HF. specialize (HF n Hn). apply Z.eqb_eq in Hi2, Hj2.
    destruct (Nat.lt_ge_cases i j) as [|G]; [assumption|]. specialize (M j i ltac:(lia)). lia.
  - intros i. rewrite in_concat, in_seq. split.
    + intros [g [Hg Hi]]. apply in_map_iff in Hg. destruct Hg as [n [<- _]]. apply filter_In in Hi. destruct Hi as [Hi _]. apply in_seq in Hi. lia.
    + intros Hi. exists (filter (fun i' => (nth i' nt 0 =? nth i nt 0)%Z) (seq 0 (List.length nt))). split.
      * apply in_map_iff. exists (nth i nt 0%Z). split; [reflexivity|]. apply zunique_in. apply nth_In. lia.
      * apply filter_In. split; [apply in_seq; lia|apply Z.eqb_refl].
Qed.
Theorem spline_groups m : Forall positive (tr_tiles m) -> same_q (tr_tiles m) -> StronglySorted Rlt (map qt_f (tr_tiles m)) ->
  concat (stack_idx m) = seq 0 (List.length (tr_tiles m)) /\
  Forall (fun g => g <> [] /\ exists n, forall i t, In i g -> nth_error (tr_tiles m) i = Some t -> ntiles t = n) (stack_idx m).
Proof.
  intros P Q S. unfold stack_idx. set (ts := tr_tiles m) in *. rewrite map_length. split.
  - rewrite <- (map_length ntiles ts). apply groups_concat. rewrite map_length. intros i j [Lij Lj].
    destruct (Nat.eq_dec i j) as [->|Ne]; [lia|].
    destruct (nth_error ts i) as [a|] eqn:Ea; [|apply nth_error_None in Ea; lia]. destruct (nth_error ts j) as [b|] eqn:Eb; [|apply nth_error_None in Eb; lia].
    rewrite (nth_error_nth (map ntiles ts) i 0%Z (x := ntiles a)) by (rewrite nth_error_map', Ea; reflexivity).
    rewrite (nth_error_nth (map ntiles ts) j 0%Z (x := ntiles b)) by (rewrite nth_error_map', Eb; reflexivity).
    apply nth_error_In in Ea as Ia. apply nth_error_In in Eb as Ib. rewrite Forall_forall in P. destruct (Q a b Ia Ib) as [E1 [E2 E3]].
    apply ntiles_mono; auto. apply Rlt_le. clear -S Ea Eb Lij Ne.
    assert (K : forall l, StronglySorted Rlt (map qt_f l) -> forall i j a b, (i < j)%nat -> nth_error l i = Some a -> nth_error l j = Some b -> qt_f a < qt_f b).
    { induction l as [|c l IH]; intros SS i' j' a' b' L A B; [destruct i'; discriminate|]. cbn in SS. inversion SS as [|? ? SS' HF]; subst.
      destruct j'; [lia|]. cbn in B. destruct i'; cbn in A.
      - injection A as <-. rewrite Forall_forall in HF. apply HF. apply in_map. eapply nth_error_In; eassumption.
      - apply (IH SS' i' j'); try assumption. lia. }
    apply (K ts S i j); try assumption. lia.
  - apply Forall_forall. intros g Hg. apply in_map_iff in Hg. destruct Hg as [n [<- Hn]]. split.
    + apply (proj1 (zunique_in _ _)) in Hn. apply (In_nth _ _ 0%Z) in Hn. destruct Hn as [i [Hi E]]. rewrite map_length in Hi.
      intros K. assert (In i []) as []. rewrite <- K. apply filter_In. split; [apply in_seq; lia|]. apply Z.eqb_eq. assumption.
    + exists n. intros i t Hi Ht. apply filter_In in Hi. destruct Hi as [_ Hi]. apply Z.eqb_eq in Hi. rewrite <- Hi. symmetry. apply nth_error_nth.
      rewrite nth_error_map', Ht. reflexivity.
Qed.
