(** C15-C16: the OnlineAverager over any history. *)
From Verif Require Import Base Tensor Slicing_model Slicing_proofs Slicing_proofs2 Slicing_props Rutil Streaming_model.
Local Open Scope nat_scope.

(** ** Specification *)
(** prediction p covers output sample t: it starts at p * u and has n * u samples *)
Definition covers (u n p t : nat) : bool := ((p * u <=? t) && (t <? p * u + n * u))%bool.
(** (1/n) * sum over the first P predictions covering t of the value they give to t *)
Definition average (u n P : nat) (pred : nat -> nat -> nat -> R) (c t : nat) : R :=
  (/ INR n * Rsum P (fun p => if covers u n p t then pred p c (t - p * u)%nat else 0))%R.
(** The p-th prediction of a history of batches us (batch size b): its last n*u samples before [off]
    dropped samples at the end; p = i*b + k is element k of batch i. *)
Definition prediction (us : list (tensor R)) (b u n off : nat) (p c j : nat) : R :=
  match nth_error us (p / b) with
  | Some x => elt x [p mod b; c; last (shape x) 0 - off - n * u + j]
  | None => 0%R
  end.

(** ** Lemmas *)
Lemma find_shift (f : nat -> Z) n a t : (forall j, j < n -> f j = Z.of_nat (j + a)) ->
  find (fun j => (f j =? Z.of_nat t)%Z) (seq 0 n) = if ((a <=? t) && (t <? a + n))%bool then Some (t - a) else None.
Proof.
  intros H.
  assert (G : forall k s, s + k <= n -> find (fun j => (f j =? Z.of_nat t)%Z) (seq s k)
     = if ((s + a <=? t) && (t <? s + k + a))%bool then Some (t - a) else None).
  { induction k as [|k IH]; intros s Hs; cbn [seq find].
    - destruct (Nat.leb_spec (s + a) t), (Nat.ltb_spec t (s + 0 + a)); cbn; try reflexivity; lia.
    - rewrite H by lia. destruct (Z.eqb_spec (Z.of_nat (s + a)) (Z.of_nat t)) as [E|E].
      + replace (s + a <=? t) with true by lia. replace (t <? s + S k + a) with true by lia. cbn. f_equal. lia.
      + rewrite IH by lia. replace (S s + k + a) with (s + S k + a) by lia.
        destruct (Nat.leb_spec (S s + a) t), (Nat.leb_spec (s + a) t); cbn; try reflexivity; try lia. }
  rewrite G by lia. cbn [plus]. replace (n + a) with (a + n) by lia. reflexivity.
Qed.

Section Oavg.
Variables (u b n c : nat) (off : option nat) (m : oavg).
Hypothesis Hu : 0 < u. Hypothesis Hb : 0 < b. Hypothesis Hn : 0 < n. Hypothesis Hc : 0 < c.
Hypothesis Hm : oa_create u b n c off = Ok m.

Let T := b * u + oa_state_size u n.
Lemma T_eq : T = (b - 1) * u + n * u.
Proof using All. unfold T, oa_state_size. nia. Qed.

Lemma scatter_idx src : shape src = [b; c; n * u] ->
  exists r, scatter3 (mk [b; c; T] (fun _ => 0%R))
     (mk [b; c; n * u] (fun i => match i with [k; _; j] => Z.of_nat (j + k * u) | _ => 0%Z end)) src = Ok r
    /\ shape r = [b; c; T] /\ forall k l t, k < b -> l < c -> t < T ->
       elt r [k; l; t] = if covers u n k t then elt src [k; l; t - k * u] else 0%R.
Proof using All.
  intros Hs. unfold scatter3. cbn [shape]. rewrite Hs, !Nat.leb_refl. cbn [andb negb].
  replace (forallb _ _) with true.
  2:{ symmetry. apply forallb_all_idx. intros i Hi. destruct i as [|k [|l [|j [|? ?]]]]; cbn [inb] in Hi; try tauto.
      cbn [elt]. destruct Hi as [H1 [H2 [H3 _]]]. pose proof T_eq.
      assert (j + k * u < T) by nia. destruct (Z.leb_spec 0 (Z.of_nat (j + k * u))); [|lia]. cbn. lia. }
  cbn [negb]. eexists; split; [reflexivity|]. split; [reflexivity|]. intros k l t Hk Hl Ht. cbn [elt].
  replace (k <? b) with true by lia. replace (l <? c) with true by lia. cbn [andb].
  rewrite (find_shift _ (n * u) (k * u) t) by reflexivity. unfold covers.
  destruct ((k * u <=? t) && (t <? k * u + n * u))%bool eqn:E; reflexivity.
Qed.

Definition wsum (t : nat) : R := Rsum b (fun k => if covers u n k t then 1%R else 0%R).

Lemma wsum_pos t : t < T -> (wsum t <> 0)%R.
Proof using All.
  intros Ht. unfold wsum.
  assert (E : exists k, k < b /\ covers u n k t = true).
  { pose proof T_eq. destruct (Nat.lt_ge_cases t ((b - 1) * u)) as [H1|H1].
    - exists (t / u). pose proof (Nat.div_mod t u ltac:(lia)). pose proof (Nat.mod_upper_bound t u ltac:(lia)).
      assert (t / u < b - 1) by (apply Nat.div_lt_upper_bound; nia). split; [lia|]. unfold covers.
      rewrite (Nat.mul_comm (t / u)). assert (u <= n * u) by nia.
      replace (u * (t / u) <=? t) with true by lia. cbn. lia.
    - exists (b - 1). split; [lia|]. unfold covers. lia. }
  destruct E as [k [Hk Ek]].
  assert (1 <= Rsum b (fun k => if covers u n k t then 1 else 0))%R; [|lra].
  apply Rle_trans with (Rsum b (fun i => if i =? k then 1 else 0)%R).
  { rewrite (Rsum_single b k) by (first [exact Hk|intros i _ Hi; destruct (Nat.eqb_spec i k); [congruence|reflexivity]]).
    rewrite Nat.eqb_refl. lra. }
  apply Rsum_le. intros i Hi. destruct (Nat.eqb_spec i k) as [->|]; [rewrite Ek; lra|]. destruct (covers u n i t); lra.
Qed.

Lemma oa_create_inv : exists w, m = {| oa_u := u; oa_n := n; oa_b := b; oa_c := c; oa_off := off;
    oa_blank := mk [b; c; T] (fun _ => 0%R);
    oa_idx := mk [b; c; n * u] (fun i => match i with [k; _; j] => Z.of_nat (j + k * u) | _ => 0%Z end);
    oa_weights := w |} /\ shape w = [b; c; n * u] /\
    forall k l j, k < b -> l < c -> j < n * u -> elt w [k; l; j] = wsum (k * u + j).
Proof using All.
  assert (Hm' := Hm). unfold oa_create in Hm'. destruct (Nat.eqb_spec b 0); [lia|]. fold T in Hm'.
  destruct (scatter_idx (mk [b; c; n * u] (fun _ => 1%R)) eq_refl) as [r [Er [Sr Vr]]]. rewrite Er in Hm'. cbn [bind] in Hm'.
  assert (S0 : shape (sum0 r) = [c; T]) by (unfold sum0; rewrite Sr; reflexivity).
  destruct (unfold_windows_correct 0%R (sum0 r) [c] T (n * u) u true S0) as [w [tl [Ew [Sw [Vw _]]]]];
    [cbn; lia|constructor; [exact Hc|constructor]|nia|exact Hu|rewrite T_eq; apply Nat.le_add_l|].
  rewrite Ew in Hm'. cbn [bind] in Hm'. injection Hm' as Em. exists w. split; [symmetry; exact Em|].
  assert (Enw : (T - n * u) / u + 1 = b).
  { rewrite T_eq, Nat.add_sub, Nat.div_mul by (clear -Hu; lia). clear -Hb; lia. }
  rewrite Enw in *. split; [exact Sw|]. intros k l j Hk Hl Hj.
  specialize (Vw k [l] j Hk ltac:(cbn; lia) Hj). cbn [app] in Vw.
  assert (Ht : k * u + j < T) by (rewrite T_eq; nia).
  rewrite get_inb in Vw by (rewrite Sw; cbn; lia). rewrite get_inb in Vw by (rewrite S0; cbn; lia).
  assert (V : elt w [k; l; j] = elt (sum0 r) [l; k * u + j]) by congruence. rewrite V.
  unfold sum0. rewrite Sr. cbn [elt]. unfold wsum. apply Rsum_ext. intros i Hi. rewrite Vr by lia. reflexivity.
Qed.

Let o := match off with Some k => k | None => 0 end.

Lemma slice_x L : n * u + o <= L -> off <> Some 0 ->
  exists lo hi, match off with
     | Some k => ((- Z.of_nat n * Z.of_nat u + - Z.of_nat k)%Z, Some (- Z.of_nat k)%Z)
     | None => ((- Z.of_nat n * Z.of_nat u)%Z, None) end = (lo, hi)
  /\ slice_lo (Z.of_nat L) (Some lo) = Z.of_nat (L - o - n * u) /\ slice_hi (Z.of_nat L) hi = Z.of_nat (L - o).
Proof using All.
  intros HL Hoff. unfold o in *. assert (0 < n * u) by nia. assert (E : (- Z.of_nat n * Z.of_nat u = - Z.of_nat (n * u))%Z) by lia.
  rewrite E. clear Hm T. destruct off as [k|]; do 2 eexists; (split; [reflexivity|]); unfold slice_lo, slice_hi, py_clamp.
  - assert (0 < k) by (destruct k; [congruence|lia]).
    destruct (Z.ltb_spec (- Z.of_nat (n * u) + - Z.of_nat k) 0); [|lia]. destruct (Z.ltb_spec (- Z.of_nat k) 0); lia.
  - destruct (Z.ltb_spec (- Z.of_nat (n * u)) 0); lia.
Qed.

Lemma bzip3 (f : R -> R -> R) (x y : tensor R) d0 d1 d2 : shape x = [d0; d1; d2] -> shape y = [d0; d1; d2] ->
  exists r, bzip_inplace f x y = Ok r /\ shape r = [d0; d1; d2] /\
    forall i j k, i < d0 -> j < d1 -> k < d2 -> elt r [i; j; k] = f (elt x [i; j; k]) (elt y [i; j; k]).
Proof.
  intros Hx Hy. unfold bzip_inplace, bzip, bshape. rewrite Hx, Hy. cbn [rev app bshape_rev]. rewrite !bdim_refl. cbn [bind rev app shape].
  destruct (list_eq_dec Nat.eq_dec [d0; d1; d2] [d0; d1; d2]); [|congruence].
  eexists; split; [reflexivity|]. split; [reflexivity|]. intros i j k Hi Hj Hk. cbn [elt]. unfold bidx. cbn [length Nat.sub skipn zip_with].
  assert (E : forall d v, v < d -> (if d =? 1 then 0 else v) = v) by (intros d v Hv; destruct (Nat.eqb_spec d 1); lia).
  rewrite !E by assumption. reflexivity.
Qed.

(** one call *)
Lemma oa_forward_ok x L st : shape x = [b; c; L] -> n * u + o <= L -> off <> Some 0 -> shape st = [c; oa_state_size u n] ->
  exists out st', oa_forward m x (Some st) = Ok (out, st') /\ shape out = [c; b * u] /\ shape st' = [c; oa_state_size u n] /\
  let new l t := ((if t <? oa_state_size u n then elt st [l; t] else 0)
     + Rsum b (fun k => if covers u n k t then elt x [k; l; (L - o - n * u + (t - k * u))%nat] / INR n else 0))%R in
  (forall l t, l < c -> t < b * u -> elt out [l; t] = new l t) /\
  (forall l t, l < c -> t < oa_state_size u n -> elt st' [l; t] = new l (b * u + t)).
Proof using All.
  intros Hx HL Hoff Hst. destruct oa_create_inv as [w [Em [Sw Vw]]].
  unfold oa_forward. rewrite Em. cbn [oa_n oa_u oa_off oa_b oa_blank oa_idx oa_weights].
  destruct (slice_x L HL Hoff) as [lo [hi [E0 [Elo Ehi]]]]. rewrite E0.
  rewrite Hx. cbn [length]. rewrite Nat.eqb_refl. cbn [negb].
  unfold slice_last. rewrite Hx. cbn [shape last removelast app]. rewrite Elo, Ehi.
  set (xx := mk _ (fun i => (_ / _)%R)).
  assert (Sxx : shape xx = [b; c; n * u]) by (unfold xx; cbn [shape]; do 3 f_equal; lia).
  assert (Vxx : forall k l j, elt xx [k; l; j] = (elt x [k; l; (L - o - n * u + j)%nat] / INR n)%R).
  { intros. unfold xx. cbn [elt removelast last app]. rewrite Nat2Z.id, (Nat.add_comm j). reflexivity. }
  replace (Z.to_nat (Z.of_nat (L - o) - Z.of_nat (L - o - n * u))) with (n * u) by lia.
  set (sp := pad_right _ st).
  assert (Ssp : shape sp = [c; T]) by (unfold sp, pad_right; rewrite Hst; cbn [shape]; unfold T; do 2 f_equal; lia).
  assert (Vsp : forall l t, elt sp [l; t] = if t <? oa_state_size u n then elt st [l; t] else 0%R).
  { intros. unfold sp, pad_right. rewrite Hst. reflexivity. }
  destruct (unfold_windows_correct 0%R sp [c] T (n * u) u true Ssp) as [y [tl [Ey [Sy [Vy _]]]]];
    [cbn; lia|constructor; [exact Hc|constructor]|nia|exact Hu|rewrite T_eq; apply Nat.le_add_l|].
  rewrite Ey. cbn [bind].
  assert (Enw : (T - n * u) / u + 1 = b).
  { rewrite T_eq, Nat.add_sub, Nat.div_mul by (clear -Hu; lia). clear -Hb; lia. }
  rewrite Enw in *. clear Enw.
  assert (Vy' : forall k l j, k < b -> l < c -> j < n * u -> elt y [k; l; j] = elt sp [l; k * u + j]).
  { intros k l j Hk Hl Hj. specialize (Vy k [l] j Hk ltac:(cbn; lia) Hj). cbn [app] in Vy.
    assert (Ht : k * u + j < T) by (rewrite T_eq; nia).
    rewrite get_inb in Vy by (rewrite Sy; cbn; lia). rewrite get_inb in Vy by (rewrite Ssp; cbn; lia). congruence. }
  destruct (bzip3 Rdiv y w b c (n * u) Sy Sw) as [y1 [E1 [S1 V1]]]. rewrite E1. cbn [bind].
  destruct (bzip3 Rplus y1 xx b c (n * u) S1 Sxx) as [y2 [E2 [S2 V2]]]. rewrite E2. cbn [bind].
  destruct (scatter_idx y2 S2) as [r [Er [Sr Vr]]]. rewrite Er. cbn [bind].
  set (new := sum0 r).
  assert (Snew : shape new = [c; T]) by (unfold new, sum0; rewrite Sr; reflexivity).
  assert (Vnew : forall l t, l < c -> t < T -> elt new [l; t] =
     ((if t <? oa_state_size u n then elt st [l; t] else 0)
     + Rsum b (fun k => if covers u n k t then elt x [k; l; (L - o - n * u + (t - k * u))%nat] / INR n else 0))%R).
  { intros l t Hl Ht. unfold new, sum0. rewrite Sr. cbn [elt].
    rewrite (Rsum_ext _ _ (fun k => (if covers u n k t then 1 else 0) * (elt sp [l; t] / wsum t)
       + (if covers u n k t then elt x [k; l; (L - o - n * u + (t - k * u))%nat] / INR n else 0))%R).
    - rewrite Rsum_plus, Rsum_scal_r. fold (wsum t). rewrite <- Vsp. f_equal. field. apply wsum_pos, Ht.
    - intros k Hk. rewrite Vr by assumption. destruct (covers u n k t) eqn:Ec; [|lra].
      unfold covers in Ec. assert (Hj : t - k * u < n * u) by lia.
      rewrite V2, V1, Vxx, Vy', Vw by assumption. replace (k * u + (t - k * u)) with t by lia. lra. }
  destruct (Nat.eqb_spec n 1) as [En|En].
  - assert (EZ : oa_state_size u n = 0) by (unfold oa_state_size; rewrite En; lia).
    exists new. eexists. split; [reflexivity|]. split; [rewrite Snew; unfold T; rewrite EZ; do 2 f_equal; lia|].
    split; [reflexivity|]. split; [intros; apply Vnew; [assumption|unfold T; lia]|]. intros l t _ Ht. lia.
  - unfold split2_last. rewrite Snew. cbn [last removelast app].
    match goal with |- context [if ?B then Err RuntimeError else _] => replace B with false end.
    2:{ symmetry. unfold T, oa_state_size. clear. rewrite !Bool.orb_false_iff. rewrite Bool.negb_false_iff. rewrite !Z.ltb_ge, Z.eqb_eq, Nat2Z.inj_add, !Nat2Z.inj_mul. repeat split; try reflexivity; apply Z.mul_nonneg_nonneg; lia. }
    rewrite <- !Nat2Z.inj_mul, !Nat2Z.id. do 2 eexists. split; [reflexivity|]. cbn [shape]. split; [reflexivity|]. split; [reflexivity|].
    split; intros l t Hl Ht; cbn [elt removelast last app].
    + apply Vnew; [exact Hl|unfold T; lia].
    + rewrite (Nat.add_comm t). apply Vnew; [exact Hl|unfold T; lia].
Qed.

Definition good_batch (x : tensor R) : Prop := exists L, shape x = [b; c; L] /\ n * u + o <= L.

Lemma covers_shift k t q : covers u n (q * b + k) (q * (b * u) + t) = covers u n k t.
Proof. unfold covers. replace ((q * b + k) * u) with (q * (b * u) + k * u) by lia.
  destruct (Nat.leb_spec (k * u) t), (Nat.leb_spec (q * (b * u) + k * u) (q * (b * u) + t)); cbn; lia. Qed.

(** The history: after q batches have been consumed *)
Lemma oa_run_from us0 : off <> Some 0 -> forall us pre st, us0 = pre ++ us -> Forall good_batch us ->
  let q := length pre in
  let pred := prediction us0 b u n o in
  shape st = [c; oa_state_size u n] ->
  (forall l t, l < c -> t < oa_state_size u n -> elt st [l; t] = average u n (q * b) pred l (q * (b * u) + t)) ->
  exists outs st', oa_run m us (Some st) = Ok (outs, Some st') /\ length outs = length us /\
    shape st' = [c; oa_state_size u n] /\
    (forall i out, nth_error outs i = Some out -> shape out = [c; b * u] /\
       forall l t, l < c -> t < b * u -> elt out [l; t] = average u n (length us0 * b) pred l ((q + i) * (b * u) + t)) /\
    (forall l t, l < c -> t < oa_state_size u n -> elt st' [l; t] = average u n (length us0 * b) pred l (length us0 * (b * u) + t)).
Proof using All.
  intros Hoff. induction us as [|x us IH]; intros pre st Hus HF q pred Hst Hv.
  - exists [], st. split; [reflexivity|]. split; [reflexivity|]. split; [exact Hst|]. split; [intros [|i]; discriminate|].
    subst us0. rewrite app_nil_r in *. exact Hv.
  - inversion HF as [|? ? [L [Hx HL]] HF']; subst.
    destruct (oa_forward_ok x L st Hx HL Hoff Hst) as [out [st1 [E1 [So [Ss [Vo Vs]]]]]]. cbn zeta in Vo, Vs.
    (* the new sums are averages over (q+1)*b predictions *)
    assert (Hpred : forall k l j, k < b -> pred (q * b + k) l j = elt x [k; l; L - o - n * u + j]).
    { intros k l j Hk. unfold pred, prediction. rewrite (Nat.add_comm (q * b)), Nat.div_add, Nat.div_small, Nat.mod_add, Nat.mod_small by lia.
      cbn [plus]. rewrite nth_error_app2 by lia. unfold q. rewrite Nat.sub_diag. cbn [nth_error]. rewrite Hx. reflexivity. }
    assert (Hnew : forall l t, l < c ->
       ((if t <? oa_state_size u n then elt st [l; t] else 0)
        + Rsum b (fun k => if covers u n k t then elt x [k; l; (L - o - n * u + (t - k * u))%nat] / INR n else 0))%R
       = average u n ((q + 1) * b) pred l (q * (b * u) + t)).
    { intros l t Hl. unfold average. replace ((q + 1) * b) with (q * b + b) by lia. rewrite Rsum_app, Rmult_plus_distr_l. f_equal.
      - destruct (Nat.ltb_spec t (oa_state_size u n)) as [Ht|Ht]; [apply Hv; assumption|].
        rewrite Rsum_0; [lra|]. intros p Hp. unfold covers. unfold oa_state_size in Ht.
        assert (p + 1 <= q * b) by lia. replace (_ && _)%bool with false; [reflexivity|]. symmetry. 
        assert (p * u + n * u <= q * (b * u) + t) by nia. apply Bool.andb_false_iff. right. lia.
      - rewrite <- Rsum_scal. apply Rsum_ext. intros k Hk. rewrite covers_shift. destruct (covers u n k t) eqn:Ec; [|lra].
        rewrite Hpred by exact Hk. unfold covers in Ec.
        replace (q * (b * u) + t - (q * b + k) * u) with (t - k * u) by nia. lra. }
    destruct (IH (pre ++ [x]) st1) as [outs [st' [E' [L' [S' [V' W']]]]]].
    + rewrite <- app_assoc. reflexivity.
    + exact HF'.
    + exact Ss.
    + intros l t Hl Ht. rewrite Vs by assumption. rewrite Hnew by exact Hl. rewrite app_length. cbn [length]. fold q.
      unfold pred. f_equal. lia.
    + exists (out :: outs), st'. cbn [oa_run]. rewrite E1. cbn [bind]. rewrite E'. cbn [bind]. split; [reflexivity|].
      split; [cbn; congruence|]. split; [exact S'|]. split; [|exact W'].
      intros [|i] out' Ho; cbn in Ho.
      * injection Ho as <-. split; [exact So|]. intros l t Hl Ht. rewrite Vo by assumption. rewrite Hnew by exact Hl.
        rewrite Nat.add_0_r. unfold average. f_equal.
        replace (length (pre ++ x :: us) * b) with ((q + 1) * b + length us * b) by (rewrite app_length; cbn [length]; fold q; lia).
        rewrite Rsum_app. rewrite (Rsum_0 (length us * b)); [fold pred; lra|]. intros k Hk. unfold covers.
        replace (_ && _)%bool with false; [reflexivity|]. symmetry. apply Bool.andb_false_iff. left.
        assert (q * (b * u) + t < ((q + 1) * b + k) * u) by nia. lia.
      * destruct (V' i out' Ho) as [Sh V]. split; [exact Sh|]. intros l t Hl Ht. rewrite V by assumption.
        fold pred. f_equal. replace (length (pre ++ [x])) with (q + 1) by (rewrite app_length; reflexivity). lia.
Qed.
End Oavg.

(** C15: over any history, from the initial state, output sample t of the whole stream (sample t mod (b*u) of
    call t / (b*u)) is (1/num_updates) times the sum of the predictions covering it; the final state holds the
    partial sums of the samples not yet complete. *)
Theorem online_averager_stream u b n c off m us :
  oa_create u b n c off = Ok m -> 0 < u -> 0 < b -> 0 < n -> 0 < c -> off <> Some 0 -> us <> [] ->
  let o := match off with Some k => k | None => 0 end in
  Forall (good_batch u b n c off) us ->
  exists outs st, oa_run m us None = Ok (outs, Some st) /\ length outs = length us /\
    (forall i out, nth_error outs i = Some out -> shape out = [c; b * u] /\
       forall l t, l < c -> t < b * u ->
         get out [l; t] = Some (average u n (length us * b) (prediction us b u n o) l (i * (b * u) + t))) /\
    shape st = [c; (n - 1) * u] /\
    (forall l t, l < c -> t < (n - 1) * u ->
         get st [l; t] = Some (average u n (length us * b) (prediction us b u n o) l (length us * (b * u) + t))).
Proof.
  intros Hm Hu Hb Hn Hc Hoff Hne o HF.
  destruct (oa_create_inv u b n c off m Hu Hb Hn Hc Hm) as [w [Em _]].
  destruct (oa_run_from u b n c off m Hu Hb Hn Hc Hm us Hoff us [] (oa_init m)) as [outs [st [E [L [S [V W]]]]]].
  - reflexivity.
  - exact HF.
  - rewrite Em. reflexivity.
  - intros l t _ _. rewrite Em. cbn [oa_init elt length]. unfold average. cbn [Nat.mul Rsum]. lra.
  - exists outs, st. split; [|split; [exact L|]].
    + destruct us as [|x us]; [congruence|]. cbn [oa_run] in *. exact E.
    + split; [|split; [exact S|]].
      * intros i out Ho. destruct (V i out Ho) as [So Vo]. split; [exact So|]. intros l t Hl Ht.
        rewrite get_inb by (rewrite So; cbn; lia). rewrite Vo by assumption. reflexivity.
      * intros l t Hl Ht. rewrite get_inb by (rewrite S; unfold oa_state_size; cbn; lia). rewrite W by assumption. reflexivity.
Qed.

(** Number of predictions covering t: t/u + 1 during warm-up, num_updates afterwards (as long as enough
    predictions were fed, which holds for every emitted sample). *)
Lemma covers_count u n P t : 0 < u -> 0 < n -> t < P * u ->
  Rsum P (fun p => if covers u n p t then 1%R else 0%R) = INR (Nat.min n (t / u + 1)).
Proof.
  intros Hu Hn Ht.
  assert (E : forall p, covers u n p t = ((p <=? t / u) && (t / u <? p + n))%bool).
  { intros p. unfold covers. pose proof (Nat.div_mod t u ltac:(lia)). pose proof (Nat.mod_upper_bound t u ltac:(lia)).
    set (q := t / u) in *. set (r := t mod u) in *. clearbody q r. subst t.
    f_equal; [destruct (Nat.leb_spec (p * u) (u * q + r)), (Nat.leb_spec p q); try reflexivity; nia|].
    destruct (Nat.ltb_spec (u * q + r) (p * u + n * u)), (Nat.ltb_spec q (p + n)); try reflexivity; nia. }
  assert (Hq : t / u < P) by (apply Nat.div_lt_upper_bound; lia). set (q := t / u) in *. clearbody q.
  rewrite (Rsum_ext _ _ (fun p => if ((p <=? q) && (q <? p + n))%bool then 1%R else 0%R)) by (intros; rewrite E; reflexivity).
  clear E. replace P with ((q + 1 - Nat.min n (q + 1)) + (Nat.min n (q + 1)) + (P - q - 1)) by lia.
  rewrite !Rsum_app. rewrite (Rsum_0 (q + 1 - _)), (Rsum_0 (P - q - 1)).
  - rewrite (Rsum_ext _ _ (fun _ => 1%R)), Rsum_const; [lra|]. intros i Hi.
    destruct (Nat.leb_spec (q + 1 - Nat.min n (q + 1) + i) q), (Nat.ltb_spec q (q + 1 - Nat.min n (q + 1) + i + n)); cbn; try reflexivity; lia.
  - intros i Hi. destruct (Nat.leb_spec (q + 1 - Nat.min n (q + 1) + Nat.min n (q + 1) + i) q); [lia|reflexivity].
  - intros i Hi. destruct (Nat.leb_spec i q), (Nat.ltb_spec q (i + n)); cbn; try reflexivity; lia.
Qed.

(** Hence predictions that agree on the value v of sample t give v exactly after warm-up, and v * (t/u+1) / n before *)
Theorem online_averager_constant u n P pred c t v : 0 < u -> 0 < n -> t < P * u ->
  (forall p, p < P -> covers u n p t = true -> pred p c (t - p * u) = v) ->
  average u n P pred c t = (INR (Nat.min n (t / u + 1)) / INR n * v)%R
  /\ ((n - 1) * u <= t -> average u n P pred c t = v).
Proof.
  intros Hu Hn Ht Hv.
  assert (E : average u n P pred c t = (INR (Nat.min n (t / u + 1)) / INR n * v)%R).
  { unfold average. rewrite (Rsum_ext _ _ (fun p => (if covers u n p t then 1 else 0) * v)%R).
    - rewrite Rsum_scal_r, covers_count by assumption. lra.
    - intros p Hp. destruct (covers u n p t) eqn:Ec; [rewrite Hv by assumption; lra|lra]. }
  split; [exact E|]. intros Hw. rewrite E.
  assert (n - 1 <= t / u) by (apply Nat.div_le_lower_bound; lia).
  replace (Nat.min n (t / u + 1)) with n by lia. field. apply not_0_INR. lia.
Qed.

(** C16: re-batching.  Averagers that differ only in batch_size, fed the same sequence of predictions, emit the
    same samples (sample t overall), and end in the same state. *)
Theorem online_averager_rebatch u b1 b2 n c off m1 m2 us1 us2 :
  oa_create u b1 n c off = Ok m1 -> oa_create u b2 n c off = Ok m2 ->
  0 < u -> 0 < b1 -> 0 < b2 -> 0 < n -> 0 < c -> off <> Some 0 -> us1 <> [] -> us2 <> [] ->
  Forall (good_batch u b1 n c off) us1 -> Forall (good_batch u b2 n c off) us2 ->
  let o := match off with Some k => k | None => 0 end in
  length us1 * b1 = length us2 * b2 ->
  (forall p l j, p < length us1 * b1 -> l < c -> j < n * u -> prediction us1 b1 u n o p l j = prediction us2 b2 u n o p l j) ->
  exists outs1 st1 outs2 st2,
    oa_run m1 us1 None = Ok (outs1, Some st1) /\ oa_run m2 us2 None = Ok (outs2, Some st2) /\
    (forall i1 t1 x1 i2 t2 x2, nth_error outs1 i1 = Some x1 -> nth_error outs2 i2 = Some x2 -> t1 < b1 * u -> t2 < b2 * u ->
       i1 * (b1 * u) + t1 = i2 * (b2 * u) + t2 -> forall l, l < c -> get x1 [l; t1] = get x2 [l; t2]) /\
    shape st1 = shape st2 /\ (forall l t, l < c -> t < (n - 1) * u -> get st1 [l; t] = get st2 [l; t]).
Proof.
  intros H1 H2 Hu Hb1 Hb2 Hn Hc Hoff N1 N2 F1 F2 o Hl Hp.
  destruct (online_averager_stream u b1 n c off m1 us1 H1 Hu Hb1 Hn Hc Hoff N1 F1) as [o1 [s1 [E1 [L1 [V1 [S1 W1]]]]]].
  destruct (online_averager_stream u b2 n c off m2 us2 H2 Hu Hb2 Hn Hc Hoff N2 F2) as [o2 [s2 [E2 [L2 [V2 [S2 W2]]]]]].
  fold o in V1, V2, W1, W2.
  assert (EA : forall l t, l < c -> average u n (length us1 * b1) (prediction us1 b1 u n o) l t = average u n (length us2 * b2) (prediction us2 b2 u n o) l t).
  { intros l t Hlc. unfold average. rewrite <- Hl. f_equal. apply Rsum_ext. intros p Hpp. destruct (covers u n p t) eqn:Ec; [|reflexivity].
    apply Hp; try assumption. unfold covers in Ec. lia. }
  exists o1, s1, o2, s2. split; [exact E1|]. split; [exact E2|]. split.
  - intros i1 t1 x1 i2 t2 x2 A1 A2 B1 B2 Ht l Hlc. rewrite (proj2 (V1 i1 x1 A1) l t1 Hlc B1), (proj2 (V2 i2 x2 A2) l t2 Hlc B2), Ht.
    rewrite EA by exact Hlc. reflexivity.
  - split; [congruence|]. intros l t Hlc Ht. rewrite W1, W2, EA by assumption. do 2 f_equal. nia.
Qed.

(** C16: offset=0 makes every call raise RuntimeError: update[..., -n*u : -0] is empty and cannot be windowed. *)
Theorem online_averager_offset0_refuted u b n c m x L st :
  oa_create u b n c (Some 0) = Ok m -> 0 < u -> 0 < b -> 0 < n -> 0 < c -> shape x = [b; c; L] ->
  (forall s, st = Some s -> shape s = [c; (n - 1) * u]) ->
  oa_forward m x st = Err RuntimeError.
Proof.
  intros Hm Hu Hb Hn Hc Hx Hst. destruct (oa_create_inv u b n c (Some 0) m Hu Hb Hn Hc Hm) as [w [Em _]].
  unfold oa_forward. rewrite Em. cbn [oa_n oa_u oa_off oa_b oa_blank oa_idx oa_weights].
  rewrite Hx. cbn [length]. rewrite Nat.eqb_refl. cbn [negb]. unfold slice_last. rewrite Hx. cbn [shape last removelast app].
  assert (E0 : Z.to_nat (slice_hi (Z.of_nat L) (Some (- Z.of_nat 0)%Z) - slice_lo (Z.of_nat L) (Some (- Z.of_nat n * Z.of_nat u + - Z.of_nat 0)%Z)) = 0).
  { unfold slice_hi, slice_lo, py_clamp. generalize (- Z.of_nat n * Z.of_nat u + - Z.of_nat 0)%Z. intros z. change (- Z.of_nat 0)%Z with 0%Z. change (0 <? 0)%Z with false. cbn iota. clear. lia. }
  rewrite E0.
  set (s := match st with Some s => s | None => _ end).
  assert (Ss : shape s = [c; (n - 1) * u]) by (unfold s; destruct st; [apply Hst; reflexivity|reflexivity]).
  set (sp := pad_right _ s).
  assert (Ssp : shape sp = [c; (b + n - 1) * u]) by (unfold sp, pad_right; rewrite Ss; cbn [shape]; do 2 f_equal; nia).
  assert (EU : unfold_windows 0%R sp (Z.of_nat 0) (Z.of_nat u) true = Err RuntimeError); [|rewrite EU; reflexivity].
  unfold unfold_windows, last_dim. rewrite Ssp. cbn [bind last].
  replace (Z.of_nat u =? 0)%Z with false by lia.
  assert (Ed : ((Z.of_nat ((b + n - 1) * u) - Z.of_nat 0) / Z.of_nat u = Z.of_nat (b + n - 1))%Z).
  { rewrite Z.sub_0_r, Nat2Z.inj_mul, Z.div_mul by lia. reflexivity. }
  rewrite Ed. replace (_ =? 0)%Z with true by nia. cbn [bind].
  unfold to4d, unfold_1k. rewrite Ssp. cbn [shape].
  replace (_ || _)%bool with true; [reflexivity|].
  symmetry. rewrite !Bool.orb_true_iff. do 3 left. right. apply Z.leb_le. nia.
Qed.

Example online_averager_nonvacuous :
  exists m, oa_create 2 3 2 1 (Some 1) = Ok m /\ let x := mk [3; 1; 5] (fun i => INR (nth 2 i 0)) in
    Forall (good_batch 2 3 2 1 (Some 1)) [x; x].
Proof.
  assert (H : exists m, oa_create 2 3 2 1 (Some 1) = Ok m) by (vm_compute; eexists; reflexivity).
  destruct H as [m H]. exists m. split; [exact H|]. cbn zeta. repeat constructor; exists 5; cbn; split; auto.
Qed.
