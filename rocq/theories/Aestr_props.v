(** C123: what a ConvolutionalAutoencoder with several blocks computes.
    The states reach the decoders in the wrong order (C18) and match_size empties tensors that are two or more samples too
    long (C19).  Together: with stride at least two, or an even kernel, no network of four or more blocks ever returns;
    with the plain skip connection and two (stride at least two) or three blocks the output is zero everywhere, whatever
    the weights and the input; with the adding skip connection it raises.
    With stride one and an odd kernel the network of any depth returns a tensor of the input's length. *)
From Verif Require Import Base Tensor Streaming_model Autoenc_model Autoenc_props Aegrp_props.
Local Open Scope nat_scope.

(** ** lengths *)
Definition is3 {A} (b c l : nat) (v : value A) : Prop := exists x, v = VT x /\ shape x = [b; c; l].
(** one for odd kernel sizes, two for even ones *)
Definition excess (k : nat) : nat := k - 2 * ((k - 1) / 2).
Lemma excess_cases k : 1 <= k -> excess k = 1 \/ excess k = 2.
Proof. intros H. unfold excess. pose proof (Nat.div_mod (k - 1) 2 ltac:(lia)). pose proof (Nat.mod_upper_bound (k - 1) 2 ltac:(lia)). lia. Qed.
Lemma excess_parity k : 1 <= k -> (Nat.odd k = true -> excess k = 1) /\ (Nat.even k = true -> excess k = 2).
Proof.
  intros Hk. split; intros H.
  - apply Nat.odd_spec in H. destruct H as [m ->]. unfold excess. replace (2 * m + 1 - 1) with (m * 2) by lia. rewrite Nat.div_mul by lia. lia.
  - apply Nat.even_spec in H. destruct H as [m ->]. unfold excess. replace (2 * m - 1) with ((m - 1) * 2 + 1) by lia. rewrite Nat.div_add_l by lia. change (1 / 2) with 0. lia.
Qed.

Section lengths.
Context {A : Type}.
Context (k s g : nat) (Hk : 1 <= k) (Hs : 1 <= s).
Let e := excess k.

Lemma enc_ok b cin c activation dch oact sk fe fn1 fa fd fn2 l (v : value A) : is3 b cin l v -> e <= l ->
  exists w, enc (conv_block cin c k s g activation dch oact sk fe fn1 fa fd fn2) v = Ok w /\ is3 b (c * g) ((l - e) / s + 1) w.
Proof.
  intros (x & -> & Sx) Hl. cbn [enc conv_block]. unfold conv1d. rewrite Sx, Nat.eqb_refl. cbn [negb orb].
  destruct (excess_cases k Hk) as [E|E]; fold e in E; unfold e, excess in E, Hl;
  (destruct (Nat.ltb_spec (l + 2 * ((k - 1) / 2)) k); [lia|]; cbn [bind]; eexists; split; [reflexivity|]; eexists; split; [reflexivity|]; cbn [shape same_shape];
   do 3 f_equal; f_equal; unfold e, excess; f_equal; lia).
Qed.
Lemma enc_any B b cin c activation dch oact sk fe fn1 fa fd fn2 l (v w : value A) : B = conv_block cin c k s g activation dch oact sk fe fn1 fa fd fn2 ->
  (exists ci, is3 b ci l v) -> enc B v = Ok w -> is3 b (c * g) ((l - e) / s + 1) w /\ e <= l.
Proof using Hk Hs.
  intros -> [ci (x & -> & Sx)]. cbn [enc conv_block]. unfold conv1d. rewrite Sx.
  destruct (Nat.eqb_spec ci cin); cbn [negb orb]; [|discriminate].
  destruct (Nat.ltb_spec (l + 2 * ((k - 1) / 2)) k); [discriminate|]. cbn [bind]. intros [= <-].
  assert (e <= l) by (destruct (excess_cases k Hk) as [E|E]; fold e in E; unfold e, excess in *; lia).
  split; [|assumption]. eexists. split; [reflexivity|]. cbn [shape same_shape]. do 3 f_equal. f_equal. f_equal.
  destruct (excess_cases k Hk) as [E|E]; fold e in E; unfold e, excess in *; lia.
Qed.
Lemma lt_pos l : 1 <= l -> 1 <= (l - 1) * s + e.
Proof. intros. destruct (excess_cases k Hk) as [E|E]; fold e in E; nia. Qed.
Lemma dec_ok b cin c f dch oact sk fe fn1 fa fd fn2 l (v : value A) : sk = BaseSkip \/ sk = AddSkip -> is3 b (c * g) l v -> 1 <= l ->
  match oact with Some (ActFun _) | None => True | _ => False end ->
  exists w, dec (conv_block cin c k s g (ActFun f) dch oact (Some sk) fe fn1 fa fd fn2) v = Ok w /\ is3 b (first_decoder_channels cin dch) ((l - 1) * s + e) w.
Proof.
  intros Hsk (x & -> & Sx) Hl Ho. cbn [dec conv_block]. unfold conv_transpose1d. rewrite Sx.
  replace (get_out_channels sk (c * g)) with (c * g) by (destruct Hsk as [-> | ->]; reflexivity).
  rewrite Nat.eqb_refl. replace (l =? 0) with false by (symmetry; apply Nat.eqb_neq; lia). cbn [negb orb].
  destruct (Nat.leb_spec ((l - 1) * s + k) (2 * ((k - 1) / 2))).
  { exfalso. generalize dependent ((l - 1) * s). intros m Hm. destruct (excess_cases k Hk) as [E|E]; fold e in E; unfold e, excess in E; lia. }
  cbn [bind].
  assert (L : (l - 1) * s + k - 2 * ((k - 1) / 2) = (l - 1) * s + e).
  { generalize ((l - 1) * s). intros m. destruct (excess_cases k Hk) as [E|E]; fold e in E; unfold e, excess in *; lia. }
  destruct oact as [[h| |]|]; try contradiction; (eexists; split; [reflexivity|]; eexists; split; [reflexivity|]; cbn [shape same_shape]; rewrite L; reflexivity).
Qed.
Lemma dec_any B b cin c f dch oact sk fe fn1 fa fd fn2 l (v w : value A) : B = conv_block cin c k s g (ActFun f) dch oact sk fe fn1 fa fd fn2 ->
  match oact with Some (ActFun _) | None => True | _ => False end ->
  (exists ci, is3 b ci l v) -> dec B v = Ok w -> 1 <= l /\ exists co, is3 b co ((l - 1) * s + e) w.
Proof using Hk Hs.
  intros -> Ho [ci (x & -> & Sx)]. cbn [dec conv_block]. unfold conv_transpose1d. rewrite Sx.
  destruct (_ || _) eqn:G; [discriminate|]. apply orb_false_iff in G. destruct G as [G G3]. apply orb_false_iff in G. destruct G as [_ G2].
  apply Nat.eqb_neq in G2. cbn [bind].
  assert (L : (l - 1) * s + k - 2 * ((k - 1) / 2) = (l - 1) * s + e).
  { generalize ((l - 1) * s). intros m. destruct (excess_cases k Hk) as [E|E]; fold e in E; unfold e, excess in *; lia. }
  intros H. split; [lia|]. exists (first_decoder_channels cin dch). cbn [shape same_shape] in H.
  destruct oact as [[h| |]|]; try contradiction; cbn [call_act] in H; injection H as <-; (eexists; split; [reflexivity|]; cbn [shape same_shape]; fold (first_decoder_channels cin dch); rewrite <- L; reflexivity).
Qed.

End lengths.
Lemma match_any {A} (zero : A) (x : tensor A) b c n t : shape x = [b; c; n] ->
  exists y, match_size zero x (Z.of_nat t) = Ok y /\ shape y = [b; c; if t + 2 <=? n then 0 else t].
Proof.
  intros Sx. destruct (Nat.leb_spec (t + 2) n).
  - eapply match_size_crop_empty; eassumption.
  - destruct (Nat.le_gt_cases n t).
    + destruct (match_size_pad zero x b c n t Sx) as (y & E & Sy & _); [assumption|]. eauto.
    + assert (n = S t) by lia. subst. destruct (match_size_crop1 zero x b c t Sx) as (y & E & Sy & _). eauto.
Qed.
Lemma skip_any {A} (zero : A) add sk b c c2 n t (v st w : value A) : sk = BaseSkip \/ sk = AddSkip -> is3 b c n v -> is3 b c2 t st -> skip_v zero add sk v st = Ok w ->
  exists co, is3 b co (if t + 2 <=? n then 0 else t) w.
Proof.
  intros Hsk (x & -> & Sx) (y & -> & Sy) H. cbn [skip_v] in H. unfold skip_forward, ndim in H. rewrite Sy in H. cbn [length Nat.eqb last] in H.
  destruct (match_any zero x b c n t Sx) as (x' & E & Sx'). rewrite E in H. cbn [bind] in H.
  destruct Hsk as [-> | ->].
  - cbn in H. injection H as <-. exists c. eexists. split; [reflexivity|exact Sx'].
  - unfold bzip in H. rewrite Sx', Sy in H. unfold bshape in H. cbn [rev app bshape_rev] in H.
    destruct (t + 2 <=? n).
    + destruct (bdim 0 t) as [d|] eqn:D; cbn [bind] in H; [|discriminate].
      assert (d = 0). { unfold bdim in D. destruct (Nat.eqb_spec 0 t); [congruence|]. cbn in D. destruct (t =? 1); [congruence|discriminate]. }
      subst d. destruct (bdim c c2) as [cc|]; cbn [bind] in H; [|discriminate]. rewrite bdim_refl in H. cbn [bind rev app] in H.
      injection H as <-. exists cc. eexists. split; reflexivity.
    + rewrite bdim_refl in H. cbn [bind] in H. destruct (bdim c c2) as [cc|]; cbn [bind] in H; [|discriminate]. rewrite bdim_refl in H. cbn [bind rev app] in H.
      injection H as <-. exists cc. eexists. split; reflexivity.
Qed.

(** every block of the list is such a block *)
Definition conv_like {A} (k s g : nat) (B : block (value A)) : Prop :=
  exists cin c f dch oact sk fe fn1 fa fd fn2, B = conv_block cin c k s g (ActFun f) dch oact sk fe fn1 fa fd fn2 /\
    match oact with Some (ActFun _) | None => True | _ => False end.
Lemma blocks_like {A} k s g f h dch sk (ar : nat -> arith A) chans : forall i cin, Forall (conv_like k s g) (cae_blocks i cin chans k s g (ActFun f) (ActFun h) dch sk ar).
Proof.
  induction chans as [|c l IH]; intros i cin; cbn [cae_blocks]; constructor; [|apply IH].
  do 11 eexists. split; [reflexivity|]. destruct (i =? 0); exact Logic.I.
Qed.
Lemma blocks_length {A} k s g act h dch sk (ar : nat -> arith A) chans : forall i cin, length (cae_blocks i cin chans k s g act h dch sk ar) = length chans.
Proof. induction chans as [|c l IH]; intros i cin; cbn; auto. Qed.
Lemma like_enc {A} k s g (B : block (value A)) b c l v w : 1 <= k -> 1 <= s -> conv_like k s g B -> is3 b c l v -> enc B v = Ok w -> excess k <= l /\ exists c', is3 b c' ((l - excess k) / s + 1) w.
Proof. intros Hk Hs (cin & cc & f & dch & oact & sk & fe & fn1 & fa & fd & fn2 & EB & _) Hv E. destruct (enc_any k s g Hk Hs _ b _ _ _ _ _ _ _ _ _ _ _ l v w EB (ex_intro (fun ci => is3 b ci l v) c Hv) E). eauto. Qed.
Lemma like_dec {A} k s g (B : block (value A)) b c l v w : 1 <= k -> 1 <= s -> conv_like k s g B -> is3 b c l v -> dec B v = Ok w -> 1 <= l /\ exists c', is3 b c' ((l - 1) * s + excess k) w.
Proof. intros Hk Hs (cin & cc & f & dch & oact & sk & fe & fn1 & fa & fd & fn2 & EB & Ho) Hv E. exact (dec_any k s g Hk Hs _ b _ _ _ _ _ _ _ _ _ _ _ l v w EB Ho (ex_intro (fun ci => is3 b ci l v) c Hv) E). Qed.
Lemma chain_like {A} k s g (bs : list (block (value A))) b : 1 <= k -> 1 <= s -> Forall (conv_like k s g) bs -> forall c l v z, is3 b c l v -> enc_chain bs v = Ok z -> exists c' l', is3 b c' l' z.
Proof.
  intros Hk Hs. induction 1 as [|B bs HB _ IH]; intros c l v z Hv; cbn [enc_chain].
  - intros [= <-]. eauto.
  - destruct (enc B v) as [w|] eqn:E; cbn [bind]; [|discriminate]. destruct (like_enc _ _ _ _ _ _ _ _ _ Hk Hs HB Hv E) as [_ [c' Hw]]. eapply IH, Hw.
Qed.

Lemma chain_err_forward {V} (skip : V -> V -> res V) bs x e : enc_chain bs x = Err e -> is_err (ae_forward (Some skip) bs x).
Proof.
  intros H. cbn [ae_forward]. unfold ae_encode. destruct (ae_encode_states bs x) as [[z sts]|e'] eqn:E; [|eexists; reflexivity].
  apply ae_encode_states_spec in E. destruct E as (_ & E & _). congruence.
Qed.

(** ** four or more blocks *)
Lemma crop_arith s e l1 : 1 <= s -> 2 <= l1 -> (2 <= s /\ 1 <= e) \/ 2 <= e -> (l1 - e) / s + 1 + 2 <= (l1 - 1) * s + e.
Proof.
  intros Hs Hl H. pose proof (Nat.div_mod (l1 - e) s ltac:(lia)) as D. set (a := (l1 - e) / s) in *.
  assert (a * s <= l1 - e) by nia. assert (a <= a * s) by nia.
  destruct H as [[H He]|H]; [|nia].
  destruct (Nat.eq_dec a 0); [nia|]. assert (2 * a <= a * s) by nia. nia.
Qed.
Theorem conv_autoencoder_deep_refuted {A} (zero : A) add sk cin c0 c1 c2 c3 chans k s g f h dch (ar : nat -> arith A) x b l :
  shape x = [b; cin; l] -> 1 <= k -> 1 <= s -> (2 <= s \/ Nat.even k = true) -> s + 2 <= l -> (sk = BaseSkip \/ sk = AddSkip) ->
  is_err (cae_forward zero add (Some sk) (cae_create cin (c0 :: c1 :: c2 :: c3 :: chans) k s g (ActFun f) (Some (ActFun h)) dch (Some sk) ar) x).
Proof.
  intros Sx Hk Hs Hd Hl Hsk. unfold cae_forward, ndim. rewrite Sx. cbn [length Nat.eqb].
  unfold cae_create. set (bs := cae_blocks _ _ _ _ _ _ _ _ _ _ _).
  assert (L : 4 <= length bs) by (unfold bs; rewrite blocks_length; cbn; lia).
  assert (HB : Forall (conv_like k s g) bs) by apply blocks_like. clearbody bs.
  apply is_err_bind. intros v Hv. exfalso. cbn [option_map] in Hv.
  destruct (enc_chain bs (VT x)) as [z|er] eqn:Ez.
  2:{ destruct (chain_err_forward (skip_v zero add sk) _ _ _ Ez) as [e' E']. congruence. }
  assert (Hx : is3 b cin l (VT x)) by (exists x; auto).
  destruct (chain_like k s g bs b Hk Hs HB _ _ _ _ Hx Ez) as (cz & lz & Hz).
  destruct (autoencoder_forward_pairing (skip_v zero add sk) bs (VT x) z ltac:(destruct bs; cbn in L; [lia|discriminate]) Ez) as (sts & Ls & P & F).
  rewrite F in Hv. clear F.
  destruct sts as [|y0 [|y1 [|y2 sts]]]; try (cbn in Ls; lia).
  pose proof (P 0 y0 eq_refl) as P0. pose proof (P 1 y1 eq_refl) as P1.
  destruct bs as [|B0 [|B1 bs']]; try (cbn in L; lia).
  cbn [firstn enc_chain] in P0, P1.
  destruct (enc B0 (VT x)) as [w0|] eqn:E0; cbn [bind] in P0, P1; [|discriminate]. injection P0 as ->.
  destruct (enc B1 y0) as [w1|] eqn:E1; cbn [bind] in P1; [|discriminate]. injection P1 as ->.
  assert (HB' := HB). inversion HB' as [|? ? HB0 HB1]; subst. inversion HB1 as [|? ? HB1' _]; subst.
  destruct (like_enc _ _ _ _ _ _ _ _ _ Hk Hs HB0 Hx E0) as [G0 [d0 Y0]].
  destruct (like_enc _ _ _ _ _ _ _ _ _ Hk Hs HB1' Y0 E1) as [G1 [d1 Y1]].
  set (l1 := (l - excess k) / s + 1) in *. set (l2 := (l1 - excess k) / s + 1) in *.
  assert (Q : l2 + 2 <= (l1 - 1) * s + excess k).
  { apply crop_arith; [assumption| |].
    - unfold l1. destruct (excess_cases k Hk) as [E|E]; rewrite E in *; assert (1 <= (l - excess k) / s) by (apply Nat.div_le_lower_bound; rewrite ?E; lia); rewrite ?E in *; lia.
    - destruct Hd as [Hd|Hd]; [left|right].
      + split; [assumption|]. destruct (excess_cases k Hk); lia.
      + rewrite (proj2 (excess_parity k Hk) Hd). lia. }
  assert (HR : Forall (conv_like k s g) (rev (B0 :: B1 :: bs'))) by (apply Forall_rev, HB).
  assert (LR : length (rev (B0 :: B1 :: bs')) = length (B0 :: B1 :: bs')) by apply rev_length.
  set (r := rev (B0 :: B1 :: bs')) in *. rewrite <- LR in L. clearbody r.
  destruct r as [|D0 [|D1 [|D2 [|D3 r]]]]; try (cbn in L; lia).
  inversion HR as [|? ? HD0 HR1]; subst. inversion HR1 as [|? ? HD1 HR2]; subst. inversion HR2 as [|? ? HD2 HR3]; subst. inversion HR3 as [|? ? HD3 _]; subst.
  cbn [map combine run_pairs] in Hv.
  destruct (dec D0 z) as [u0|] eqn:U0; cbn [bind] in Hv; [|discriminate].
  destruct (like_dec _ _ _ _ _ _ _ _ _ Hk Hs HD0 Hz U0) as [_ [a0 A0]].
  destruct (dec D1 u0) as [u1|] eqn:U1; cbn [bind] in Hv; [|discriminate].
  destruct (like_dec _ _ _ _ _ _ _ _ _ Hk Hs HD1 A0 U1) as [_ [a1 A1]].
  destruct (skip_v zero add sk u1 y0) as [t1|] eqn:T1; cbn [bind] in Hv; [|discriminate].
  destruct (skip_any zero add sk _ _ _ _ _ _ _ _ Hsk A1 Y0 T1) as [b1 B1'].
  destruct (dec D2 t1) as [u2|] eqn:U2; cbn [bind] in Hv; [|discriminate].
  destruct (like_dec _ _ _ _ _ _ _ _ _ Hk Hs HD2 B1' U2) as [N2 [a2 A2]].
  match type of N2 with context [if ?q then _ else _] => destruct q; [lia|] end.
  destruct (skip_v zero add sk u2 y1) as [t2|] eqn:T2; cbn [bind] in Hv; [|discriminate].
  destruct (skip_any zero add sk _ _ _ _ _ _ _ _ Hsk A2 Y1 T2) as [b2 B2'].
  replace (l2 + 2 <=? (l1 - 1) * s + excess k) with true in B2' by (symmetry; apply Nat.leb_le, Q).
  destruct (dec D3 t2) as [u3|] eqn:U3; cbn [bind] in Hv; [|discriminate].
  destruct (like_dec _ _ _ _ _ _ _ _ _ Hk Hs HD3 B2' U3) as [N3 _]. lia.
Qed.

(** ** two and three blocks *)
Lemma empty_out {A} (zero : A) (r : tensor A) b c l : shape r = [b; c; 0] ->
  exists y, match_size zero r (Z.of_nat l) = Ok y /\ shape y = [b; c; l] /\ forall i ch j, i < b -> ch < c -> j < l -> get y [i; ch; j] = Some zero.
Proof.
  intros Sr. destruct (match_size_pad zero r b c 0 l Sr) as (y & E & Sy & G); [lia|]. exists y. split; [exact E|]. split; [exact Sy|].
  intros i ch j Hi Hc Hj. rewrite (G i ch j Hi Hc Hj). cbn zeta. match goal with |- context [(?u <=? j) && ?v] => destruct ((u <=? j) && v) eqn:Q end; [lia|reflexivity].
Qed.
Lemma base_skip {A} (zero : A) add b c c2 n t (v st : value A) : is3 b c n v -> is3 b c2 t st ->
  exists w, skip_v zero add BaseSkip v st = Ok w /\ is3 b c (if t + 2 <=? n then 0 else t) w.
Proof.
  intros (x & -> & Sx) (y & -> & Sy). cbn [skip_v]. unfold skip_forward, ndim. rewrite Sy. cbn [length Nat.eqb last].
  destruct (match_any zero x b c n t Sx) as (r & E & Sr). rewrite E. cbn. eexists. split; [reflexivity|]. exists r. auto.
Qed.
Lemma first_same c : first_decoder_channels c (Some c) = c.
Proof. cbn. destruct (Nat.eqb_spec c 0); congruence. Qed.

(** lengths of the first three encoder outputs *)
Lemma length_facts s e l : 1 <= s -> 1 <= e <= 2 -> 4 * s * s + 4 <= l ->
  let l1 := (l - e) / s + 1 in let l2 := (l1 - e) / s + 1 in let l3 := (l2 - e) / s + 1 in
  4 * s + 1 <= l1 /\ 4 <= l2 /\ 1 <= l3 /\ (l2 - 1) * s + e <= l1 /\ (l3 - 1) * s + e <= l2 /\
  (2 <= s -> l1 + 2 <= ((l2 - 1) * s + e - 1) * s + e).
Proof.
  intros Hs He Hl l1 l2 l3.
  assert (H1 : 4 * s <= (l - e) / s) by (apply Nat.div_le_lower_bound; nia).
  assert (L1 : 4 * s + 1 <= l1) by (unfold l1; lia). clearbody l1.
  pose proof (Nat.div_mod (l1 - e) s ltac:(lia)) as D. pose proof (Nat.mod_upper_bound (l1 - e) s ltac:(lia)) as M.
  assert (H2 : 3 <= (l1 - e) / s) by (apply Nat.div_le_lower_bound; nia).
  unfold l2 in *. set (a := (l1 - e) / s) in *. replace (a + 1 - 1) with a by lia.
  pose proof (Nat.mul_div_le (a + 1 - e) s ltac:(lia)) as D3.
  assert (l3 - 1 = (a + 1 - e) / s) by (unfold l3, l2; lia).
  split; [exact L1|]. split; [lia|]. split; [unfold l3; lia|].
  split; [clear - D L1 He Hs; rewrite (Nat.mul_comm s a) in D; generalize dependent (a * s); intros; lia|].
  split; [rewrite H, Nat.mul_comm; clear - D3 He H2; generalize dependent (s * ((a + 1 - e) / s)); intros; lia|].
  intros S2.
  assert (X : (a * s + e - 1) * s = a * s * s + (e - 1) * s) by (replace (a * s + e - 1) with (a * s + (e - 1)) by lia; ring).
  rewrite X. assert (P1 : 2 * (a * s) <= a * s * s) by (rewrite (Nat.mul_comm 2); apply Nat.mul_le_mono_l, S2).
  assert (P2 : 3 * s <= a * s) by (apply Nat.mul_le_mono_r, H2). rewrite (Nat.mul_comm s a) in D.
  clear - D M P1 P2 He S2. generalize dependent (a * s * s). generalize dependent (a * s). generalize ((e - 1) * s). intros; lia.
Qed.

Theorem conv_autoencoder_two_zero {A} (zero : A) add cin c0 c1 k s g f h dch (ar : nat -> arith A) x b l :
  shape x = [b; cin; l] -> 1 <= k -> 2 <= s -> 4 * s * s + 4 <= l ->
  exists y, cae_forward zero add (Some BaseSkip) (cae_create cin [c0; c1] k s g (ActFun f) (Some (ActFun h)) dch (Some BaseSkip) ar) x = Ok y /\
    shape y = [b; first_decoder_channels cin dch; l] /\
    forall i ch j, i < b -> ch < first_decoder_channels cin dch -> j < l -> get y [i; ch; j] = Some zero.
Proof.
  intros Sx Hk Hs Hl. assert (Hs1 : 1 <= s) by lia.
  assert (He : 1 <= excess k <= 2) by (destruct (excess_cases k Hk); lia).
  destruct (length_facts s (excess k) l Hs1 He Hl) as (F1 & F2 & F3 & F4 & F5 & F6). specialize (F6 Hs).
  set (l1 := (l - excess k) / s + 1) in *. set (l2 := (l1 - excess k) / s + 1) in *.
  assert (Q0 : excess k <= l) by (pose proof (Nat.le_0_l (4 * s * s)); lia).
  assert (Q1 : excess k <= l1) by lia.
  assert (QU : forall m, 1 <= (m - 1) * s + excess k) by (intros m; pose proof (Nat.le_0_l ((m - 1) * s)); lia).
  unfold cae_forward, ndim. rewrite Sx. cbn [length Nat.eqb last]. unfold cae_create. cbn [cae_blocks Nat.eqb option_map].
  match goal with |- context [ae_forward _ [?u; ?v] _] => set (B0 := u); set (B1 := v) end.
  assert (Hx : is3 b cin l (VT x)) by (exists x; auto).
  destruct (enc_ok k s g Hk Hs1 b cin c0 (ActFun f) dch (Some (ActFun h)) (Some BaseSkip) (a_enc (ar 0)) (a_n1 (ar 0)) (a_act (ar 0)) (a_dec (ar 0)) (a_n2 (ar 0)) l (VT x) Hx Q0) as (y0 & E0 & Y0).
  destruct (enc_ok k s g Hk Hs1 b (c0 * g) c1 (ActFun f) (Some (c0 * g)) None (Some BaseSkip) (a_enc (ar 1)) (a_n1 (ar 1)) (a_act (ar 1)) (a_dec (ar 1)) (a_n2 (ar 1)) l1 y0 Y0 Q1) as (y1 & E1 & Y1).
  change (enc B0 (VT x) = Ok y0) in E0. change (enc B1 y0 = Ok y1) in E1. change (is3 b (c0 * g) l1 y0) in Y0. change (is3 b (c1 * g) l2 y1) in Y1. clearbody l2. clearbody l1.
  assert (Ez : enc_chain [B0; B1] (VT x) = Ok y1) by (cbn [enc_chain]; rewrite E0; cbn [bind]; rewrite E1; reflexivity).
  destruct (autoencoder_forward_pairing (skip_v zero add BaseSkip) [B0; B1] (VT x) y1 ltac:(discriminate) Ez) as (sts & Ls & P & F).
  rewrite F. clear F. destruct sts as [|t0 [|]]; try (cbn in Ls; lia).
  pose proof (P 0 t0 eq_refl) as P0. cbn [firstn enc_chain] in P0. rewrite E0 in P0. cbn [bind] in P0. injection P0 as <-.
  cbn [rev app map combine run_pairs].
  destruct (dec_ok k s g Hk Hs1 b (c0 * g) c1 f (Some (c0 * g)) None BaseSkip (a_enc (ar 1)) (a_n1 (ar 1)) (a_act (ar 1)) (a_dec (ar 1)) (a_n2 (ar 1)) l2 y1 ltac:(auto) Y1 ltac:(lia) Logic.I) as (u0 & D0 & U0).
  change (dec B1 y1 = Ok u0) in D0. rewrite D0. cbn [bind]. rewrite first_same in U0.
  destruct (dec_ok k s g Hk Hs1 b cin c0 f dch (Some (ActFun h)) BaseSkip (a_enc (ar 0)) (a_n1 (ar 0)) (a_act (ar 0)) (a_dec (ar 0)) (a_n2 (ar 0)) _ u0 ltac:(auto) U0 (QU _) Logic.I) as (u1 & D1 & U1).
  change (dec B0 u0 = Ok u1) in D1. rewrite D1. cbn [bind].
  destruct (base_skip zero add _ _ _ _ _ _ _ U1 Y0) as (w & W & (r & -> & Sr)). rewrite W. cbn [bind match_size_v].
  replace (l1 + 2 <=? _) with true in Sr by (symmetry; apply Nat.leb_le, F6).
  apply empty_out, Sr.
Qed.

Theorem conv_autoencoder_three_zero {A} (zero : A) add cin c0 c1 c2 k s g f h dch (ar : nat -> arith A) x b l :
  shape x = [b; cin; l] -> 1 <= k -> 1 <= s -> (2 <= s \/ Nat.even k = true) -> 4 * s * s + 4 <= l ->
  exists y, cae_forward zero add (Some BaseSkip) (cae_create cin [c0; c1; c2] k s g (ActFun f) (Some (ActFun h)) dch (Some BaseSkip) ar) x = Ok y /\
    shape y = [b; first_decoder_channels cin dch; l] /\
    forall i ch j, i < b -> ch < first_decoder_channels cin dch -> j < l -> get y [i; ch; j] = Some zero.
Proof.
  intros Sx Hk Hs1 Hd Hl.
  assert (He : 1 <= excess k <= 2) by (destruct (excess_cases k Hk); lia).
  destruct (length_facts s (excess k) l Hs1 He Hl) as (F1 & F2 & F3 & F4 & F5 & _).
  set (l1 := (l - excess k) / s + 1) in *. set (l2 := (l1 - excess k) / s + 1) in *. set (l3 := (l2 - excess k) / s + 1) in *.
  assert (Q : l2 + 2 <= (l1 - 1) * s + excess k).
  { apply crop_arith; [assumption|lia|]. destruct Hd as [Hd|Hd]; [left; lia|right]. rewrite (proj2 (excess_parity k Hk) Hd). lia. }
  assert (Q0 : excess k <= l) by (pose proof (Nat.le_0_l (4 * s * s)); lia).
  assert (Q1 : excess k <= l1) by lia.
  assert (QU : forall m, 1 <= (m - 1) * s + excess k) by (intros m; pose proof (Nat.le_0_l ((m - 1) * s)); lia).
  assert (Q3 : ((l3 - 1) * s + excess k - 1) * s + excess k < l1 + 2).
  { assert (M : ((l3 - 1) * s + excess k - 1) * s <= (l2 - 1) * s) by (apply Nat.mul_le_mono_r; lia). lia. }
  unfold cae_forward, ndim. rewrite Sx. cbn [length Nat.eqb last]. unfold cae_create. cbn [cae_blocks Nat.eqb option_map].
  match goal with |- context [ae_forward _ [?u; ?v; ?w] _] => set (B0 := u); set (B1 := v); set (B2 := w) end.
  assert (Hx : is3 b cin l (VT x)) by (exists x; auto).
  destruct (enc_ok k s g Hk Hs1 b cin c0 (ActFun f) dch (Some (ActFun h)) (Some BaseSkip) (a_enc (ar 0)) (a_n1 (ar 0)) (a_act (ar 0)) (a_dec (ar 0)) (a_n2 (ar 0)) l (VT x) Hx Q0) as (y0 & E0 & Y0).
  destruct (enc_ok k s g Hk Hs1 b (c0 * g) c1 (ActFun f) (Some (c0 * g)) None (Some BaseSkip) (a_enc (ar 1)) (a_n1 (ar 1)) (a_act (ar 1)) (a_dec (ar 1)) (a_n2 (ar 1)) l1 y0 Y0 Q1) as (y1 & E1 & Y1).
  destruct (enc_ok k s g Hk Hs1 b (c1 * g) c2 (ActFun f) (Some (c1 * g)) None (Some BaseSkip) (a_enc (ar 2)) (a_n1 (ar 2)) (a_act (ar 2)) (a_dec (ar 2)) (a_n2 (ar 2)) l2 y1 Y1 ltac:(lia)) as (y2 & E2 & Y2).
  change (enc B0 (VT x) = Ok y0) in E0. change (enc B1 y0 = Ok y1) in E1. change (enc B2 y1 = Ok y2) in E2.
  change (is3 b (c0 * g) l1 y0) in Y0. change (is3 b (c1 * g) l2 y1) in Y1. change (is3 b (c2 * g) l3 y2) in Y2. clearbody l3. clearbody l2. clearbody l1.
  assert (Ez : enc_chain [B0; B1; B2] (VT x) = Ok y2) by (cbn [enc_chain]; rewrite E0; cbn [bind]; rewrite E1; cbn [bind]; rewrite E2; reflexivity).
  destruct (autoencoder_forward_pairing (skip_v zero add BaseSkip) [B0; B1; B2] (VT x) y2 ltac:(discriminate) Ez) as (sts & Ls & P & F).
  rewrite F. clear F. destruct sts as [|t0 [|t1 [|]]]; try (cbn in Ls; lia).
  pose proof (P 0 t0 eq_refl) as P0. cbn [firstn enc_chain] in P0. rewrite E0 in P0. cbn [bind] in P0. injection P0 as <-.
  pose proof (P 1 t1 eq_refl) as P1. cbn [firstn enc_chain] in P1. rewrite E0 in P1. cbn [bind] in P1. rewrite E1 in P1. cbn [bind] in P1. injection P1 as <-.
  cbn [rev app map combine run_pairs].
  destruct (dec_ok k s g Hk Hs1 b (c1 * g) c2 f (Some (c1 * g)) None BaseSkip (a_enc (ar 2)) (a_n1 (ar 2)) (a_act (ar 2)) (a_dec (ar 2)) (a_n2 (ar 2)) l3 y2 ltac:(auto) Y2 ltac:(lia) Logic.I) as (u0 & D0 & U0).
  change (dec B2 y2 = Ok u0) in D0. rewrite D0. cbn [bind]. rewrite first_same in U0.
  destruct (dec_ok k s g Hk Hs1 b (c0 * g) c1 f (Some (c0 * g)) None BaseSkip (a_enc (ar 1)) (a_n1 (ar 1)) (a_act (ar 1)) (a_dec (ar 1)) (a_n2 (ar 1)) _ u0 ltac:(auto) U0 (QU _) Logic.I) as (u1 & D1 & U1).
  change (dec B1 u0 = Ok u1) in D1. rewrite D1. cbn [bind]. rewrite first_same in U1.
  destruct (base_skip zero add _ _ _ _ _ _ _ U1 Y0) as (v1 & V1 & H1). rewrite V1. cbn [bind].
  match type of H1 with context [if ?q then _ else _] => replace q with false in H1 by (symmetry; apply Nat.leb_gt, Q3) end.
  destruct (dec_ok k s g Hk Hs1 b cin c0 f dch (Some (ActFun h)) BaseSkip (a_enc (ar 0)) (a_n1 (ar 0)) (a_act (ar 0)) (a_dec (ar 0)) (a_n2 (ar 0)) _ v1 ltac:(auto) H1 ltac:(lia) Logic.I) as (u2 & D2 & U2).
  change (dec B0 v1 = Ok u2) in D2. rewrite D2. cbn [bind].
  destruct (base_skip zero add _ _ _ _ _ _ _ U2 Y1) as (w & W & (r & -> & Sr)). rewrite W. cbn [bind match_size_v].
  replace (l2 + 2 <=? _) with true in Sr by (symmetry; apply Nat.leb_le, Q).
  apply empty_out, Sr.
Qed.

(** non-vacuity: kernel 3, stride 2, 20 samples *)
Example conv_autoencoder_zero_nonvacuous : 1 <= 3 /\ 2 <= 2 /\ 4 * 2 * 2 + 4 <= 20 /\ shape (mk [1; 1; 20] (fun _ => 1)) = [1; 1; 20].
Proof. repeat split; lia. Qed.
