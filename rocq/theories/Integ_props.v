(** Properties C42 (TophatIntegrator) and C43 (LeakyIntegrator). *)
From Coq Require Import String.
From Verif Require Import Base Tensor Rutil Bcast Slicing_model Slicing_proofs Autoenc_model Norm_model Dft Gw_model Snr_props Whiten_props Trans_model.
Local Open Scope R_scope.

(** ** C43 *)
(** one step of the leaky accumulator: add the increment, or subtract the decay, and clip from below *)
Definition leak_delta (m : leaky) (v : R) : R :=
  if Rle_dec (lk_threshold m) v then (if lk_count m then 1 else v) else - lk_decay m.
Definition leak_step (m : leaky) (acc v : R) : R := Rmax (lk_lower m) (acc + leak_delta m v).
(** the accumulator after samples 0 .. t, started at y0 *)
Fixpoint leak (m : leaky) (y0 : R) (x : nat -> R) (t : nat) : R :=
  leak_step m (match t with O => y0 | S t' => leak m y0 x t' end) (x t).

Lemma leak_cummin m x t :
  Rsum (S t) (fun j => leak_delta m (x j)) - Rmin (cummin (fun j => Rsum (S j) (fun j => leak_delta m (x j)) - lk_lower m) t) (lk_lower m) = leak m (- lk_lower m) x t.
Proof.
  set (S := fun j => Rsum (S j) (fun j => leak_delta m (x j))). set (l := lk_lower m).
  assert (MR : forall a b c, a - Rmin b c = Rmax (a - b) (a - c)).
  { intros a b c. unfold Rmin, Rmax. destruct (Rle_dec b c), (Rle_dec (a - b) (a - c)); lra. }
  change (S t - Rmin (cummin (fun j => S j - l) t) l = leak m (- l) x t). induction t as [|t IH].
  - cbn [cummin leak]. rewrite MR. unfold leak_step. fold l. replace (S 0%nat - (S 0%nat - l)) with l by ring. f_equal. unfold S. cbn. ring.
  - cbn [cummin leak]. rewrite <- IH. unfold leak_step. fold l.
    assert (E : S (Datatypes.S t) = S t + leak_delta m (x (Datatypes.S t))) by reflexivity. rewrite E.
    set (d := leak_delta m (x (Datatypes.S t))). set (c := cummin (fun j => S j - l) t). generalize (S t). intros s.
    clearbody c d l. clear - c d l s. unfold Rmin, Rmax. destruct (Rle_dec c (s + d - l)), (Rle_dec c l); repeat match goal with |- context [Rle_dec ?a ?b] => destruct (Rle_dec a b) end; lra.
Qed.
Theorem leaky_spec m x pre T : shape x = pre ++ [T] -> (0 < T)%nat ->
  exists r, leaky_forward m x = Ok r /\ shape r = shape x /\
  forall p t, inb p pre -> (t < T)%nat -> get r (p ++ [t]) = Some (leak m (- lk_lower m) (fun t => elt x (p ++ [t])) t).
Proof.
  intros Sx HT. unfold leaky_forward. destruct (shape x) as [|d0 sx0] eqn:Ex; [destruct pre; discriminate|]. rewrite <- Ex in *. clear Ex d0 sx0.
  unfold bzip. cbn [shape cumsum_last cummin_last tmap]. rewrite bshape_self. cbn [bind]. eexists. split; [reflexivity|]. split; [reflexivity|].
  intros p t Hp Ht. assert (I0 : inb (p ++ [t]) (shape x)) by (rewrite Sx; apply inb_app; [assumption|cbn; auto]).
  rewrite get_inb by exact I0. f_equal. cbn [elt]. rewrite bidx_self by assumption. cbn [elt cumsum_last cummin_last tmap]. rewrite !last_last, !removelast_last.
  rewrite <- leak_cummin. f_equal.
  - apply Rsum_ext. intros j Hj. unfold leak_delta. destruct (Rle_dec (lk_threshold m) (elt x (p ++ [j]))); [|reflexivity]. destruct (lk_count m); reflexivity.
  - f_equal.
    assert (CE : forall f g t, (forall j, (j <= t)%nat -> f j = g j) -> cummin f t = cummin g t).
    { clear. intros f g t. induction t as [|t IH]; intros H; cbn [cummin]; [apply H; lia|]. rewrite IH, (H (S t)) by (intros; try apply H; lia). reflexivity. }
    apply CE. intros j Hj. rewrite last_last, removelast_last. f_equal. apply Rsum_ext. intros k Hk.
    unfold leak_delta. destruct (Rle_dec (lk_threshold m) (elt x (p ++ [k]))); [|reflexivity]. destruct (lk_count m); reflexivity.
Qed.
(** a 0-d tensor is a series of one sample *)
Theorem leaky_scalar m x : shape x = [] -> exists r, leaky_forward m x = Ok r /\ shape r = [] /\ get r [] = Some (leak m (- lk_lower m) (fun _ => elt x []) 0).
Proof.
  intros Sx. unfold leaky_forward. rewrite Sx. eexists. split; [reflexivity|]. split; [reflexivity|]. rewrite get_inb by exact I. f_equal. cbn [elt].
  rewrite <- leak_cummin. cbn [cummin Rsum]. unfold leak_delta. rewrite !Rplus_0_l. reflexivity.
Qed.
(** the documented accumulator starts at 0 and is clipped at the lower bound: true for lower_bound = 0 *)
Theorem leaky_zero_bound m x pre T : lk_lower m = 0 -> shape x = pre ++ [T] -> (0 < T)%nat ->
  exists r, leaky_forward m x = Ok r /\ shape r = shape x /\
  forall p t, inb p pre -> (t < T)%nat -> get r (p ++ [t]) = Some (leak m 0 (fun t => elt x (p ++ [t])) t).
Proof.
  intros L Sx HT. destruct (leaky_spec m x pre T Sx HT) as [r [E [Sr G]]]. exists r. split; [assumption|]. split; [assumption|].
  intros p t Hp Ht. rewrite G by assumption. rewrite L, Ropp_0. reflexivity.
Qed.
(** never below the bound *)
Theorem leaky_bounded m x pre T r : shape x = pre ++ [T] -> (0 < T)%nat -> leaky_forward m x = Ok r ->
  forall p t v, get r (p ++ [t]) = Some v -> inb p pre -> (t < T)%nat -> lk_lower m <= v.
Proof.
  intros Sx HT E p t v Gv Hp Ht. destruct (leaky_spec m x pre T Sx HT) as [r' [E' [_ G]]]. rewrite E in E'. injection E' as <-.
  rewrite G in Gv by assumption. injection Gv as <-. destruct t; cbn [leak]; apply Rmax_l.
Qed.
(** continuing: the accumulator over x restarted at its value after n samples agrees with the accumulator over all of x *)
Theorem leaky_resume m y0 x n t : leak m y0 x (S n + t) = leak m (leak m y0 x n) (fun j => x (S n + j)%nat) t.
Proof.
  induction t as [|t IH].
  - rewrite Nat.add_0_r. cbn [leak]. rewrite Nat.add_0_r. reflexivity.
  - rewrite Nat.add_succ_r. cbn [leak]. change (S (n + t)) with (S n + t)%nat. rewrite IH. replace (S (S n + t)) with (S n + S t)%nat by lia. reflexivity.
Qed.
(** FINDING: with a non-zero bound the accumulator starts at minus the bound: with lower_bound = -5, counting, the first
    sample above threshold yields 6 rather than 1 *)
Theorem leaky_negative_bound_refuted thr dec : exists m, leaky_create thr dec (-5) "count" = Ok m /\
  forall x T r, shape x = [S T] -> thr <= elt x [0%nat] -> leaky_forward m x = Ok r -> get r [0%nat] = Some 6.
Proof.
  eexists. split; [reflexivity|]. intros x T r Sx Hx E. set (m := mkleaky thr dec (-5) true) in *.
  destruct (leaky_spec m x [] (S T) Sx ltac:(lia)) as [r' [E' [_ G]]].
  assert (r' = r) by congruence. subst r'. specialize (G [] 0%nat I ltac:(lia)). cbn [app] in G. rewrite G. f_equal.
  unfold m. cbn [leak]. unfold leak_step, leak_delta. cbn [lk_threshold lk_lower lk_count lk_decay].
  destruct (Rle_dec thr (elt x [0%nat])); [|contradiction]. unfold Rmax. destruct (Rle_dec _ _); lra.
Qed.
(** end to end, in terms of the constructor's arguments only: the output y of a row x satisfies
    y(0) = max(lower, d(0) - lower) and y(t+1) = max(lower, y(t) + d(t+1)), where d(t) is -decay below the threshold and otherwise 1
    for integrate_value="count" and x(t) for "score" *)
Theorem leaky_recursion thr dec lb v m x pre T : leaky_create thr dec lb v = Ok m -> shape x = pre ++ [T] -> (0 < T)%nat ->
  exists r, leaky_forward m x = Ok r /\ shape r = shape x /\
  forall p, inb p pre -> exists y d : nat -> R, (forall t, (t < T)%nat -> get r (p ++ [t]) = Some (y t)) /\
    y 0%nat = Rmax lb (d 0%nat - lb) /\ (forall t, y (S t) = Rmax lb (y t + d (S t))) /\
    (forall t, elt x (p ++ [t]) < thr -> d t = - dec) /\
    (forall t, thr <= elt x (p ++ [t]) -> v = "count"%string -> d t = 1) /\ (forall t, thr <= elt x (p ++ [t]) -> v = "score"%string -> d t = elt x (p ++ [t])).
Proof.
  intros E Sx HT. destruct (leaky_spec m x pre T Sx HT) as [r [Er [Sr G]]]. exists r. split; [exact Er|]. split; [exact Sr|]. intros p Hp.
  exists (leak m (- lk_lower m) (fun t => elt x (p ++ [t]))), (fun t => leak_delta m (elt x (p ++ [t]))). split; [auto|].
  assert (F : lk_threshold m = thr /\ lk_decay m = dec /\ lk_lower m = lb /\ ((v = "count"%string /\ lk_count m = true) \/ (v = "score"%string /\ lk_count m = false))).
  { unfold leaky_create in E. destruct (string_dec v "count") as [->|N]; [injection E as <-; cbn; tauto|]. destruct (string_dec v "score") as [->|N']; [injection E as <-; cbn; tauto|discriminate]. }
  destruct F as [F1 [F2 [F3 F4]]]. cbn [leak]. unfold leak_step. rewrite F3. split; [f_equal; ring|]. split; [reflexivity|]. unfold leak_delta. rewrite F1, F2. split; [|split].
  - intros t Ht. destruct (Rle_dec thr _); [lra|reflexivity].
  - intros t Ht Hv. destruct (Rle_dec thr _); [|lra]. destruct F4 as [[_ ->]|[Hv' _]]; [reflexivity|congruence].
  - intros t Ht Hv. destruct (Rle_dec thr _); [|lra]. destruct F4 as [[Hv' _]|[_ ->]]; [congruence|reflexivity].
Qed.
Theorem leaky_create_iff thr dec lb v : is_ok (leaky_create thr dec lb v) <-> v = "count"%string \/ v = "score"%string.
Proof.
  unfold leaky_create. destruct (string_dec v "count") as [->|N]; [split; [auto|intros _; eexists; reflexivity]|].
  destruct (string_dec v "score") as [->|N']; [split; [auto|intros _; eexists; reflexivity]|].
  split; [intros [? ?]; discriminate|]. intros [H|H]; contradiction.
Qed.

(** ** C42 *)
Lemma ravel_app s1 i1 s2 i2 : List.length i1 = List.length s1 -> ravel (s1 ++ s2) (i1 ++ i2) = (ravel s1 i1 * prod s2 + ravel s2 i2)%nat.
Proof.
  revert i1. induction s1 as [|d s1 IH]; intros [|x i1] H; cbn in *; try discriminate; [lia|]. rewrite IH by lia. rewrite prod_app. lia.
Qed.
Theorem tophat_spec W x pre L : shape x = pre ++ [L] -> (0 < L)%nat -> (0 < W)%nat ->
  exists r, tophat W x = Ok r /\ shape r = shape x /\
  forall p t, inb p pre -> (t < L)%nat -> get r (p ++ [t]) = Some (Rsum W (fun j => if (j <=? t)%nat then elt x (p ++ [(t - j)%nat]) else 0) / INR W).
Proof.
  intros Sx HL HW. unfold tophat. destruct (shape x) as [|d0 sx0] eqn:Ex; [destruct pre; discriminate|]. rewrite <- Ex in *. clear Ex d0 sx0.
  rewrite Sx, last_last. unfold reshape, infer_dims. cbn [existsb map filter negb]. replace (Z.of_nat L =? -1)%Z with false by lia. replace (Z.of_nat L <? -1)%Z with false by lia.
  change (-1 =? -1)%Z with true. change (1 =? -1)%Z with false. change (-1 <? -1)%Z with false. change (1 <? -1)%Z with false. cbn [orb negb List.length map prod]. rewrite Nat2Z.id.
  change (Z.to_nat 1) with 1%nat. rewrite Nat.mul_1_r, Nat.mul_1_l. replace (L =? 0)%nat with false by lia.
  unfold numel at 1 2. rewrite Sx, prod_app. cbn [prod]. rewrite Nat.mul_1_r, Nat.mod_mul, Nat.div_mul by lia. cbn [Nat.eqb bind].
  unfold reshape_to at 1. unfold numel. rewrite Sx, prod_app. cbn [prod]. rewrite !Nat.mul_1_r, Nat.mul_1_l, Nat.eqb_refl. cbn [bind].
  unfold conv1d_1, pad_last. cbn [shape removelast last app].
  replace ((W - 1 + L + 0 <? W)%nat) with false by lia. replace (W =? 0)%nat with false by lia. cbn [orb negb Nat.eqb].
  unfold reshape_to, numel. cbn [shape bind]. rewrite prod_app. cbn [prod]. replace ((prod pre * (L * 1) =? prod pre * (1 * ((W - 1 + L + 0 - W + 1) * 1)))%nat) with true by (symmetry; apply Nat.eqb_eq; nia).
  eexists. split; [reflexivity|]. split; [reflexivity|]. intros p t Hp Ht.
  rewrite get_inb by (cbn [shape]; apply inb_app; [assumption|cbn; auto]). f_equal. cbn [elt].
  assert (LL : (W - 1 + L + 0 - W + 1 = L)%nat) by lia. rewrite LL.
  assert (Rp := ravel_lt pre p Hp).
  assert (U : unravel [prod pre; 1; L]%nat (ravel (pre ++ [L]) (p ++ [t])) = [ravel pre p; 0; t]%nat).
  { rewrite ravel_app by (apply inb_length, Hp). cbn [ravel prod]. rewrite Nat.mul_1_r, Nat.add_0_r.
    transitivity (unravel [prod pre; 1; L]%nat (ravel [prod pre; 1; L]%nat [ravel pre p; 0; t]%nat)); [f_equal; cbn; lia|].
    apply unravel_ravel. cbn. lia. }
  rewrite U. unfold Rdiv. rewrite <- Rsum_scal_r. rewrite <- (Rsum_rev W). apply Rsum_ext. intros j Hj. cbn [last removelast app].
  replace (W - 1 <=? t + (W - 1 - j))%nat with (j <=? t)%nat by (destruct (Nat.leb_spec j t), (Nat.leb_spec (W - 1) (t + (W - 1 - j))); lia).
  destruct (Nat.leb_spec j t) as [H|H]; [|rewrite andb_false_l; ring].
  replace (t + (W - 1 - j) <? W - 1 + L)%nat with true by lia. cbn [andb]. rewrite Rmult_1_l. f_equal.
  f_equal. replace (t + (W - 1 - j) - (W - 1))%nat with (t - j)%nat by lia.
  assert (R0 : ravel [prod pre; 1; L]%nat [ravel pre p; 0; t - j]%nat = ravel (pre ++ [L]) (p ++ [(t - j)%nat])).
  { rewrite ravel_app by (apply inb_length, Hp). cbn. lia. }
  rewrite R0. apply unravel_ravel. apply inb_app; [assumption|cbn; lia].
Qed.
(** the window: integration_length seconds plus one sample *)
Theorem tophat_window_spec sr len n : INR n <= sr * len < INR n + 1 -> tophat_window sr len = Z.of_nat (n + 1).
Proof. intros H. unfold tophat_window. rewrite (rtrunc_nonneg _ n H). lia. Qed.
(** once the window is full a constant is reproduced; before, it is scaled by the fraction of the window that is filled *)
Theorem tophat_constant W x pre L c : shape x = pre ++ [L] -> (0 < L)%nat -> (0 < W)%nat -> (forall i, elt x i = c) ->
  exists r, tophat W x = Ok r /\ forall p t, inb p pre -> (t < L)%nat -> get r (p ++ [t]) = Some (c * (INR (Nat.min W (t + 1)) / INR W)).
Proof.
  intros Sx HL HW Hc. destruct (tophat_spec W x pre L Sx HL HW) as [r [E [_ G]]]. exists r. split; [assumption|]. intros p t Hp Ht.
  rewrite G by assumption. f_equal. unfold Rdiv. rewrite <- Rmult_assoc. f_equal.
  rewrite (Rsum_ext W _ (fun j => if (j <=? t)%nat then c else 0)) by (intros; rewrite Hc; reflexivity).
  clear - c. induction W as [|W IH]; [cbn; ring|]. cbn [Rsum]. rewrite IH. destruct (Nat.leb_spec W t).
  - replace (Nat.min W (t + 1)) with W by lia. replace (Nat.min (S W) (t + 1)) with (S W) by lia. rewrite S_INR. ring.
  - replace (Nat.min W (t + 1)) with (t + 1)%nat by lia. replace (Nat.min (S W) (t + 1)) with (t + 1)%nat by lia. ring.
Qed.
(** the output at t depends on the samples t - W + 1 .. t only *)
Theorem tophat_causal W x y pre L rx ry : shape x = pre ++ [L] -> shape y = pre ++ [L] -> (0 < L)%nat -> (0 < W)%nat ->
  tophat W x = Ok rx -> tophat W y = Ok ry -> forall p t, inb p pre -> (t < L)%nat ->
  (forall s, (s <= t < s + W)%nat -> elt x (p ++ [s]) = elt y (p ++ [s])) -> get rx (p ++ [t]) = get ry (p ++ [t]).
Proof.
  intros Sx Sy HL HW Ex Ey p t Hp Ht H.
  destruct (tophat_spec W x pre L Sx HL HW) as [r [E [_ G]]]. destruct (tophat_spec W y pre L Sy HL HW) as [r' [E' [_ G']]].
  assert (r = rx) by congruence. assert (r' = ry) by congruence. subst. rewrite G, G' by assumption. f_equal. f_equal. apply Rsum_ext. intros j Hj.
  destruct (Nat.leb_spec j t); [|reflexivity]. apply H. lia.
Qed.

(** ** non-vacuity *)
Example tophat_ex : exists r, tophat 3 (mk [2; 4]%nat (fun i => INR (last i 0%nat))) = Ok r /\ get r [1; 3]%nat = Some 2.
Proof.
  destruct (tophat_spec 3 (mk [2; 4]%nat (fun i => INR (last i 0%nat))) [2%nat] 4 eq_refl) as [r [E [_ G]]]; try lia.
  exists r. split; [assumption|]. change [1; 3]%nat with ([1] ++ [3])%nat. rewrite G by (cbn; lia). f_equal. cbn [Rsum elt last app]. change (0 <=? 3)%nat with true. change (1 <=? 3)%nat with true. change (2 <=? 3)%nat with true. cbn. field.
Qed.
Example leaky_ex : exists m r, leaky_create 1 (1/2) 0 "score" = Ok m /\ leaky_forward m (mk [3%nat] (fun i => nth (hd 0%nat i) [2; 0; 0] 0)) = Ok r /\ get r [2%nat] = Some 1.
Proof.
  eexists. destruct (leaky_zero_bound (mkleaky 1 (1/2) 0 false) (mk [3%nat] (fun i => nth (hd 0%nat i) [2; 0; 0] 0)) [] 3 eq_refl eq_refl) as [r [E [_ G]]]; [lia|].
  exists r. split; [reflexivity|]. split; [assumption|]. specialize (G [] 2%nat I ltac:(lia)). cbn [app] in G. rewrite G. f_equal.
  cbn. unfold leak_step, leak_delta. cbn.
  destruct (Rle_dec 1 2); [|lra]. destruct (Rle_dec 1 0); [lra|].
  rewrite (Rmax_right 0 (0 + 2)), (Rmax_right 0 (0 + 2 + _)), Rmax_right by lra. lra.
Qed.
