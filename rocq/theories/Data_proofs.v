(** Lemmas about the in-memory dataset. *)
From Coq Require Import Permutation.
From Verif Require Import Base Tensor Slicing_model Slicing_spec Slicing_proofs Slicing_proofs2 Data_spec Data_model.

Section IM.
Context {A : Type}.
Variables (d : imd A) (C T k bs s : nat).
Hypothesis HX : shape (im_X d) = [C; T].
Hypothesis HC : 0 < C.
Hypothesis Hk : 0 < k.
Hypothesis HkT : k <= T.
Hypothesis Hbs : 0 < bs.
Hypothesis Hs : 0 < s.
Hypothesis Ek : im_kernel d = Z.of_nat k.
Hypothesis Eb : im_batch d = Z.of_nat bs.
Hypothesis Es : im_stride d = Z.of_nat s.
Hypothesis Hy : forall y, im_y d = Some y -> shape y = [T].
Let nk := (T - k) / s + 1.

Lemma num_kernels_nat : num_kernels (im_X d) (im_kernel d) (im_stride d) = Z.of_nat nk.
Proof.
  unfold num_kernels, nk. rewrite HX, Ek, Es. cbn [last].
  rewrite Nat2Z.inj_add, Nat2Z.inj_div, Nat2Z.inj_sub by lia. reflexivity.
Qed.

Lemma kern_fits r : r < nk -> r * s + k <= T.
Proof.
  unfold nk. intros H. assert (r <= (T - k) / s) as H1 by lia.
  pose proof (Nat.mul_div_le (T - k) s ltac:(lia)). nia.
Qed.

Lemma slice0_shape1 {B} (t : tensor B) i n rest : shape t = n :: rest ->
  shape (slice0 (Z.of_nat i * Z.of_nat bs) ((Z.of_nat i + 1) * Z.of_nat bs) t)
  = Nat.min bs (n - i * bs) :: rest.
Proof. intros H. unfold slice0. rewrite H. cbn. f_equal. nia. Qed.

Lemma slice0_elt {B} (t : tensor B) i n rest b x : shape t = n :: rest -> b < Nat.min bs (n - i * bs) ->
  elt (slice0 (Z.of_nat i * Z.of_nat bs) ((Z.of_nat i + 1) * Z.of_nat bs) t) (b :: x)
  = elt t ((i * bs + b) :: x).
Proof. intros H Hb. unfold slice0. rewrite H. cbn. f_equal. f_equal. nia. Qed.

Lemma imd_batch_1 indices N i :
  shape indices = [N] -> (forall r, r < N -> (0 <= elt indices [r] < Z.of_nat nk)%Z) ->
  exists Xb yb, imd_batch d indices i = Ok (Xb, yb) /\
    let m := Nat.min bs (N - i * bs) in
    let kern r := Z.to_nat (elt indices [r]) in
    shape Xb = [m; C; k]
    /\ (forall b c j, b < m -> c < C -> j < k ->
          get Xb [b; c; j] = get (im_X d) [c; kern (i * bs + b) * s + j])
    /\ match im_y d with
       | None => yb = None
       | Some y => exists yk, yb = Some yk /\ shape yk = [m; k] /\
           forall b j, b < m -> j < k -> get yk [b; j] = get y [kern (i * bs + b) * s + j]
       end.
Proof.
  intros Hi Hr. unfold imd_batch. rewrite Ek, Eb, Es.
  set (idx := tmap _ _).
  set (m := Nat.min bs (N - i * bs)).
  assert (Hish : shape idx = [m]) by (unfold idx, tmap; cbn [shape]; apply slice0_shape1; assumption).
  assert (Hie : forall b, b < m -> elt idx [b] = (elt indices [(i * bs + b)%nat] * Z.of_nat s)%Z).
  { intros b Hb. unfold idx, tmap; cbn [elt]. rewrite (slice0_elt _ _ N []) by assumption. reflexivity. }
  assert (Hin : forall b, b < m -> (0 <= elt indices [(i * bs + b)%nat] < Z.of_nat nk)%Z).
  { intros b Hb. apply Hr. unfold m in Hb. lia. }
  assert (Hfit : forall b, b < m -> (0 <= elt idx [b] /\ elt idx [b] + Z.of_nat k <= Z.of_nat T)%Z).
  { intros b Hb. rewrite Hie by assumption. specialize (Hin b Hb).
    pose proof (kern_fits (Z.to_nat (elt indices [(i * bs + b)%nat])) ltac:(lia)). nia. }
  destruct (slice_kernels_21 (im_X d) idx k C T m HX Hish Hk HC) as [G _].
  destruct (G Hfit) as [Xb [EX [HXs HXg]]]. rewrite EX. cbn [bind].
  assert (Hpos : forall b, b < m -> Z.to_nat (elt idx [b]) = Z.to_nat (elt indices [(i * bs + b)%nat]) * s).
  { intros b Hb. rewrite Hie by assumption. specialize (Hin b Hb). nia. }
  destruct (im_y d) as [y|] eqn:Ey.
  - destruct (slice_kernels_11 y idx k T m (Hy y eq_refl) Hish Hk) as [G' _].
    destruct G' as [yk [EY [HYs HYg]]]; [intros b Hb; specialize (Hfit b Hb); lia|].
    rewrite EY. cbn [bind]. exists Xb, (Some yk). split; [reflexivity|]. cbn zeta.
    split; [exact HXs|]. split.
    + intros b c j Hb Hc Hj. rewrite HXg by assumption. rewrite Hpos by assumption. reflexivity.
    + exists yk. split; [reflexivity|]. split; [exact HYs|]. intros b j Hb Hj. rewrite HYg by assumption.
      do 2 f_equal. specialize (Hfit b Hb). rewrite Z.mod_small by lia. rewrite <- Hpos by assumption. lia.
  - exists Xb, None. split; [reflexivity|]. cbn zeta. split; [exact HXs|]. split; [|reflexivity].
    intros b c j Hb Hc Hj. rewrite HXg by assumption. rewrite Hpos by assumption. reflexivity.
Qed.

Lemma imd_batch_2 indices N i : im_y d = None ->
  shape indices = [N; C] -> (forall r c, r < N -> c < C -> (0 <= elt indices [r; c] < Z.of_nat nk)%Z) ->
  exists Xb, imd_batch d indices i = Ok (Xb, None) /\
    let m := Nat.min bs (N - i * bs) in
    let kern r c := Z.to_nat (elt indices [r; c]) in
    shape Xb = [m; C; k]
    /\ (forall b c j, b < m -> c < C -> j < k ->
          get Xb [b; c; j] = get (im_X d) [c; kern (i * bs + b) c * s + j]).
Proof.
  intros Ey Hi Hr. unfold imd_batch. rewrite Ek, Eb, Es, Ey.
  set (idx := tmap _ _).
  set (m := Nat.min bs (N - i * bs)).
  assert (Hish : shape idx = [m; C]) by (unfold idx, tmap; cbn [shape]; apply slice0_shape1; assumption).
  assert (Hie : forall b c, b < m -> elt idx [b; c] = (elt indices [(i * bs + b)%nat; c] * Z.of_nat s)%Z).
  { intros b c Hb. unfold idx, tmap; cbn [elt]. rewrite (slice0_elt _ _ N [C]) by assumption. reflexivity. }
  assert (Hin : forall b c, b < m -> c < C -> (0 <= elt indices [(i * bs + b)%nat; c] < Z.of_nat nk)%Z).
  { intros b c Hb Hc. apply Hr; [unfold m in Hb; lia|assumption]. }
  assert (Hfit : forall b c, b < m -> c < C -> (0 <= elt idx [b; c] /\ elt idx [b; c] + Z.of_nat k <= Z.of_nat T)%Z).
  { intros b c Hb Hc. rewrite Hie by assumption. specialize (Hin b c Hb Hc).
    pose proof (kern_fits (Z.to_nat (elt indices [(i * bs + b)%nat; c])) ltac:(lia)). nia. }
  destruct (slice_kernels_22 (im_X d) idx k C T m HX Hish Hk HC) as [G _].
  destruct (G Hfit) as [Xb [EX [HXs HXg]]]. rewrite EX. cbn [bind].
  exists Xb. split; [reflexivity|]. cbn zeta. split; [exact HXs|].
  intros b c j Hb Hc Hj. rewrite HXg by assumption. rewrite Hie by assumption.
  specialize (Hin b c Hb Hc). do 4 f_equal. nia.
Qed.

Lemma sequence_map_exists {B D} (f : B -> res D) l :
  (forall b, In b l -> is_ok (f b)) ->
  exists r, sequence (map f l) = Ok r /\ length r = length l /\
    forall i b, nth_error l i = Some b -> exists v, f b = Ok v /\ nth_error r i = Some v.
Proof.
  induction l as [|b l IH]; intros H.
  - exists []. split; [reflexivity|]. split; [reflexivity|]. intros [|i] b; discriminate.
  - destruct (H b (or_introl eq_refl)) as [v Hv]. destruct IH as [r [E [L G]]].
    { intros b' Hb'; apply H; right; exact Hb'. }
    exists (v :: r). cbn. rewrite Hv. cbn. rewrite E. cbn. split; [reflexivity|]. split; [lia|].
    intros [|i] b'; cbn; intros Hb'; [inversion Hb'; subst; eauto|apply G; exact Hb'].
Qed.

Lemma imd_epoch_1 indices N L :
  imd_len d = Z.of_nat L ->
  shape indices = [N] -> (forall r, r < N -> (0 <= elt indices [r] < Z.of_nat nk)%Z) ->
  exists batches, sequence (map (imd_batch d indices) (range (imd_len d))) = Ok batches
    /\ length batches = L
    /\ epoch_of (im_X d) (im_y d) C k s bs N (fun r _ => Z.to_nat (elt indices [r])) batches.
Proof.
  intros HL Hi Hr. unfold range. rewrite HL, Nat2Z.id.
  destruct (sequence_map_exists (imd_batch d indices) (seq 0 L)) as [r [E [Lr G]]].
  { intros i _. destruct (imd_batch_1 indices N i Hi Hr) as [Xb [yb [E _]]]. eexists; exact E. }
  exists r. split; [exact E|]. rewrite seq_length in Lr. split; [exact Lr|].
  intros i HiL. destruct (G i i) as [v [Ev Nv]]; [apply nth_error_seq; lia|].
  destruct (imd_batch_1 indices N i Hi Hr) as [Xb [yb [E' [H1 [H2 H3]]]]].
  rewrite E' in Ev. inversion Ev; subst.
  exists Xb, yb, (Nat.min bs (N - i * bs)). repeat (split; [assumption || reflexivity|]). exact H3.
Qed.

Lemma imd_epoch_2 indices N L : im_y d = None ->
  imd_len d = Z.of_nat L ->
  shape indices = [N; C] -> (forall r c, r < N -> c < C -> (0 <= elt indices [r; c] < Z.of_nat nk)%Z) ->
  exists batches, sequence (map (imd_batch d indices) (range (imd_len d))) = Ok batches
    /\ length batches = L
    /\ epoch_of (im_X d) (im_y d) C k s bs N (fun r c => Z.to_nat (elt indices [r; c])) batches.
Proof.
  intros Ey HL Hi Hr. unfold range. rewrite HL, Nat2Z.id.
  destruct (sequence_map_exists (imd_batch d indices) (seq 0 L)) as [r [E [Lr G]]].
  { intros i _. destruct (imd_batch_2 indices N i Ey Hi Hr) as [Xb [E _]]. eexists; exact E. }
  exists r. split; [exact E|]. rewrite seq_length in Lr. split; [exact Lr|].
  intros i HiL. destruct (G i i) as [v [Ev Nv]]; [apply nth_error_seq; lia|].
  destruct (imd_batch_2 indices N i Ey Hi Hr) as [Xb [E' [H1 H2]]].
  rewrite E' in Ev. inversion Ev; subst.
  exists Xb, None, (Nat.min bs (N - i * bs)). repeat (split; [assumption || reflexivity|]). rewrite Ey. reflexivity.
Qed.
End IM.

(** *** itertools.product as row-major enumeration *)
Lemma all_idx_length s : length (all_idx s) = prod s.
Proof.
  induction s as [|d s IH]; cbn; [reflexivity|].
  generalize 0. induction d as [|d IHd]; intros st; cbn; [reflexivity|].
  rewrite app_length, map_length, IH, IHd. reflexivity.
Qed.

Lemma nth_flat_map_blocks {B} (f : nat -> list B) (m st n : nat) x d0 :
  (forall i, length (f i) = m) -> x < n * m ->
  nth x (flat_map f (seq st n)) d0 = nth (x mod m) (f (st + x / m)) d0.
Proof.
  intros Hf. revert st x. induction n as [|n IH]; intros st x Hx; [lia|].
  cbn [seq flat_map]. assert (Hm : m <> 0) by nia.
  destruct (Nat.lt_ge_cases x m) as [H|H].
  - rewrite app_nth1 by (rewrite Hf; assumption).
    rewrite Nat.mod_small, Nat.div_small by assumption. f_equal. f_equal. lia.
  - rewrite app_nth2 by (rewrite Hf; assumption). rewrite Hf, IH by nia.
    replace x with ((x - m) + 1 * m) at 3 4 by lia.
    rewrite Nat.mod_add, Nat.div_add by assumption. f_equal. f_equal. lia.
Qed.

Lemma all_idx_nth s x d0 : x < prod s -> nth x (all_idx s) d0 = unravel s x.
Proof.
  revert x d0; induction s as [|d s IH]; intros x d0 Hx; cbn in *.
  - destruct x; [reflexivity|lia].
  - assert (prod s <> 0) by nia.
    rewrite (nth_flat_map_blocks _ (prod s)).
    + assert (x mod prod s < prod s) by (apply Nat.mod_upper_bound; assumption).
      rewrite (nth_indep _ d0 ((0 + x / prod s) :: [])) by (rewrite map_length, all_idx_length; assumption).
      rewrite (map_nth (cons (0 + x / prod s)) (all_idx s) []). rewrite IH by assumption. reflexivity.
    + intros i. rewrite map_length. apply all_idx_length.
    + assumption.
Qed.

Lemma unravel_repeat_small nk C r c : r < nk -> c < C ->
  nth c (unravel (repeat nk C) r) 0 = if c =? C - 1 then r else 0.
Proof.
  revert r c; induction C as [|C IH]; intros r c Hr Hc; [lia|]. cbn [repeat unravel].
  assert (Hp : prod (repeat nk C) <> 0) by (clear -Hr; induction C; cbn; nia).
  destruct c as [|c]; cbn [nth].
  - destruct C as [|C]; cbn [repeat prod].
    + cbn. rewrite Nat.div_1_r. reflexivity.
    + replace (0 =? S (S C) - 1) with false by lia.
      apply Nat.div_small. assert (prod (repeat nk C) <> 0) by (cbn in Hp; nia). nia.
  - assert (r < prod (repeat nk C)).
    { destruct C as [|C]; [lia|]. cbn in *. assert (prod (repeat nk C) <> 0) by nia. nia. }
    rewrite Nat.mod_small by assumption. rewrite IH by lia.
    destruct (Nat.eqb_spec c (C - 1)), (Nat.eqb_spec (S c) (S C - 1)); lia.
Qed.

Lemma f32_round_small n : (n < 2 ^ 24)%Z -> f32_round n = n.
Proof. intros H. unfold f32_round. replace (n <? 2 ^ 24)%Z with true by lia. reflexivity. Qed.
