(** C89: ResNet1D with the library's own GroupNorm1D and real convolutions, pooling and head: batch elements do not influence each other. *)
From Coq Require Import Reals Lra Lia.
From Verif Require Import Base Tensor Bcast Rutil Norm_model Norm_props Resnet_model Resnet_props Resnet2_props.
Local Open Scope R_scope.

(** ** the layers of ResNet1D, as arithmetic on tensors (batch, channel, time) *)
(** nn.Conv1d: [w o c j] the weights, zero padding [p], stride [s], dilation [d], [cpg] input channels per group of [opg] output channels *)
Definition padded (x : tensor R) (b c : nat) (p : nat) (t : nat) : R :=
  if ((p <=? t) && (t - p <? nth 2 (shape x) 0%nat))%nat then elt x [b; c; (t - p)%nat] else 0.
Definition conv1d_arith (k s p d cpg opg : nat) (w : nat -> nat -> nat -> R) (x : tensor R) (i : list nat) : R :=
  match i with
  | [b; o; t] => Rsum cpg (fun c => if ((o / opg) * cpg + c <? nth 1 (shape x) 0)%nat
      then Rsum k (fun j => w o c j * padded x b ((o / opg) * cpg + c) p (t * s + j * d)) else 0)
  | _ => 0 end.
(** nn.MaxPool1d(3, 2, padding=1): the largest of the samples 2t-1, 2t, 2t+1 that exist *)
Definition maxpool1d_arith (x : tensor R) (i : list nat) : R :=
  match i with
  | [b; c; t] => let T := nth 2 (shape x) 0%nat in let v := fun u => elt x [b; c; u] in
      if ((c <? nth 1 (shape x) 0) && (2 * t <? T))%nat then
        fold_left Rmax (map v (filter (fun u => u <? T)%nat (if (t =? 0)%nat then [1%nat] else [(2 * t - 1)%nat; (2 * t + 1)%nat]))) (v (2 * t)%nat)
      else 0
  | _ => 0 end.
(** AdaptiveAvgPool1d(1), flatten and nn.Linear *)
Definition head_arith (w : nat -> nat -> R) (bias : nat -> R) (x : tensor R) (i : list nat) : R :=
  match i with
  | [b; o] => bias o + Rsum (nth 1 (shape x) 0%nat) (fun c => w o c * (Rsum (nth 2 (shape x) 0%nat) (fun t => elt x [b; c; t]) / INR (nth 2 (shape x) 0%nat)))
  | _ => 0 end.
(** the GroupNorm1D that GroupNorm1DGetter(groups) builds for the channels it is given, with trained weight and bias *)
Definition gnorm_arith (groups : option nat) (eps : R) (w bias : nat -> R) (x : tensor R) (i : list nat) : R :=
  match shape x, i with
  | [B; C; T], [b; c; t] =>
    if ((b <? B) && (c <? C) && (t <? T))%nat then
      match gnorm_getter groups C eps with
      | Ok m => match gnorm_forward (gnorm_params m (mk [C; 1%nat] (fun i => w (hd 0%nat i))) (mk [C; 1%nat] (fun i => bias (hd 0%nat i)))) x with Ok y => elt y [b; c; t] | Err _ => 0 end
      | Err _ => 0 end
    else 0
  | _, _ => 0 end.

Lemma agree3 b b' x x' : agree b b' x x' -> forall k, nth (S k) (shape x) 0%nat = nth (S k) (shape x') 0%nat.
Proof. intros (B & B' & sp & -> & -> & _) k. reflexivity. Qed.
(** reading an in-range sample *)
Lemma agree_elt b b' x x' c t : agree b b' x x' -> length (shape x) = 3%nat -> (c < nth 1 (shape x) 0)%nat -> (t < nth 2 (shape x) 0)%nat -> elt x [b; c; t] = elt x' [b'; c; t].
Proof. intros (B & B' & sp & -> & _ & _ & _ & E) L H1 H2. destruct sp as [|C [|T [|? ?]]]; try discriminate. apply E. cbn in *. auto. Qed.
(** a layer is used on three-dimensional tensors only; elsewhere its value is irrelevant and taken to be 0 *)
Definition on3 (f : arith) : arith := fun x i => if (length (shape x) =? 3)%nat then f x i else 0.
Lemma local3 f : (forall b b' x x', agree b b' x x' -> length (shape x) = 3%nat -> forall i, f x (b :: i) = f x' (b' :: i)) -> batch_local (on3 f).
Proof.
  intros H b b' x x' A i. unfold on3. assert (L : length (shape x) = length (shape x')) by (destruct A as (B & B' & sp & -> & -> & _); reflexivity). rewrite <- L.
  destruct (Nat.eqb_spec (length (shape x)) 3) as [E|]; [apply H; assumption|reflexivity].
Qed.
Lemma conv1d_local k s p d cpg opg w : batch_local (on3 (conv1d_arith k s p d cpg opg w)).
Proof.
  apply local3. intros b b' x x' A L i. destruct i as [|o [|t [|? ?]]]; try reflexivity. cbn [conv1d_arith]. rewrite <- (agree3 _ _ _ _ A 0).
  apply Rsum_ext. intros c _. destruct (Nat.ltb_spec (o / opg * cpg + c) (nth 1 (shape x) 0%nat)) as [Hc|]; [|reflexivity]. apply Rsum_ext. intros j _. f_equal. unfold padded. rewrite <- (agree3 _ _ _ _ A 1).
  destruct (Nat.leb_spec p (t * s + j * d)) as [Hp|]; [|reflexivity]. destruct (Nat.ltb_spec (t * s + j * d - p) (nth 2 (shape x) 0%nat)) as [Ht|]; [|reflexivity]. cbn [andb]. apply agree_elt; assumption.
Qed.
Lemma maxpool1d_local : batch_local (on3 maxpool1d_arith).
Proof.
  apply local3. intros b b' x x' A L i. destruct i as [|c [|t [|? ?]]]; try reflexivity. cbn [maxpool1d_arith]. rewrite <- (agree3 _ _ _ _ A 0), <- (agree3 _ _ _ _ A 1).
  destruct (Nat.ltb_spec c (nth 1 (shape x) 0%nat)) as [Hc|]; [|reflexivity]. destruct (Nat.ltb_spec (2 * t) (nth 2 (shape x) 0%nat)) as [Ht|]; [|reflexivity]. cbn [andb].
  rewrite (agree_elt b b' x x' c (2 * t) A L Hc Ht). f_equal. apply map_ext_in. intros u Hu. apply filter_In in Hu as [_ Hu]. apply Nat.ltb_lt in Hu. apply agree_elt; assumption.
Qed.
Lemma head_local w bias : batch_local (on3 (head_arith w bias)).
Proof.
  apply local3. intros b b' x x' A L i. destruct i as [|o [|? ?]]; try reflexivity. cbn [head_arith]. rewrite <- (agree3 _ _ _ _ A 0), <- (agree3 _ _ _ _ A 1).
  f_equal. apply Rsum_ext. intros c Hc. f_equal. f_equal. apply Rsum_ext. intros t Ht. apply agree_elt; assumption.
Qed.
Lemma group_var_nonneg x cpg T i g : 0 <= group_var x cpg T i g.
Proof.
  unfold group_var. unfold Rdiv. apply Rmult_le_pos; [apply Rsum_nonneg; intros; apply Rsum_nonneg; intros; apply pow2_ge_0|].
  destruct (Req_dec (INR cpg * INR T) 0) as [-> |N]; [rewrite Rinv_0; lra|]. pose proof (pos_INR cpg). pose proof (pos_INR T). left. apply Rinv_0_lt_compat. nra.
Qed.
Lemma cpg_bound C groups eps m c j : gnorm_getter groups C eps = Ok m -> (c < C)%nat -> (j < gn_cpg m)%nat -> (c / gn_cpg m * gn_cpg m + j < C)%nat.
Proof.
  unfold gnorm_getter, gnorm_create. set (g := match _ with Some (S g) => S g | _ => C end). clearbody g. destruct (Nat.eqb_spec g 0); [discriminate|].
  destruct (Nat.eqb_spec (C mod g) 0) as [E|]; [|discriminate]. cbn [negb]. intros EM; injection EM as <-. cbn [gn_cpg]. intros Hc Hj.
  assert (EC : C = (g * (C / g))%nat) by (pose proof (Nat.div_mod C g); lia). set (q := (C / g)%nat) in *. assert (c / q < g)%nat by (apply Nat.div_lt_upper_bound; lia). nia.
Qed.
Lemma gnorm_local groups eps w bias : 0 < eps -> batch_local (on3 (gnorm_arith groups eps w bias)).
Proof.
  intros He. apply local3. intros b b' x x' A L i. destruct A as (B & B' & sp & S1 & S2 & H1 & H2 & EQ). rewrite S1 in L. destruct sp as [|C [|T [|? ?]]]; try discriminate L.
  unfold gnorm_arith. rewrite S1, S2. destruct i as [|c [|t [|? ?]]]; try reflexivity.
  replace (b <? B)%nat with true by (symmetry; apply Nat.ltb_lt; exact H1). replace (b' <? B')%nat with true by (symmetry; apply Nat.ltb_lt; exact H2). cbn [andb].
  destruct (Nat.ltb_spec c C) as [Hc|]; [|reflexivity]. destruct (Nat.ltb_spec t T) as [Ht|]; [|reflexivity]. cbn [andb].
  destruct (gnorm_getter groups C eps) as [m|e] eqn:EG; [|reflexivity].
  assert (E3 : forall c t, (c < C)%nat -> (t < T)%nat -> elt x [b; c; t] = elt x' [b'; c; t]) by (intros; apply EQ; cbn; auto).
  pose proof EG as EG'. unfold gnorm_getter in EG'. set (gr := match groups with Some g => _ | None => None end) in EG'.
  set (ww := mk [C; 1%nat] (fun i => w (hd 0%nat i))). set (bb := mk [C; 1%nat] (fun i => bias (hd 0%nat i))).
  destruct (groupnorm1d_textbook C gr eps m (gnorm_params m ww bb) ww bb x B T EG' eq_refl ltac:(lia) eq_refl eq_refl S1 ltac:(lia)) as [y [Ey [_ Vy]]].
  { intros. pose proof (group_var_nonneg x (gn_cpg (gnorm_params m ww bb)) T i (c0 / gn_cpg (gnorm_params m ww bb))). lra. }
  destruct (groupnorm1d_textbook C gr eps m (gnorm_params m ww bb) ww bb x' B' T EG' eq_refl ltac:(lia) eq_refl eq_refl S2 ltac:(lia)) as [y' [Ey' [_ Vy']]].
  { intros. pose proof (group_var_nonneg x' (gn_cpg (gnorm_params m ww bb)) T i (c0 / gn_cpg (gnorm_params m ww bb))). lra. }
  rewrite Ey, Ey', Vy, Vy' by assumption. cbn [gn_cpg gnorm_params] in *. rewrite (E3 c t Hc Ht).
  assert (GM : group_mean x (gn_cpg m) T b (c / gn_cpg m) = group_mean x' (gn_cpg m) T b' (c / gn_cpg m)).
  { unfold group_mean. f_equal. apply Rsum_ext. intros j Hj. apply Rsum_ext. intros u Hu. apply E3; [eapply cpg_bound; eassumption|exact Hu]. }
  assert (GV : group_var x (gn_cpg m) T b (c / gn_cpg m) = group_var x' (gn_cpg m) T b' (c / gn_cpg m)).
  { unfold group_var. rewrite GM. f_equal. apply Rsum_ext. intros j Hj. apply Rsum_ext. intros u Hu. rewrite E3; [reflexivity|eapply cpg_bound; eassumption|exact Hu]. }
  rewrite GM, GV. reflexivity.
Qed.
(** a ResNet1D's layers: any weights and geometry for the convolutions, by position; the pool at [1] and the head at [2] *)
Definition resnet1d_W (geo : list nat -> nat * nat * nat * nat * nat * nat) (w : list nat -> nat -> nat -> nat -> R) (hw : nat -> nat -> R) (hb : nat -> R) (q : list nat) : arith :=
  on3 (if list_eq_dec Nat.eq_dec q [1%nat] then maxpool1d_arith else if list_eq_dec Nat.eq_dec q [2%nat] then head_arith hw hb
       else match geo q with (k, s, p, d, cpg, opg) => conv1d_arith k s p d cpg opg (w q) end).
Definition resnet1d_N (groups : option nat) (eps : R) (nw nb : list nat -> nat -> R) (q : list nat) : arith := on3 (gnorm_arith groups eps (nw q) (nb q)).
(** the logits of one batch element are the same whatever the rest of the batch is *)
Theorem resnet1d_batch_independent geo w hw hb groups eps nw nb nl kd cin layers classes k g bw st n x x' B B' T b b' :
  let W := resnet1d_W geo w hw hb in let N := resnet1d_N groups eps nw nb in
  0 < eps -> (forall c, nl c = Ok tt) -> (0 < bw)%nat ->
  resnet_create W N nl kd cin layers classes k g bw st = Ok n ->
  shape x = [B; cin; T] -> shape x' = [B'; cin; T] -> (0 < T)%nat -> (b < B)%nat -> (b' < B')%nat ->
  (forall c t, (c < cin)%nat -> (t < T)%nat -> elt x [b; c; t] = elt x' [b'; c; t]) ->
  exists y y', resnet_forward W N n x = Ok y /\ resnet_forward W N n x' = Ok y' /\ shape y = [B; classes] /\ shape y' = [B'; classes] /\
    forall o, elt y [b; o] = elt y' [b'; o].
Proof.
  intros W N He NL Hbw E Sx Sx' HT Hb Hb' EQ.
  apply (resnet_batch_independent W N nl kd cin layers classes k g bw st n x x' B B' [T] b b' NL Hbw); try assumption.
  - intros q. unfold W, resnet1d_W. destruct (list_eq_dec _ q [1%nat]); [apply maxpool1d_local|]. destruct (list_eq_dec _ q [2%nat]); [apply head_local|].
    destruct (geo q) as [[[[[k' s'] p'] d'] cpg] opg]. apply conv1d_local.
  - intros q. apply gnorm_local. exact He.
  - discriminate.
  - intros m [<-|[]]. exact HT.
  - intros i Hi. destruct i as [|c [|t [|? ?]]]; cbn [inb] in Hi; try tauto. apply EQ; tauto.
Qed.
(** what the pooling does: the maximum of the existing neighbours *)
Theorem maxpool1d_spec x B C T b c t : shape x = [B; C; T] -> (c < C)%nat -> (2 * t < T)%nat ->
  (forall u, (u < T)%nat -> (2 * t <= u + 1)%nat -> (u <= 2 * t + 1)%nat -> elt x [b; c; u] <= maxpool1d_arith x [b; c; t]) /\
  (exists u, (u < T)%nat /\ (2 * t <= u + 1)%nat /\ (u <= 2 * t + 1)%nat /\ maxpool1d_arith x [b; c; t] = elt x [b; c; u]).
Proof.
  intros S Hc Ht. cbn [maxpool1d_arith]. rewrite S. cbn [nth]. replace (c <? C)%nat with true by (symmetry; apply Nat.ltb_lt; exact Hc). replace (2 * t <? T)%nat with true by (symmetry; apply Nat.ltb_lt; exact Ht). cbn [andb].
  assert (FM : forall l a, a <= fold_left Rmax l a /\ (forall r, In r l -> r <= fold_left Rmax l a) /\ (fold_left Rmax l a = a \/ In (fold_left Rmax l a) l)).
  { induction l as [|r l IH]; intros a; cbn; [split; [lra|split; [contradiction|auto]]|]. destruct (IH (Rmax a r)) as [I1 [I2 I3]]. pose proof (Rmax_l a r). pose proof (Rmax_r a r).
    split; [lra|]. split; [intros q [<-|Hq]; [lra|apply I2; exact Hq]|]. destruct I3 as [I3|I3]; [|auto]. rewrite I3. unfold Rmax. destruct (Rle_dec a r); auto. }
  set (us := filter _ _). destruct (FM (map (fun u => elt x [b; c; u]) us) (elt x [b; c; (2 * t)%nat])) as [I1 [I2 I3]].
  assert (US : forall u, In u us <-> (u < T)%nat /\ (u = 2 * t + 1 \/ u + 1 = 2 * t)%nat).
  { intros u. unfold us. rewrite filter_In, Nat.ltb_lt. destruct (Nat.eqb_spec t 0) as [-> |]; cbn [In]; lia. }
  split.
  - intros u H1 H2 H3. destruct (Nat.eq_dec u (2 * t)) as [-> |]; [exact I1|]. apply I2. apply in_map_iff. exists u. split; [reflexivity|]. apply US. lia.
  - destruct I3 as [-> |I3]; [exists (2 * t)%nat; repeat split; lia|]. apply in_map_iff in I3 as [u [<- Hu]]. apply US in Hu. exists u. repeat split; lia.
Qed.
(** non-vacuity: a two-stage network on two batches of different sizes *)
Example resnet1d_batch_example : exists n y y', let W := resnet1d_W (fun _ => (3, 1, 1, 1, 1, 1)%nat) (fun _ _ _ _ => 1) (fun _ _ => 1) (fun _ => 0) in let N := resnet1d_N None 1 (fun _ _ => 1) (fun _ _ => 0) in
  resnet_create W N (fun _ => Ok tt) Basic 1 [1%nat; 1%nat] 2 3 1 64 None = Ok n /\
  resnet_forward W N n (mk [2%nat; 1%nat; 9%nat] (fun i => INR (nth 0 i 0%nat))) = Ok y /\ resnet_forward W N n (mk [3%nat; 1%nat; 9%nat] (fun _ => 1)) = Ok y' /\
  elt y [1%nat; 0%nat] = elt y' [2%nat; 0%nat].
Proof.
  set (W := resnet1d_W (fun _ => (3, 1, 1, 1, 1, 1)%nat) (fun _ _ _ _ => 1) (fun _ _ => 1) (fun _ => 0)). set (N := resnet1d_N None 1 (fun _ _ => 1) (fun _ _ => 0)).
  destruct (proj2 (resnet_create_iff W N (fun _ => Ok tt) (fun _ => eq_refl) Basic 1 [1%nat; 1%nat] 2 3 1 64 None)) as [n E].
  { repeat split; auto; cbn; try lia. repeat constructor; cbn; congruence. }
  destruct (resnet1d_batch_independent (fun _ => (3, 1, 1, 1, 1, 1)%nat) (fun _ _ _ _ => 1) (fun _ _ => 1) (fun _ => 0) None 1 (fun _ _ => 1) (fun _ _ => 0) (fun _ => Ok tt) Basic 1 [1%nat; 1%nat] 2 3 1 64 None n
     (mk [2%nat; 1%nat; 9%nat] (fun i => INR (nth 0 i 0%nat))) (mk [3%nat; 1%nat; 9%nat] (fun _ => 1)) 2 3 9 1 2) as [y [y' [E1 [E2 [_ [_ EQ]]]]]]; try lra; try lia; try reflexivity; try exact E.
  exists n, y, y'. split; [exact E|]. split; [exact E1|]. split; [exact E2|]. apply EQ.
Qed.
