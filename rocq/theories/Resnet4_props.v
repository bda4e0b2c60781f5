(** C100: ResNets with instance normalisation (the default norm layer): short inputs, and the amplitude of the input. *)
From Coq Require Import Reals Lra Lia FunctionalExtensionality.
From Verif Require Import Base Tensor Bcast Rutil Norm_model Norm_props Resnet_model Resnet_props Resnet2_props Resnet3_props.
Local Open Scope nat_scope.

(** a normalisation whose output for a feature map of one sample is a constant of the channel *)
Definition constant_on_points (f : arith) : Prop := forall b b' x x' B B' ch sp, shape x = B :: ch :: sp -> shape x' = B' :: ch :: sp -> (forall n, In n sp -> n = 1) -> b < B -> b' < B' ->
  forall i, inb i (ch :: sp) -> f x (b :: i) = f x' (b' :: i).

Lemma ones_map s sp : (forall n, In n sp -> cdiv s n = 1) -> map (cdiv s) sp = repeat 1 (List.length sp).
Proof. induction sp as [|n sp IH]; intros H; [reflexivity|]. cbn [map List.length repeat]. rewrite H by (left; reflexivity). rewrite IH by (intros; apply H; right; assumption). reflexivity. Qed.
Lemma agree_points f b b' x x' B B' ch k : constant_on_points f -> shape x = B :: ch :: repeat 1 k -> shape x' = B' :: ch :: repeat 1 k -> b < B -> b' < B' ->
  agree b b' (same_shape f x) (same_shape f x').
Proof.
  intros H S1 S2 Hb Hb'. exists B, B', (ch :: repeat 1 k). cbn [shape same_shape elt]. repeat (split; [assumption|]). intros i Hi.
  apply (H b b' x x' B B' ch (repeat 1 k)); try assumption. intros n Hn. apply repeat_spec in Hn. exact Hn.
Qed.
Lemma main_points l a c s : chain l a c s -> Forall (fun p => constant_on_points (snd p)) l -> forall x x' y y' B B' sp sp' b b',
  shape x = B :: a :: sp -> shape x' = B' :: a :: sp' -> positive sp -> positive sp' -> List.length sp = List.length sp' ->
  (forall n, In n sp -> cdiv s n = 1) -> (forall n, In n sp' -> cdiv s n = 1) -> b < B -> b' < B' -> main_path l x = Ok y -> main_path l x' = Ok y' -> agree b b' y y'.
Proof.
  induction 1 as [c0 n T Ps|c0 n l cout s T Ps NE CH IH]; intros HC x x' y y' B B' sp sp' b b' S1 S2 P P' L O O' Hb Hb' E1 E2.
  - cbn [main_path] in E1, E2. destruct (conv_apply_ok c0 x B sp T S1 P) as [u [Eu Su]]. destruct (conv_apply_ok c0 x' B' sp' T S2 P') as [u' [Eu' Su']].
    rewrite Eu in E1. rewrite Eu' in E2. cbn [bind] in E1, E2. injection E1 as <-. injection E2 as <-. rewrite (ones_map _ _ O) in Su. rewrite (ones_map _ _ O'), <- L in Su'.
    apply Forall_inv in HC. eapply agree_points; eassumption.
  - destruct l as [|q l]; [contradiction|]. destruct (conv_apply_ok c0 x B sp T S1 P) as [u [Eu Su]]. destruct (conv_apply_ok c0 x' B' sp' T S2 P') as [u' [Eu' Su']].
    change (main_path ((c0, n) :: q :: l) x) with (bind (conv_apply c0 x) (fun y => main_path (q :: l) (relu (same_shape n y)))) in E1.
    change (main_path ((c0, n) :: q :: l) x') with (bind (conv_apply c0 x') (fun y => main_path (q :: l) (relu (same_shape n y)))) in E2.
    rewrite Eu in E1. rewrite Eu' in E2. cbn [bind] in E1, E2. pose proof (chain_s _ _ _ _ CH) as Hs.
    refine (IH (Forall_inv_tail HC) _ _ _ _ B B' (map (cdiv (c_s c0)) sp) (map (cdiv (c_s c0)) sp') b b' _ _ (positive_cdiv _ _) (positive_cdiv _ _) _ _ _ Hb Hb' E1 E2).
    + exact Su.
    + exact Su'.
    + rewrite !map_length. exact L.
    + intros m Hm. apply in_map_iff in Hm as [m' [<- Hm']]. rewrite cdiv_cdiv by assumption. apply O, Hm'.
    + intros m Hm. apply in_map_iff in Hm as [m' [<- Hm']]. rewrite cdiv_cdiv by assumption. apply O', Hm'.
Qed.
Definition blk_points (bk : blk) : Prop := Forall (fun p => constant_on_points (snd p)) (b_main bk) /\ match b_down bk with Some p => constant_on_points (snd p) | None => True end.
Lemma block_points bk cin cout s b b' x x' y y' B B' sp sp' : blk_points bk -> block_ok bk cin cout s -> cin <> cout -> shape x = B :: cin :: sp -> shape x' = B' :: cin :: sp' -> positive sp -> positive sp' ->
  List.length sp = List.length sp' -> (forall n, In n sp -> cdiv s n = 1) -> (forall n, In n sp' -> cdiv s n = 1) -> b < B -> b' < B' ->
  block_forward bk x = Ok y -> block_forward bk x' = Ok y' -> agree b b' y y'.
Proof.
  intros [LM LD] [CH D] NE Sx Sx' P P' L O O' Hb Hb'. unfold block_forward. intros E1 E2. inv_bind E1. inv_bind E1. inv_bind E1. inv_bind E2. inv_bind E2. inv_bind E2. injection E1 as <-. injection E2 as <-.
  assert (AM : agree b b' v v2) by (eapply (main_points _ _ _ _ CH LM x x' v v2 B B' sp sp'); eassumption).
  destruct (main_path_ok _ _ _ _ CH x B sp Sx P) as [m [Em Sm]]. rewrite E in Em. injection Em as <-.
  destruct (main_path_ok _ _ _ _ CH x' B' sp' Sx' P') as [m' [Em' Sm']]. rewrite E4 in Em'. injection Em' as <-.
  destruct (b_down bk) as [[c n]|]; [|destruct D; contradiction]. destruct D as [T [D1 [D2 D3]]]. subst cin cout s. inv_bind E0. inv_bind E5. injection E0 as <-. injection E5 as <-. cbn [snd] in LD.
  destruct (conv_apply_ok c x B sp T Sx P) as [u [Eu Su]]. destruct (conv_apply_ok c x' B' sp' T Sx' P') as [u' [Eu' Su']]. rewrite E1 in Eu. injection Eu as <-. rewrite E2 in Eu'. injection Eu' as <-.
  rewrite (ones_map _ _ O) in Su, Sm. rewrite (ones_map _ _ O'), <- L in Su', Sm'.
  assert (AI : agree b b' (same_shape n v5) (same_shape n v6)) by (eapply agree_points; eassumption).
  apply agree_relu. revert E3 E6. unfold bzip_inplace, bzip. cbn [shape same_shape]. rewrite Sm, Su, Sm', Su', !bshape_self. cbn [bind shape].
  destruct (list_eq_dec Nat.eq_dec _ _) as [_|]; [|discriminate]. destruct (list_eq_dec Nat.eq_dec _ _) as [_|]; [|discriminate]. intros E3 E6. injection E3 as <-. injection E6 as <-.
  destruct AM as (B1 & B1' & sp1 & S1 & S1' & H1 & H1' & EQ1). rewrite Sm in S1. injection S1 as <- <-. rewrite Sm' in S1'. injection S1' as <-.
  destruct AI as (B2 & B2' & sp2 & S2 & S2' & _ & _ & EQ2). cbn [shape same_shape] in S2. rewrite Su in S2. injection S2 as <- <-.
  exists B, B', (c_out c :: repeat 1 (List.length sp)). cbn [shape elt]. repeat (split; [reflexivity || assumption|]). intros i Hi.
  rewrite !(bidx_self (b :: i)) by (cbn [inb]; auto). rewrite !(bidx_self (b' :: i)) by (cbn [inb]; auto). f_equal; [apply EQ1|apply EQ2]; exact Hi.
Qed.
Lemma layers_points kd l : l <> [] -> forall ls i b b' x x' z z' B B' sp sp', Forall (Forall (fun bk => blk_points bk /\ blk_local bk)) ls -> stages_ok kd i (64 * 2 ^ i * expansion kd) l ls ->
  shape x = B :: 64 * 2 ^ i * expansion kd :: sp -> shape x' = B' :: 64 * 2 ^ i * expansion kd :: sp' -> positive sp -> positive sp' -> List.length sp = List.length sp' ->
  (forall n, In n sp -> cdiv (2 ^ strides l) n = 1) -> (forall n, In n sp' -> cdiv (2 ^ strides l) n = 1) -> b < B -> b' < B' ->
  layers_forward ls x = Ok z -> layers_forward ls x' = Ok z' -> agree b b' z z'.
Proof.
  induction l as [|[nb ty] l IH]; intros NE ls i b b' x x' z z' B B' sp sp' HL HS Sx Sx' P P' L O O' Hb Hb'; [contradiction|]. clear NE. destruct ls as [|bs ls]; [contradiction|].
  cbn [stages_ok] in HS. destruct HS as [SO [_ [_ ST]]]. apply Forall_cons_iff in HL as [HL1 HL]. cbn [layers_forward]. intros E1 E2. inv_bind E1. inv_bind E2.
  assert (ES : 2 ^ strides ((nb, ty) :: l) = stride_of ty 2 * 2 ^ strides l) by (unfold strides; destruct ty; cbn [filter snd List.length stride_of Nat.pow]; lia).
  assert (Hs : 0 < stride_of ty 2) by (destruct ty; cbn; lia).
  destruct (layer_forward_ok _ _ _ _ _ _ _ SO Sx P) as [u [Eu Su]]. rewrite E in Eu. injection Eu as <-.
  destruct (layer_forward_ok _ _ _ _ _ _ _ SO Sx' P') as [u' [Eu' Su']]. rewrite E0 in Eu'. injection Eu' as <-.
  destruct l as [|q l].
  - destruct ls as [|? ?]; [|contradiction]. cbn [layers_forward] in E1, E2. injection E1 as <-. injection E2 as <-.
    change (2 ^ strides []) with 1 in ES. rewrite Nat.mul_1_r in ES. rewrite ES in O, O'.
    assert (NC : 64 * 2 ^ i * expansion kd <> 64 * 2 ^ (i + 1) * expansion kd).
    { rewrite Nat.pow_add_r. cbn [Nat.pow]. assert (0 < 2 ^ i) by (pose proof (Nat.pow_nonzero 2 i); lia). destruct kd; cbn [expansion]; lia. }
    revert NC SO Su Su'. generalize (64 * 2 ^ (i + 1) * expansion kd). intros cout NC SO Su Su'. inversion SO as [bk bs' cin cout' s' HB HF]. subst.
    cbn [layer_forward] in E, E0. inv_bind E. inv_bind E0. apply Forall_cons_iff in HL1 as [[HP1 HL1] HL2].
    destruct (block_forward_ok bk _ cout _ x B sp HB Sx P) as [w [Ew Sw]]. rewrite E1 in Ew. injection Ew as <-.
    destruct (block_forward_ok bk _ cout _ x' B' sp' HB Sx' P') as [w' [Ew' Sw']]. rewrite E2 in Ew'. injection Ew' as <-.
    assert (A : agree b b' v1 v2) by (eapply (block_points bk _ cout _ b b' x x' v1 v2 B B' sp sp'); eassumption).
    rewrite (ones_map _ _ O) in Sw. rewrite (ones_map _ _ O'), <- L in Sw'.
    eapply (agree_tail bs' cout b b' v1 v2 v v0 B B' (repeat 1 (List.length sp))); try assumption.
    + eapply Forall_impl; [|exact HL2]. intros ? [_ ?]. assumption.
    + intros n Hn. apply repeat_spec in Hn. lia.
  - replace (i + 1) with (S i) in * by lia.
    refine (IH _ ls (S i) b b' v v0 z z' B B' (map (cdiv (stride_of ty 2)) sp) (map (cdiv (stride_of ty 2)) sp') HL ST Su Su' (positive_cdiv _ _) (positive_cdiv _ _) _ _ _ Hb Hb' E1 E2).
    + discriminate.
    + rewrite !map_length. exact L.
    + intros m Hm. apply in_map_iff in Hm as [m' [<- Hm']]. rewrite cdiv_cdiv; [|exact Hs|pose proof (Nat.pow_nonzero 2 (strides (q :: l))); lia]. rewrite <- ES. apply O, Hm'.
    + intros m Hm. apply in_map_iff in Hm as [m' [<- Hm']]. rewrite cdiv_cdiv; [|exact Hs|pose proof (Nat.pow_nonzero 2 (strides (q :: l))); lia]. rewrite <- ES. apply O', Hm'.
Qed.
(** a network (1D or 2D) whose normalisations are constant on single points gives the same logits for ALL inputs, of any batch and any content,
    whose sizes are at most 4 * 2^(number of strided stages) *)
Theorem resnet_small_inputs_constant W Nf nl kd cin layers classes k g bw st n x x' B B' sp sp' b b' :
  (forall c, nl c = Ok tt) -> 0 < bw -> (forall q, batch_local (W q)) -> (forall q, batch_local (Nf q)) -> (forall q, constant_on_points (Nf q)) ->
  resnet_create W Nf nl kd cin layers classes k g bw st = Ok n ->
  shape x = B :: cin :: sp -> shape x' = B' :: cin :: sp' -> sp <> [] -> List.length sp = List.length sp' -> b < B -> b' < B' ->
  (forall m, In m sp \/ In m sp' -> 1 <= m <= 4 * 2 ^ strides (plan layers st)) ->
  exists y y', resnet_forward W Nf n x = Ok y /\ resnet_forward W Nf n x' = Ok y' /\ shape y = [B; classes] /\ shape y' = [B'; classes] /\
    forall o, elt y [b; o] = elt y' [b'; o].
Proof.
  intros NL Hbw HW HN HC E Sx Sx' HSP L Hb Hb' SM.
  assert (HSP' : sp' <> []) by (destruct sp, sp'; try discriminate; contradiction).
  assert (P : positive sp) by (intros m Hm; specialize (SM m (or_introl Hm)); lia). assert (P' : positive sp') by (intros m Hm; specialize (SM m (or_intror Hm)); lia).
  destruct (resnet_forward_spec W Nf nl NL kd cin layers classes k g bw st n x B sp Hbw E Sx HSP P) as (f & y & Ef & Sf & Ey & Sy).
  destruct (resnet_forward_spec W Nf nl NL kd cin layers classes k g bw st n x' B' sp' Hbw E Sx' HSP' P') as (f' & y' & Ef' & Sf' & Ey' & Sy').
  exists y, y'. repeat (split; [assumption|]).
  destruct (net_from _ _ _ _ _ _ _ _ _ _ _ _ E) as [NF [q Eq]].
  assert (BL : Forall (Forall (fun bk => blk_points bk /\ blk_local bk)) (n_layers n)).
  { eapply Forall_impl; [|exact NF]. intros bs HF. eapply Forall_impl; [|exact HF]. intros bk [F1 F2].
    assert (PL : forall p, pair_from W Nf p -> batch_local (c_f (fst p)) /\ batch_local (snd p)) by (intros p [[q1 ->] [q2 ->]]; auto).
    assert (PC : forall p, pair_from W Nf p -> constant_on_points (snd p)) by (intros p [[q1 _] [q2 ->]]; auto).
    split; split; [eapply Forall_impl; [|exact F1]; exact PC| |eapply Forall_impl; [|exact F1]; exact PL|]; (destruct (b_down bk); [auto|exact I]). }
  assert (AF : agree b b' f f').
  { destruct (proj1 (resnet_create_iff W Nf nl NL kd cin layers classes k g bw st) (ex_intro _ n E)) as (HA & HP & HK & HD). destruct (create_built W Nf nl NL kd cin layers classes k g bw st HA HP HK HD) as [n' [E' BT]]. rewrite E in E'. injection E' as <-.
    destruct BT as (b0 & more & EL & SO & _ & _ & ST & EC & EF & TS & S1 & S2 & S3).
    unfold features in Ef, Ef'. inv_bind Ef. inv_bind Ef. inv_bind Ef'. inv_bind Ef'.
    rewrite <- S1 in Sx, Sx'. destruct (conv_apply_ok (n_stem n) x B sp TS Sx P) as [u [Eu Su]]. rewrite E0 in Eu. injection Eu as <-. destruct (conv_apply_ok (n_stem n) x' B' sp' TS Sx' P') as [u' [Eu' Su']]. rewrite E2 in Eu'. injection Eu' as <-.
    rewrite S2, S3 in Su, Su'.
    assert (S4 : shape v0 = B :: 64 :: map (cdiv 4) sp /\ shape v2 = B' :: 64 :: map (cdiv 4) sp').
    { revert E1 E3. unfold maxpool. cbn [shape relu same_shape]. rewrite Su, Su'.
      rewrite !(sequence_map_ok _ (cdiv 2)) by (intros m Hm; apply csize_pool; apply (positive_cdiv _ _ _ Hm)). cbn [bind]. rewrite !map_cdiv_cdiv by lia.
      intros Q1 Q2. injection Q1 as <-. injection Q2 as <-. split; reflexivity. }
    destruct S4 as [S4 S4']. rewrite EL in Ef, Ef', BL. cbn [layers_forward] in Ef, Ef'. inv_bind Ef. inv_bind Ef'.
    destruct (layer_forward_ok _ _ _ _ _ _ _ SO S4 (positive_cdiv _ _)) as [w [Ew Sw]]. rewrite E4 in Ew. injection Ew as <-.
    destruct (layer_forward_ok _ _ _ _ _ _ _ SO S4' (positive_cdiv _ _)) as [w' [Ew' Sw']]. rewrite E5 in Ew'. injection Ew' as <-.
    rewrite map_cdiv_1 in Sw, Sw' by apply positive_cdiv.
    refine (layers_points kd (plan layers st) _ more 0 b b' v3 v4 f f' B B' (map (cdiv 4) sp) (map (cdiv 4) sp') (Forall_inv_tail BL) _ _ _ (positive_cdiv _ _) (positive_cdiv _ _) _ _ _ Hb Hb' Ef Ef').
    - intros Q. apply (f_equal (@List.length _)) in Q. rewrite (plan_length W Nf nl NL layers st HP) in Q. destruct HP as [HP _]. cbn in Q. lia.
    - cbn [Nat.pow]. rewrite Nat.mul_1_r. exact ST.
    - cbn [Nat.pow]. rewrite Nat.mul_1_r. exact Sw.
    - cbn [Nat.pow]. rewrite Nat.mul_1_r. exact Sw'.
    - rewrite !map_length. exact L.
    - intros m Hm. apply in_map_iff in Hm as [m' [<- Hm']]. rewrite cdiv_cdiv; [|lia|pose proof (Nat.pow_nonzero 2 (strides (plan layers st))); lia]. specialize (SM m' (or_introl Hm')). unfold cdiv. rewrite Nat.div_small by lia. reflexivity.
    - intros m Hm. apply in_map_iff in Hm as [m' [<- Hm']]. rewrite cdiv_cdiv; [|lia|pose proof (Nat.pow_nonzero 2 (strides (plan layers st))); lia]. specialize (SM m' (or_intror Hm')). unfold cdiv. rewrite Nat.div_small by lia. reflexivity. }
  intros o. unfold resnet_forward in Ey, Ey'. rewrite Ef in Ey. rewrite Ef' in Ey'. cbn [bind] in Ey, Ey'. rewrite Sf in Ey. rewrite Sf' in Ey'.
  destruct (_ =? _); [|discriminate]. injection Ey as <-. injection Ey' as <-. cbn [elt]. apply HW. exact AF.
Qed.

Local Open Scope R_scope.
(** ** GroupNorm1D as the network uses it, in formulas *)
Lemma gnorm_value groups eps w bias x B C T b c t : 0 < eps -> shape x = [B; C; T] -> (b < B)%nat -> (c < C)%nat -> (t < T)%nat ->
  forall m, gnorm_getter groups C eps = Ok m ->
  gnorm_arith groups eps w bias x [b; c; t] =
    (elt x [b; c; t] - group_mean x (gn_cpg m) T b (c / gn_cpg m)) / sqrt (group_var x (gn_cpg m) T b (c / gn_cpg m) + eps) * w c + bias c.
Proof.
  intros He Sx Hb Hc Ht m EG. unfold gnorm_arith. rewrite Sx, EG.
  replace (b <? B)%nat with true by (symmetry; apply Nat.ltb_lt; exact Hb). replace (c <? C)%nat with true by (symmetry; apply Nat.ltb_lt; exact Hc). replace (t <? T)%nat with true by (symmetry; apply Nat.ltb_lt; exact Ht). cbn [andb].
  pose proof EG as EG'. unfold gnorm_getter in EG'. set (gr := match groups with Some g => _ | None => None end) in EG'.
  set (ww := mk [C; 1%nat] (fun i => w (hd 0%nat i))). set (bb := mk [C; 1%nat] (fun i => bias (hd 0%nat i))).
  destruct (groupnorm1d_textbook C gr eps m (gnorm_params m ww bb) ww bb x B T EG' eq_refl ltac:(lia) eq_refl eq_refl Sx ltac:(lia)) as [y [Ey [_ Vy]]].
  { intros. pose proof (group_var_nonneg x (gn_cpg (gnorm_params m ww bb)) T i (c0 / gn_cpg (gnorm_params m ww bb))). lra. }
  rewrite Ey, Vy by assumption. reflexivity.
Qed.
(** the default (as many groups as channels): a channel of one sample becomes the bias of that channel *)
Lemma gnorm_points eps w bias : 0 < eps -> constant_on_points (on3 (gnorm_arith None eps w bias)).
Proof.
  intros He b b' x x' B B' ch sp S1 S2 O Hb Hb' i Hi. unfold on3. rewrite S1, S2. destruct (Nat.eqb_spec (length (B :: ch :: sp)) 3) as [L|L].
  2:{ destruct (Nat.eqb_spec (length (B' :: ch :: sp)) 3) as [L'|L']; [cbn in *; lia|reflexivity]. }
  replace (length (B' :: ch :: sp) =? 3)%nat with true by (symmetry; apply Nat.eqb_eq; cbn in *; lia).
  destruct sp as [|T [|? ?]]; try discriminate L. assert (T = 1)%nat by (apply O; left; reflexivity). subst T.
  destruct i as [|c [|t [|? ?]]]; cbn [inb] in Hi; try tauto. destruct Hi as (Hc & Ht & _).
  assert (EG : gnorm_getter None ch eps = gnorm_create ch None eps) by reflexivity.
  assert (exists m, gnorm_getter None ch eps = Ok m /\ gn_cpg m = 1%nat) as (m & Em & Cm).
  { unfold gnorm_getter, gnorm_create. destruct (Nat.eqb_spec ch 0); [lia|]. rewrite Nat.mod_same by lia. cbn [Nat.eqb negb]. eexists. split; [reflexivity|]. cbn. apply Nat.div_same. lia. }
  assert (t = 0)%nat by lia. subst t.
  rewrite (gnorm_value None eps w bias x B ch 1 b c 0 He S1 Hb Hc Ht m Em), (gnorm_value None eps w bias x' B' ch 1 b' c 0 He S2 Hb' Hc Ht m Em), Cm.
  assert (GM : forall y k, group_mean y 1 1 k (c / 1) = elt y [k; c; 0%nat]).
  { intros y k. unfold group_mean. rewrite Nat.div_1_r. cbn [Rsum]. rewrite Nat.mul_1_r, Nat.add_0_r. cbn [INR]. field. }
  rewrite !GM. replace (elt x [b; c; 0%nat] - elt x [b; c; 0%nat]) with 0 by ring. replace (elt x' [b'; c; 0%nat] - elt x' [b'; c; 0%nat]) with 0 by ring. unfold Rdiv. rewrite !Rmult_0_l. reflexivity.
Qed.
Lemma resnet1d_W_local geo w hw hb q : batch_local (resnet1d_W geo w hw hb q).
Proof.
  unfold resnet1d_W. destruct (list_eq_dec _ q [1%nat]); [apply maxpool1d_local|]. destruct (list_eq_dec _ q [2%nat]); [apply head_local|].
  destruct (geo q) as [[[[[k' s'] p'] d'] cpg] opg]. apply conv1d_local.
Qed.
(** ResNet1D with its default norm layer: every input of at most 4 * 2^(strided stages) samples gives the same logits, whatever it contains *)
Theorem resnet1d_short_constant geo w hw hb eps nw nb nl kd cin layers classes k g bw st n x x' B B' T T' b b' :
  let W := resnet1d_W geo w hw hb in let N := resnet1d_N None eps nw nb in
  0 < eps -> (forall c, nl c = Ok tt) -> (0 < bw)%nat ->
  resnet_create W N nl kd cin layers classes k g bw st = Ok n ->
  shape x = [B; cin; T] -> shape x' = [B'; cin; T'] -> (1 <= T <= 4 * 2 ^ strides (plan layers st))%nat -> (1 <= T' <= 4 * 2 ^ strides (plan layers st))%nat -> (b < B)%nat -> (b' < B')%nat ->
  exists y y', resnet_forward W N n x = Ok y /\ resnet_forward W N n x' = Ok y' /\ shape y = [B; classes] /\ shape y' = [B'; classes] /\
    forall o, elt y [b; o] = elt y' [b'; o].
Proof.
  intros W N He NL Hbw E Sx Sx' HT HT' Hb Hb'.
  apply (resnet_small_inputs_constant W N nl kd cin layers classes k g bw st n x x' B B' [T] [T'] b b' NL Hbw); try assumption.
  - intros q. apply resnet1d_W_local.
  - intros q. apply gnorm_local. exact He.
  - intros q. apply gnorm_points. exact He.
  - discriminate.
  - reflexivity.
  - intros m [[<-|[]]|[<-|[]]]; assumption.
Qed.

(** ** the amplitude of the input *)
Definition stem_eps (groups : option nat) (eps eps' : R) (nw nb : list nat -> nat -> R) (q : list nat) : arith :=
  on3 (gnorm_arith groups (if list_eq_dec Nat.eq_dec q [] then eps' else eps) (nw q) (nb q)).
Lemma conv_scal k s p d cpg opg w a x i : conv1d_arith k s p d cpg opg w (tmap (Rmult a) x) i = a * conv1d_arith k s p d cpg opg w x i.
Proof.
  unfold conv1d_arith. destruct i as [|b [|o [|t [|? ?]]]]; try (rewrite Rmult_0_r; reflexivity). rewrite <- Rsum_scal. apply Rsum_ext. intros c _. cbn [tmap shape].
  destruct (_ <? _)%nat; [|rewrite Rmult_0_r; reflexivity]. rewrite <- Rsum_scal. apply Rsum_ext. intros j _. unfold padded. cbn [tmap shape elt]. destruct (_ && _)%bool; ring.
Qed.
Lemma gnorm_scal groups eps w bias a x i : 0 < eps -> 0 < a ->
  gnorm_arith groups eps w bias (tmap (Rmult a) x) i = gnorm_arith groups (eps / a ^ 2) w bias x i.
Proof.
  intros He Ha. assert (Ha2 : 0 < a ^ 2) by (apply pow_lt; exact Ha). assert (He2 : 0 < eps / a ^ 2) by (apply Rdiv_lt_0_compat; assumption).
  destruct (shape x) as [|B [|C [|T [|? ?]]]] eqn:Sx; try (unfold gnorm_arith; cbn [tmap shape]; rewrite Sx; reflexivity).
  destruct i as [|b [|c [|t [|? ?]]]]; try (unfold gnorm_arith; cbn [tmap shape]; rewrite Sx; reflexivity).
  assert (D : (b < B /\ c < C /\ t < T)%nat \/ ((b <? B) && (c <? C) && (t <? T))%nat = false).
  { destruct (Nat.ltb_spec b B), (Nat.ltb_spec c C), (Nat.ltb_spec t T); cbn; tauto. }
  destruct D as [(Hb & Hc & Ht)|D]; [|unfold gnorm_arith; cbn [tmap shape]; rewrite Sx, D; reflexivity].
  destruct (gnorm_getter groups C eps) as [m|e] eqn:EG.
  2:{ assert (EG' : gnorm_getter groups C (eps / a ^ 2) = Err e).
      { revert EG. unfold gnorm_getter, gnorm_create. set (g := match _ with Some (S g) => S g | _ => C end). destruct (g =? 0)%nat; [intros Q; exact Q|]. destruct (negb _); [intros Q; exact Q|discriminate]. }
      unfold gnorm_arith. cbn [tmap shape]. rewrite Sx, EG, EG'. reflexivity. }
  assert (exists m', gnorm_getter groups C (eps / a ^ 2) = Ok m' /\ gn_cpg m' = gn_cpg m) as (m' & EG' & CM).
  { revert EG. unfold gnorm_getter, gnorm_create. set (g := match _ with Some (S g) => S g | _ => C end). destruct (g =? 0)%nat; [discriminate|]. destruct (negb _); [discriminate|]. intros Q. injection Q as <-. eexists. split; reflexivity. }
  rewrite (gnorm_value groups eps w bias (tmap (Rmult a) x) B C T b c t He Sx Hb Hc Ht m EG), (gnorm_value groups (eps / a ^ 2) w bias x B C T b c t He2 Sx Hb Hc Ht m' EG'), CM.
  set (p := gn_cpg m). set (gi := (c / p)%nat).
  assert (GM : group_mean (tmap (Rmult a) x) p T b gi = a * group_mean x p T b gi).
  { unfold group_mean. unfold Rdiv. rewrite <- Rmult_assoc. f_equal. rewrite <- Rsum_scal. apply Rsum_ext. intros j _. rewrite <- Rsum_scal. reflexivity. }
  assert (GV : group_var (tmap (Rmult a) x) p T b gi = a ^ 2 * group_var x p T b gi).
  { unfold group_var. rewrite GM. unfold Rdiv. rewrite <- Rmult_assoc. f_equal. rewrite <- Rsum_scal. apply Rsum_ext. intros j _. rewrite <- Rsum_scal. apply Rsum_ext. intros u _. cbn [tmap elt]. ring. }
  rewrite GM, GV. cbn [tmap elt]. pose proof (group_var_nonneg x p T b gi) as GN. set (v := group_var x p T b gi) in *. clearbody v.
  replace (a ^ 2 * v + eps) with (a ^ 2 * (v + eps / a ^ 2)) by (field; lra). rewrite sqrt_mult by lra. rewrite sqrt_pow2 by lra.
  assert (0 < sqrt (v + eps / a ^ 2)) by (apply sqrt_lt_R0; lra). f_equal. f_equal. field. split; lra.
Qed.
(** multiplying the input by a positive number is the same as dividing the eps of the first normalisation by its square: the logits depend on the
    amplitude of the input through that eps alone *)
Theorem resnet1d_amplitude geo w hw hb groups eps nw nb nl kd cin layers classes k g bw st n x a :
  let W := resnet1d_W geo w hw hb in let N := resnet1d_N groups eps nw nb in
  0 < eps -> 0 < a -> resnet_create W N nl kd cin layers classes k g bw st = Ok n ->
  resnet_forward W N n (tmap (Rmult a) x) = resnet_forward W (stem_eps groups eps (eps / a ^ 2) nw nb) n x.
Proof.
  intros W N He Ha E. destruct (net_from _ _ _ _ _ _ _ _ _ _ _ _ E) as [_ _].
  assert (Ef : c_f (n_stem n) = W []).
  { unfold resnet_create in E. destruct (negb _); [discriminate|]. inv_bind E. inv_bind E. destruct layers as [|nb0 rest]; [discriminate|]. inv_bind E. inv_bind E. destruct rest; [discriminate|]. injection E as <-. cbn [n_stem].
    apply nn_conv_inv in E0 as [F _]. exact F. }
  unfold resnet_forward. f_equal. unfold features. unfold conv_apply at 1 2. cbn [tmap shape]. destruct (shape x) as [|B [|ch sp]] eqn:Sx; [reflexivity|reflexivity|].
  destruct (_ =? _)%nat; [|reflexivity]. destruct (sequence _) as [sp'|e]; [|reflexivity]. cbn [bind]. rewrite Ef.
  assert (EQ : same_shape (N []) (mk (B :: c_out (n_stem n) :: sp') (W [] (tmap (Rmult a) x))) =
               same_shape (stem_eps groups eps (eps / a ^ 2) nw nb []) (mk (B :: c_out (n_stem n) :: sp') (W [] x))).
  { unfold same_shape. cbn [shape]. f_equal. apply functional_extensionality. intros i. unfold N, resnet1d_N, stem_eps, on3. cbn [shape]. destruct (_ =? _)%nat; [|reflexivity].
    cbn [list_eq_dec list_rec list_rect].
    rewrite <- (gnorm_scal groups eps (nw []) (nb []) a _ i He Ha). f_equal. unfold tmap. cbn [shape elt]. f_equal. apply functional_extensionality. intros j.
    unfold W, resnet1d_W. cbn [list_eq_dec list_rec list_rect]. destruct (list_eq_dec Nat.eq_dec [] [1%nat]); [discriminate|]. destruct (list_eq_dec Nat.eq_dec [] [2%nat]); [discriminate|].
    destruct (geo []) as [[[[[k' s'] p'] d'] cpg] opg]. unfold on3. cbn [shape tmap]. destruct (_ =? _)%nat; [|ring].
    apply (conv_scal k' s' p' d' cpg opg (w []) a x j). }
  rewrite EQ. reflexivity.
Qed.

(** non-vacuity: ResNet1D(in_channels=1, layers=[1, 1], classes=2): inputs of 1 to 8 samples all give the same logits *)
Example resnet1d_short_ex : exists n, resnet_create (resnet1d_W (fun _ => (3, 1, 1, 1, 1, 1)%nat) (fun _ _ _ _ => 1) (fun _ _ => 1) (fun _ => 0)) (resnet1d_N None (1 / 100000) (fun _ _ => 1) (fun _ _ => 0))
    (fun _ => Ok tt) Basic 1 [1; 1]%nat 2 3 1 64 None = Ok n /\ (4 * 2 ^ strides (plan [1; 1] None) = 8)%nat.
Proof.
  destruct (proj2 (resnet_create_iff (resnet1d_W (fun _ => (3, 1, 1, 1, 1, 1)%nat) (fun _ _ _ _ => 1) (fun _ _ => 1) (fun _ => 0)) (resnet1d_N None (1 / 100000) (fun _ _ => 1) (fun _ _ => 0))
    (fun _ => Ok tt) (fun _ => eq_refl) Basic 1 [1; 1]%nat 2 3 1 64 None)) as [n Hn].
  - split; [split; [reflexivity|split; reflexivity]|]. split; [split; cbn; [lia|exact I || reflexivity]|]. split; [repeat constructor; discriminate|]. cbn. split; [discriminate|exact I].
  - exists n. split; [exact Hn|reflexivity].
Qed.
