(** C59/C89: the ResNets: no two layers share parameters, normalisations fit their convolutions, and batch elements do not influence each other. *)
From Coq Require Import Reals Lra.
From Verif Require Import Base Tensor Bcast Rutil Resnet_model Resnet_props.
Local Open Scope nat_scope.

Lemma bind_ok {A B} (r : res A) (f : A -> res B) b : bind r f = Ok b -> exists a, r = Ok a /\ f a = Ok b.
Proof. destruct r; cbn; [eauto|discriminate]. Qed.
Ltac inv_bind H := let a := fresh "v" in let E := fresh "E" in apply bind_ok in H as [a [E H]].

(** the convolutions of a block and of a network, in no particular order *)
Definition blk_convs (b : blk) : list conv := map fst (b_main b) ++ match b_down b with Some (c, _) => [c] | None => [] end.
Definition layer_convs (l : list blk) : list conv := flat_map blk_convs l.
Definition net_convs (n : net) : list conv := n_stem n :: flat_map layer_convs (n_layers n).

Section Net.
Variable W Nf : list nat -> arith.
Variable nl : nat -> res unit.
Definition normed (c : conv) : Prop := nl (c_out c) = Ok tt.

Lemma nn_conv_inv cin cout k s p d g f c : nn_conv cin cout k s p d g f = Ok c -> c_f c = f /\ c_in c = cin /\ c_out c = cout.
Proof. unfold nn_conv. destruct (g =? 0); [discriminate|]. destruct (negb _); [discriminate|]. destruct (negb _); [discriminate|]. intros E; injection E as <-; auto. Qed.
Lemma convN_inv cin cout k s g d f c : convN cin cout k s g d f = Ok c -> c_f c = f /\ c_in c = cin /\ c_out c = cout.
Proof. unfold convN. destruct (_ =? _); [discriminate|]. apply nn_conv_inv. Qed.
Lemma unit_ok (r : res unit) u : r = Ok u -> r = Ok tt. Proof. destruct u; auto. Qed.

Lemma block_inv kd path a planes k s down g bw d b : block W Nf nl kd path a planes k s down g bw d = Ok b ->
  b_down b = down /\ map c_f (map fst (b_main b)) = map (fun j => W (path ++ [j])) (seq 1 (main_len kd)) /\ Forall normed (map fst (b_main b)).
Proof.
  destruct kd; cbn [block]; unfold basic_block, bottleneck.
  - destruct (negb _); [discriminate|]. destruct (1 <? d); [discriminate|]. intros H. inv_bind H. inv_bind H. inv_bind H. inv_bind H. injection H as <-.
    apply convN_inv in E as [F1 [_ O1]]. apply convN_inv in E1 as [F2 [_ O2]]. cbn. rewrite F1, F2. split; [reflexivity|]. split; [reflexivity|].
    repeat constructor; unfold normed; rewrite ?O1, ?O2; eapply unit_ok; eassumption.
  - intros H. inv_bind H. inv_bind H. inv_bind H. inv_bind H. inv_bind H. inv_bind H. injection H as <-.
    apply convN_inv in E as [F1 [_ O1]]. apply convN_inv in E1 as [F2 [_ O2]]. apply nn_conv_inv in E3 as [F3 [_ O3]]. cbn. rewrite F1, F2, F3. split; [reflexivity|]. split; [reflexivity|].
    repeat constructor; unfold normed; rewrite ?O1, ?O2, ?O3; eapply unit_ok; eassumption.
Qed.
(** the positions of a layer's convolutions: below [path], below distinct block numbers *)
Lemma layer_inv kd path g bw st planes nb k s ty bs st' : make_layer W Nf nl kd path g bw st planes nb k s ty = Ok (bs, st') ->
  Forall normed (layer_convs bs) /\ exists ps, map c_f (layer_convs bs) = map W ps /\ NoDup ps /\ forall p, In p ps -> exists i j, p = path ++ [i; j].
Proof.
  unfold make_layer. destruct st as [inp pd]. intros H. inv_bind H. destruct v as [dil str]. inv_bind H. inv_bind H. inv_bind H. injection H as <- <-.
  apply block_inv in E1 as [D1 [P1 N1]].
  assert (DN : match v with Some (c, _) => c_f c = W (path ++ [0; 0]) /\ normed c | None => True end).
  { destruct (_ || _); [|injection E0 as <-; exact I]. inv_bind E0. inv_bind E0. injection E0 as <-. apply nn_conv_inv in E1 as [F [_ O]]. split; [exact F|]. unfold normed. rewrite O. eapply unit_ok; eassumption. }
  assert (RS : forall js rs, sequence (map (fun j => block W Nf nl kd (path ++ [j]) (planes * expansion kd) planes k 1 None g bw dil) js) = Ok rs ->
     Forall normed (layer_convs rs) /\ map c_f (layer_convs rs) = map W (flat_map (fun j => map (fun i => path ++ [j; i]) (seq 1 (main_len kd))) js)).
  { induction js as [|j js IH]; cbn [map sequence]; intros rs Hr; [injection Hr as <-; split; [constructor|reflexivity]|].
    inv_bind Hr. inv_bind Hr. injection Hr as <-. apply block_inv in E1 as [D [P N]]. destruct (IH _ E3) as [A1 A2]. cbn [layer_convs flat_map]. unfold blk_convs at 1 3. rewrite D, app_nil_r.
    split; [apply Forall_app; split; assumption|]. rewrite map_app. fold (layer_convs v3). rewrite A2, P, map_app, map_map. f_equal. apply map_ext. intros i. rewrite <- app_assoc. reflexivity. }
  destruct (RS _ _ E2) as [NR FR]. cbn [layer_convs flat_map]. fold (layer_convs v1).
  split.
  - apply Forall_app. split; [|exact NR]. unfold blk_convs. apply Forall_app. split; [exact N1|]. rewrite D1. destruct v as [[c n]|]; constructor; [apply DN|constructor].
  - exists ((map (fun i => path ++ [0; i]) (seq 1 (main_len kd)) ++ match v with Some _ => [path ++ [0; 0]] | None => [] end) ++ flat_map (fun j => map (fun i => path ++ [j; i]) (seq 1 (main_len kd))) (seq 1 (nb - 1))).
    split; [|split].
    + rewrite !map_app, FR. f_equal. unfold blk_convs. rewrite map_app, P1, map_map, D1. f_equal; [apply map_ext; intros i; rewrite <- app_assoc; reflexivity|].
      destruct v as [[c n]|]; [cbn; f_equal; apply DN|reflexivity].
    + assert (INJ : forall i j i' j', path ++ [i; j] = path ++ [i'; j'] -> i = i' /\ j = j').
      { intros i j i' j' E'. apply app_inv_head in E'. injection E'. auto. }
      assert (ND : forall j l, NoDup l -> NoDup (map (fun i => path ++ [j; i]) l)).
      { intros j l Hl. induction Hl as [|x l Hx Hl IH]; cbn; constructor; [|exact IH]. rewrite in_map_iff. intros [y [E' Hy]]. apply INJ in E' as [_ ->]. contradiction. }
      assert (AP : forall (l m : list (list nat)), NoDup l -> NoDup m -> (forall x, In x l -> ~ In x m) -> NoDup (l ++ m)).
      { induction l as [|x l IH]; cbn; intros m Hl Hm Hd; [exact Hm|]. inversion Hl; subst. constructor; [rewrite in_app_iff; intros [?|?]; [contradiction|]; apply (Hd x); auto|apply IH; auto]. }
      apply AP.
      * apply AP; [apply ND, seq_NoDup|destruct v; repeat constructor; auto|]. intros x Hx Hx'. destruct v as [p|]; [|contradiction]. destruct Hx' as [<-|[]].
        apply in_map_iff in Hx as [i [E' Hi]]. apply INJ in E' as [_ ->]. apply in_seq in Hi. lia.
      * assert (G : forall js, NoDup js -> NoDup (flat_map (fun j => map (fun i => path ++ [j; i]) (seq 1 (main_len kd))) js)).
        { induction js as [|j js IH]; cbn; intros Hj; [constructor|]. inversion Hj; subst. apply AP; [apply ND, seq_NoDup|auto|].
          intros x Hx Hx'. apply in_map_iff in Hx as [i [<- Hi]]. apply in_flat_map in Hx' as [j' [Hj' Hx']]. apply in_map_iff in Hx' as [i' [E' Hi']]. apply INJ in E' as [-> _]. contradiction. }
        apply G, seq_NoDup.
      * intros x Hx Hx'. apply in_flat_map in Hx' as [j' [Hj' Hx']]. apply in_map_iff in Hx' as [i' [<- Hi']]. apply in_seq in Hj'.
        apply in_app_iff in Hx as [Hx|Hx]; [apply in_map_iff in Hx as [i [E' _]]; apply INJ in E' as [E'' _]; lia|].
        destruct v as [p|]; [|contradiction]. destruct Hx as [E'|[]]. apply INJ in E' as [E'' _]. lia.
    + intros p Hp. apply in_app_iff in Hp as [Hp|Hp].
      * apply in_app_iff in Hp as [Hp|Hp]; [apply in_map_iff in Hp as [i [<- _]]; eauto|]. destruct v; [|contradiction]. destruct Hp as [<-|[]]. eauto.
      * apply in_flat_map in Hp as [j [_ Hp]]. apply in_map_iff in Hp as [i [<- _]]. eauto.
Qed.
Lemma more_layers_inv kd g bw k l : forall i st ls, more_layers W Nf nl kd g bw k i st l = Ok ls ->
  Forall normed (flat_map layer_convs ls) /\ exists ps, map c_f (flat_map layer_convs ls) = map W ps /\ NoDup ps /\ forall p, In p ps -> exists h a b, p = [h; a; b] /\ i < h.
Proof.
  induction l as [|[nb ty] l IH]; intros i st ls; cbn [more_layers]; intros H.
  - injection H as <-. split; [constructor|]. exists []. split; [reflexivity|]. split; [constructor|contradiction].
  - inv_bind H. inv_bind H. injection H as <-. destruct v as [bs st']. cbn [fst snd] in *. apply layer_inv in E as [N [ps [P [ND Q]]]]. apply IH in E0 as [N' [ps' [P' [ND' Q']]]].
    cbn [flat_map]. split; [apply Forall_app; auto|]. exists (ps ++ ps'). rewrite !map_app, P, P'. split; [reflexivity|]. split.
    + clear - ND ND' Q Q'. induction ND as [|x ps Hx ND IH]; [exact ND'|]. cbn. constructor; [|apply IH; intros; apply Q; now right].
      rewrite in_app_iff. intros [H|H]; [contradiction|]. apply Q' in H as [h [a [b [-> Hh]]]]. destruct (Q _ (or_introl eq_refl)) as [a' [b' E]]. cbn in E. injection E as E1 _ _. lia.
    + intros p Hp. apply in_app_iff in Hp as [Hp|Hp]; [apply Q in Hp as [a [b ->]]; exists (S i), a, b; split; [reflexivity|lia]|].
      apply Q' in Hp as [h [a [b [-> Hh]]]]. exists h, a, b. split; [reflexivity|lia].
Qed.
(** no two convolutions of the network share their parameters (nor with the pooling and the head, at positions [1] and [2]), and every convolution's normalisation was built for the number of channels it outputs *)
Theorem resnet_parameters kd cin layers classes k g bw st n : resnet_create W Nf nl kd cin layers classes k g bw st = Ok n ->
  Forall (fun c => nl (c_out c) = Ok tt) (net_convs n) /\
  exists ps, map c_f (net_convs n) = map W ps /\ NoDup ([1] :: [2] :: ps).
Proof.
  unfold resnet_create. set (sts := match st with Some s => s | None => _ end). destruct (negb _); [discriminate|]. intros H. inv_bind H. inv_bind H.
  destruct layers as [|nb rest]; [discriminate|]. inv_bind H. inv_bind H. destruct rest as [|nb' rest]; [discriminate|]. injection H as <-. destruct v1 as [bs st']. cbn [fst snd] in *.
  apply nn_conv_inv in E as [F [_ O]]. apply layer_inv in E1 as [N [ps [P [ND Q]]]]. apply more_layers_inv in E2 as [N' [ps' [P' [ND' Q']]]].
  unfold net_convs. cbn [n_stem n_layers flat_map]. split.
  - constructor; [rewrite O; eapply unit_ok; eassumption|]. apply Forall_app. split; assumption.
  - exists ([] :: ps ++ ps'). cbn [map]. rewrite !map_app, P, P', F. split; [reflexivity|].
    assert (L : forall p, In p (ps ++ ps') -> length p = 3).
    { intros p Hp. apply in_app_iff in Hp as [Hp|Hp]; [apply Q in Hp as [a [b ->]]; reflexivity|apply Q' in Hp as [h [a [b [-> _]]]]; reflexivity]. }
    constructor; [|constructor; [|constructor]].
    + intros [Hx|[Hx|Hx]]; try discriminate. apply L in Hx. discriminate.
    + intros [Hx|Hx]; try discriminate. apply L in Hx. discriminate.
    + intros Hx. apply L in Hx. discriminate.
    + clear - ND ND' Q Q'. induction ND as [|x ps Hx ND IH]; [exact ND'|]. cbn. constructor; [|apply IH; intros; apply Q; now right].
      rewrite in_app_iff. intros [H|H]; [contradiction|]. apply Q' in H as [h [a [b [-> Hh]]]]. destruct (Q _ (or_introl eq_refl)) as [a' [b' E]]. cbn in E. injection E as E1 _ _. lia.
Qed.

(** the arithmetic of every layer of a built network comes from [W] and [Nf] *)
Definition pair_from (p : conv * arith) : Prop := (exists q, c_f (fst p) = W q) /\ exists q, snd p = Nf q.
Definition blk_from (b : blk) : Prop := Forall pair_from (b_main b) /\ match b_down b with Some p => pair_from p | None => True end.
Lemma block_from kd path a planes k s down g bw d b : match down with Some p => pair_from p | None => True end -> block W Nf nl kd path a planes k s down g bw d = Ok b -> blk_from b.
Proof.
  intros HD. destruct kd; cbn [block]; unfold basic_block, bottleneck.
  - destruct (negb _); [discriminate|]. destruct (1 <? d); [discriminate|]. intros H. inv_bind H. inv_bind H. inv_bind H. inv_bind H. injection H as <-.
    apply convN_inv in E as [F1 _]. apply convN_inv in E1 as [F2 _]. split; [|exact HD]. cbn. repeat constructor; cbn; eauto.
  - intros H. inv_bind H. inv_bind H. inv_bind H. inv_bind H. inv_bind H. inv_bind H. injection H as <-.
    apply convN_inv in E as [F1 _]. apply convN_inv in E1 as [F2 _]. apply nn_conv_inv in E3 as [F3 _]. split; [|exact HD]. cbn. repeat constructor; cbn; eauto.
Qed.
Lemma layer_from kd path g bw st planes nb k s ty bs st' : make_layer W Nf nl kd path g bw st planes nb k s ty = Ok (bs, st') -> Forall blk_from bs.
Proof.
  unfold make_layer. destruct st as [inp pd]. intros H. inv_bind H. destruct v as [dil str]. inv_bind H. inv_bind H. inv_bind H. injection H as <- <-.
  constructor.
  - eapply block_from; [|exact E1]. destruct (_ || _); [|injection E0 as <-; exact I]. inv_bind E0. inv_bind E0. injection E0 as <-. apply nn_conv_inv in E3 as [F _]. split; cbn; eauto.
  - revert v1 E2. generalize (seq 1 (nb - 1)). induction l as [|j js IH]; cbn [map sequence]; intros rs Hr; [injection Hr as <-; constructor|].
    inv_bind Hr. inv_bind Hr. injection Hr as <-. constructor; [eapply block_from; [|exact E2]; exact I|apply IH; exact E3].
Qed.
Lemma more_layers_from kd g bw k l : forall i st ls, more_layers W Nf nl kd g bw k i st l = Ok ls -> Forall (Forall blk_from) ls.
Proof.
  induction l as [|[nb ty] l IH]; intros i st ls; cbn [more_layers]; intros H; [injection H as <-; constructor|].
  inv_bind H. inv_bind H. injection H as <-. destruct v as [bs st']. constructor; [eapply layer_from; exact E|eapply IH; exact E0].
Qed.
Lemma net_from kd cin layers classes k g bw st n : resnet_create W Nf nl kd cin layers classes k g bw st = Ok n -> Forall (Forall blk_from) (n_layers n) /\ exists q, c_f (n_stem n) = W q.
Proof.
  unfold resnet_create. destruct (negb _); [discriminate|]. intros H. inv_bind H. inv_bind H.
  destruct layers as [|nb rest]; [discriminate|]. inv_bind H. inv_bind H. destruct rest as [|nb' rest]; [discriminate|]. injection H as <-. destruct v1 as [bs st']. cbn [fst snd] in *.
  apply nn_conv_inv in E as [F _]. split; [|exists []; exact F]. constructor; [eapply layer_from; exact E1|eapply more_layers_from; exact E2].
Qed.
End Net.

(** ** batch elements *)
(** element [b] of the batch x and element [b'] of the batch x' are the same *)
Definition agree (b b' : nat) (x x' : tensor R) : Prop :=
  exists B B' sp, shape x = B :: sp /\ shape x' = B' :: sp /\ b < B /\ b' < B' /\ forall i, inb i sp -> elt x (b :: i) = elt x' (b' :: i).
(** an operation that treats batch elements independently: its output for an element is determined by that element *)
Definition batch_local (f : arith) : Prop := forall b b' x x', agree b b' x x' -> forall i, f x (b :: i) = f x' (b' :: i).

Lemma agree_same_shape f b b' x x' : batch_local f -> agree b b' x x' -> agree b b' (same_shape f x) (same_shape f x').
Proof. intros L A. pose proof (L _ _ _ _ A) as E. destruct A as (B & B' & sp & S1 & S2 & H1 & H2 & _). exists B, B', sp. cbn. auto. Qed.
Lemma agree_relu b b' x x' : agree b b' x x' -> agree b b' (relu x) (relu x').
Proof. intros (B & B' & sp & S1 & S2 & H1 & H2 & E). exists B, B', sp. cbn. repeat split; auto. intros i Hi. rewrite E by exact Hi. reflexivity. Qed.
Lemma agree_conv c b b' x x' y y' : batch_local (c_f c) -> agree b b' x x' -> conv_apply c x = Ok y -> conv_apply c x' = Ok y' -> agree b b' y y'.
Proof.
  intros L A. pose proof (L _ _ _ _ A) as E. destruct A as (B & B' & sp & S1 & S2 & H1 & H2 & _). unfold conv_apply. rewrite S1, S2. destruct sp as [|ch sp]; [discriminate|].
  destruct (_ =? _); [|discriminate]. destruct (sequence _) as [sp'|]; [|discriminate]. cbn [bind]. intros E1 E2. injection E1 as <-. injection E2 as <-.
  exists B, B', (c_out c :: sp'). cbn. auto.
Qed.
Lemma agree_main l : Forall (fun p => batch_local (c_f (fst p)) /\ batch_local (snd p)) l -> forall b b' x x' y y', agree b b' x x' -> main_path l x = Ok y -> main_path l x' = Ok y' -> agree b b' y y'.
Proof.
  induction 1 as [|[c n] l [Lc Ln] HF IH]; intros b b' x x' y y' A.
  - cbn. intros E1 E2. injection E1 as <-. injection E2 as <-. exact A.
  - cbn [main_path fst snd] in *. destruct l as [|p l].
    + intros E1 E2. inv_bind E1. inv_bind E2. injection E1 as <-. injection E2 as <-. apply agree_same_shape; [exact Ln|]. eapply agree_conv; eassumption.
    + intros E1 E2. inv_bind E1. inv_bind E2. refine (IH b b' _ _ y y' _ E1 E2). apply agree_relu, agree_same_shape; [exact Ln|]. eapply agree_conv; eassumption.
Qed.
Definition blk_local (b : blk) : Prop := Forall (fun p => batch_local (c_f (fst p)) /\ batch_local (snd p)) (b_main b) /\
  match b_down b with Some p => batch_local (c_f (fst p)) /\ batch_local (snd p) | None => True end.
Lemma agree_block bk cin cout s b b' x x' y y' B B' sp : blk_local bk -> block_ok bk cin cout s -> shape x = B :: cin :: sp -> shape x' = B' :: cin :: sp -> positive sp -> agree b b' x x' ->
  block_forward bk x = Ok y -> block_forward bk x' = Ok y' -> agree b b' y y'.
Proof.
  intros [LM LD] [CH D] Sx Sx' P A. unfold block_forward. intros E1 E2. inv_bind E1. inv_bind E1. inv_bind E1. inv_bind E2. inv_bind E2. inv_bind E2. injection E1 as <-. injection E2 as <-.
  pose proof (agree_main _ LM _ _ _ _ _ _ A E E4) as AM.
  assert (AI : agree b b' v0 v3).
  { destruct (b_down bk) as [[c n]|]; [|injection E0 as <-; injection E5 as <-; exact A]. inv_bind E0. inv_bind E5. injection E0 as <-. injection E5 as <-. cbn [fst snd] in LD.
    apply agree_same_shape; [apply LD|]. eapply agree_conv; [apply LD|exact A|eassumption|eassumption]. }
  destruct (main_path_ok _ _ _ _ CH x B sp Sx P) as [m [Em Sm]]. rewrite E in Em. injection Em as <-.
  destruct (main_path_ok _ _ _ _ CH x' B' sp Sx' P) as [m' [Em' Sm']]. rewrite E4 in Em'. injection Em' as <-.
  assert (SI : shape v0 = B :: cout :: map (cdiv s) sp /\ shape v3 = B' :: cout :: map (cdiv s) sp).
  { destruct (b_down bk) as [[c n]|].
    - destruct D as [T [D1 [D2 D3]]]. subst cin cout s. inv_bind E0. inv_bind E5. injection E0 as <-. injection E5 as <-.
      destruct (conv_apply_ok c x B sp T Sx P) as [u [Eu Su]]. destruct (conv_apply_ok c x' B' sp T Sx' P) as [u' [Eu' Su']]. rewrite E1 in Eu. injection Eu as <-. rewrite E2 in Eu'. injection Eu' as <-. cbn. auto.
    - destruct D as [-> ->]. injection E0 as <-. injection E5 as <-. rewrite map_cdiv_1 by exact P. auto. }
  destruct SI as [SI SI'].
  apply agree_relu. revert E3 E6. unfold bzip_inplace, bzip. rewrite Sm, SI, Sm', SI', !bshape_self. cbn [bind shape].
  destruct (list_eq_dec Nat.eq_dec _ _) as [_|]; [|discriminate]. destruct (list_eq_dec Nat.eq_dec _ _) as [_|]; [|discriminate]. intros E3 E6. injection E3 as <-. injection E6 as <-.
  destruct AM as (B1 & B1' & sp1 & S1 & S1' & H1 & H1' & EQ1). rewrite Sm in S1. injection S1 as <- <-. rewrite Sm' in S1'. injection S1' as <-.
  destruct AI as (B2 & B2' & sp2 & S2 & S2' & _ & _ & EQ2). rewrite SI in S2. injection S2 as <- <-. 
  exists B, B', (cout :: map (cdiv s) sp). cbn [shape elt]. repeat (split; [reflexivity || assumption|]). intros i Hi.
  rewrite !(bidx_self (b :: i)) by (cbn [inb]; auto). rewrite !(bidx_self (b' :: i)) by (cbn [inb]; auto). rewrite EQ1, EQ2 by exact Hi. reflexivity.
Qed.
Lemma agree_tail bs : forall cout b b' y y' z z' B B' sp, Forall blk_local bs -> Forall (fun bk => block_ok bk cout cout 1) bs -> shape y = B :: cout :: sp -> shape y' = B' :: cout :: sp -> positive sp -> agree b b' y y' ->
  layer_forward bs y = Ok z -> layer_forward bs y' = Ok z' -> agree b b' z z'.
Proof.
  induction bs as [|bk bs IH]; intros cout b b' y y' z z' B B' sp HL HF Sy Sy' P A; cbn [layer_forward].
  - intros E1 E2. injection E1 as <-. injection E2 as <-. exact A.
  - intros E1 E2. inv_bind E1. inv_bind E2. apply Forall_cons_iff in HL as [HL1 HL]. apply Forall_cons_iff in HF as [HF1 HF].
    destruct (block_forward_ok bk cout cout 1 y B sp HF1 Sy P) as [u [Eu Su]]. rewrite E in Eu. injection Eu as <-.
    destruct (block_forward_ok bk cout cout 1 y' B' sp HF1 Sy' P) as [u' [Eu' Su']]. rewrite E0 in Eu'. injection Eu' as <-. rewrite map_cdiv_1 in Su, Su' by exact P.
    eapply (IH cout b b' v v0 z z' B B' sp); try assumption. eapply (agree_block bk cout cout 1 b b' y y' v v0 B B' sp); assumption.
Qed.
Lemma agree_layer bs cin cout s b b' x x' z z' B B' sp : Forall blk_local bs -> stage_ok bs cin cout s -> shape x = B :: cin :: sp -> shape x' = B' :: cin :: sp -> positive sp -> agree b b' x x' ->
  layer_forward bs x = Ok z -> layer_forward bs x' = Ok z' -> agree b b' z z'.
Proof.
  intros HL H Sx Sx' P A. destruct H as [bk bs cin cout s HB HF]. cbn [layer_forward]. intros E1 E2. inv_bind E1. inv_bind E2. apply Forall_cons_iff in HL as [HL1 HL].
  destruct (block_forward_ok bk cin cout s x B sp HB Sx P) as [u [Eu Su]]. rewrite E in Eu. injection Eu as <-.
  destruct (block_forward_ok bk cin cout s x' B' sp HB Sx' P) as [u' [Eu' Su']]. rewrite E0 in Eu'. injection Eu' as <-.
  eapply (agree_tail bs cout b b' v v0 z z' B B' (map (cdiv s) sp)); try assumption; [apply positive_cdiv|].
  eapply (agree_block bk cin cout s b b' x x' v v0 B B' sp); assumption.
Qed.
Lemma agree_layers kd l : forall ls i cin b b' x x' z z' B B' sp, Forall (Forall blk_local) ls -> stages_ok kd i cin l ls -> shape x = B :: cin :: sp -> shape x' = B' :: cin :: sp -> positive sp -> agree b b' x x' ->
  layers_forward ls x = Ok z -> layers_forward ls x' = Ok z' -> agree b b' z z'.
Proof.
  induction l as [|[nb ty] l IH]; intros ls i cin b b' x x' z z' B B' sp HL HS Sx Sx' P A; destruct ls as [|bs ls]; try contradiction.
  - cbn. intros E1 E2. injection E1 as <-. injection E2 as <-. exact A.
  - cbn [stages_ok] in HS. destruct HS as [SO [_ [_ ST]]]. apply Forall_cons_iff in HL as [HL1 HL]. cbn [layers_forward]. intros E1 E2. inv_bind E1. inv_bind E2.
    destruct (layer_forward_ok _ _ _ _ _ _ _ SO Sx P) as [u [Eu Su]]. rewrite E in Eu. injection Eu as <-.
    destruct (layer_forward_ok _ _ _ _ _ _ _ SO Sx' P) as [u' [Eu' Su']]. rewrite E0 in Eu'. injection Eu' as <-.
    apply (IH ls (S i) _ b b' v v0 z z' B B' (map (cdiv (stride_of ty 2)) sp) HL ST Su Su' (positive_cdiv _ _)); [|exact E1|exact E2].
    exact (agree_layer bs _ _ _ b b' x x' v v0 B B' sp HL1 SO Sx Sx' P A E E0).
Qed.
(** the logits of a batch element depend on that element alone: not on the other elements, on their number or on its position, when the layers treat batch elements independently (convolution, pooling, linear, group normalisation, batch normalisation in eval mode) *)
Theorem resnet_batch_independent W Nf nl kd cin layers classes k g bw st n x x' B B' sp b b' :
  (forall c, nl c = Ok tt) -> 0 < bw -> (forall q, batch_local (W q)) -> (forall q, batch_local (Nf q)) ->
  resnet_create W Nf nl kd cin layers classes k g bw st = Ok n ->
  shape x = B :: cin :: sp -> shape x' = B' :: cin :: sp -> sp <> [] -> positive sp -> b < B -> b' < B' ->
  (forall i, inb i (cin :: sp) -> elt x (b :: i) = elt x' (b' :: i)) ->
  exists y y', resnet_forward W Nf n x = Ok y /\ resnet_forward W Nf n x' = Ok y' /\ shape y = [B; classes] /\ shape y' = [B'; classes] /\
    forall o, elt y [b; o] = elt y' [b'; o].
Proof.
  intros NL Hbw HW HN E Sx Sx' HSP P Hb Hb' EQ.
  destruct (resnet_forward_spec W Nf nl NL kd cin layers classes k g bw st n x B sp Hbw E Sx HSP P) as (f & y & Ef & Sf & Ey & Sy).
  destruct (resnet_forward_spec W Nf nl NL kd cin layers classes k g bw st n x' B' sp Hbw E Sx' HSP P) as (f' & y' & Ef' & Sf' & Ey' & Sy').
  exists y, y'. repeat (split; [assumption|]).
  assert (A : agree b b' x x') by (exists B, B', (cin :: sp); auto).
  destruct (net_from _ _ _ _ _ _ _ _ _ _ _ _ E) as [NF [q Eq]].
  assert (BL : Forall (Forall blk_local) (n_layers n)).
  { eapply Forall_impl; [|exact NF]. intros bs HF. eapply Forall_impl; [|exact HF]. intros bk [F1 F2].
    assert (PL : forall p, pair_from W Nf p -> batch_local (c_f (fst p)) /\ batch_local (snd p)) by (intros p [[q1 ->] [q2 ->]]; auto).
    split; [eapply Forall_impl; [|exact F1]; exact PL|]. destruct (b_down bk); [apply PL; exact F2|exact I]. }
  assert (AF : agree b b' f f').
  { destruct (proj1 (resnet_create_iff W Nf nl NL kd cin layers classes k g bw st) (ex_intro _ n E)) as (HA & HP & HK & HD). destruct (create_built W Nf nl NL kd cin layers classes k g bw st HA HP HK HD) as [n' [E' BT]]. rewrite E in E'. injection E' as <-.
    destruct BT as (b0 & more & EL & SO & _ & _ & ST & EC & EF & TS & S1 & S2 & S3).
    unfold features in Ef, Ef'. inv_bind Ef. inv_bind Ef. inv_bind Ef'. inv_bind Ef'.
    rewrite <- S1 in Sx, Sx'. destruct (conv_apply_ok (n_stem n) x B sp TS Sx P) as [u [Eu Su]]. rewrite E0 in Eu. injection Eu as <-. destruct (conv_apply_ok (n_stem n) x' B' sp TS Sx' P) as [u' [Eu' Su']]. rewrite E2 in Eu'. injection Eu' as <-.
    assert (AP : agree b b' v0 v2).
    { assert (A0 : agree b b' (relu (same_shape (Nf []) v)) (relu (same_shape (Nf []) v1))).
      { apply agree_relu, agree_same_shape; [apply HN|]. eapply agree_conv; [|exact A|exact E0|exact E2]. rewrite Eq. apply HW. }
      pose proof (HW [1] _ _ _ _ A0) as EW. revert E1 E3. unfold maxpool. cbn [shape relu same_shape]. rewrite Su, Su'. destruct (sequence _) as [sp'|]; [|discriminate]. cbn [bind]. intros E1 E3. injection E1 as <-. injection E3 as <-.
      exists B, B', (c_out (n_stem n) :: sp'). cbn [shape elt]. auto. }
    assert (SP : shape v0 = B :: 64 :: map (cdiv (2 * 2)) sp /\ shape v2 = B' :: 64 :: map (cdiv (2 * 2)) sp).
    { revert E1 E3. unfold maxpool. cbn [shape relu same_shape]. rewrite Su, Su', S2, S3. rewrite (sequence_map_ok _ (cdiv 2)) by (intros m Hm; apply csize_pool; apply (positive_cdiv _ _ _ Hm)). cbn [bind]. rewrite map_cdiv_cdiv by lia.
      intros E1 E3. injection E1 as <-. injection E3 as <-. auto. }
    destruct SP as [SP SP']. rewrite EL in Ef, Ef', BL. cbn [layers_forward] in Ef, Ef'. inv_bind Ef. inv_bind Ef'. apply Forall_cons_iff in BL as [BL0 BL].
    destruct (layer_forward_ok _ _ _ _ _ _ _ SO SP (positive_cdiv _ _)) as [u [Eu SU]]. rewrite E4 in Eu. injection Eu as <-.
    destruct (layer_forward_ok _ _ _ _ _ _ _ SO SP' (positive_cdiv _ _)) as [u' [Eu' SU']]. rewrite E5 in Eu'. injection Eu' as <-.
    apply (agree_layers kd _ more 0 _ b b' v3 v4 f f' B B' _ BL ST SU SU' (positive_cdiv _ _)); [|exact Ef|exact Ef'].
    exact (agree_layer b0 _ _ _ b b' v0 v2 v3 v4 B B' _ BL0 SO SP SP' (positive_cdiv _ _) AP E4 E5). }
  intros o. unfold resnet_forward in Ey, Ey'. rewrite Ef in Ey. rewrite Ef' in Ey'. cbn [bind] in Ey, Ey'. rewrite Sf in Ey. rewrite Sf' in Ey'.
  destruct (_ =? _); [|discriminate]. injection Ey as <-. injection Ey' as <-. cbn [elt]. apply HW. exact AF.
Qed.
