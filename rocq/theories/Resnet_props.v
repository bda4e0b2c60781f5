(** Property C59: ResNet construction and shapes. *)
From Coq Require Import Reals Lra.
From Verif Require Import Base Tensor Rutil Bcast Resnet_model.
Local Open Scope nat_scope.

(** ceil(n / s) *)
Definition cdiv (s n : nat) : nat := (n - 1) / s + 1.
Lemma cdiv_pos s n : 0 < cdiv s n. Proof. unfold cdiv. rewrite Nat.add_1_r. apply Nat.lt_0_succ. Qed.
Lemma cdiv_ceil s n : 0 < s -> 0 < n -> n <= s * cdiv s n /\ s * (cdiv s n - 1) < n.
Proof. intros Hs Hn. unfold cdiv. rewrite Nat.add_sub. pose proof (Nat.div_mod (n - 1) s ltac:(lia)). pose proof (Nat.mod_upper_bound (n - 1) s ltac:(lia)). split; nia. Qed.
Lemma cdiv_1 n : 0 < n -> cdiv 1 n = n. Proof. intros. unfold cdiv. rewrite Nat.div_1_r. lia. Qed.
Lemma cdiv_cdiv a b n : 0 < a -> 0 < b -> cdiv b (cdiv a n) = cdiv (a * b) n.
Proof. intros. unfold cdiv. rewrite Nat.add_sub. rewrite Nat.div_div by lia. reflexivity. Qed.
(** "same"-padded convolution of an odd kernel, whatever its dilation, divides the length by the stride, rounding up *)
Lemma csize_same k s d n : k mod 2 = 1 -> 0 < n -> csize k s (d * (k / 2)) d n = Ok (cdiv s n).
Proof.
  intros Hk Hn. unfold csize, cdiv. assert (E : 2 * (d * (k / 2)) = d * (k - 1)). { pose proof (Nat.div_mod k 2 ltac:(lia)). replace (k - 1) with (2 * (k / 2)) by lia. lia. }
  rewrite E. destruct (Nat.ltb_spec (n + d * (k - 1)) (d * (k - 1) + 1)); [lia|]. do 3 f_equal. lia.
Qed.
Lemma csize_1 s n : 0 < n -> csize 1 s 0 1 n = Ok (cdiv s n).
Proof. intros Hn. apply (csize_same 1 s 1 n eq_refl Hn). Qed.
Lemma csize_stem n : 0 < n -> csize 7 2 3 1 n = Ok (cdiv 2 n).
Proof. intros Hn. apply (csize_same 7 2 1 n eq_refl Hn). Qed.
Lemma csize_pool n : 0 < n -> csize 3 2 1 1 n = Ok (cdiv 2 n).
Proof. intros Hn. apply (csize_same 3 2 1 n eq_refl Hn). Qed.

Definition positive (sp : list nat) : Prop := forall n, In n sp -> 0 < n.
Lemma positive_cdiv s sp : positive (map (cdiv s) sp).
Proof. intros n H. apply in_map_iff in H. destruct H as [m [<- _]]. apply cdiv_pos. Qed.
(** a convolution that keeps lengths up to its stride *)
Definition tight (c : conv) : Prop := forall n, 0 < n -> csize (c_k c) (c_s c) (c_p c) (c_d c) n = Ok (cdiv (c_s c) n).
Lemma conv_apply_ok c x B sp : tight c -> shape x = B :: c_in c :: sp -> positive sp ->
  exists y, conv_apply c x = Ok y /\ shape y = B :: c_out c :: map (cdiv (c_s c)) sp.
Proof.
  intros T HS P. unfold conv_apply. rewrite HS, Nat.eqb_refl. rewrite (sequence_map_ok _ (cdiv (c_s c))) by (intros n Hn; apply T, P, Hn). cbn [bind]. eexists. split; reflexivity.
Qed.
Lemma map_cdiv_1 sp : positive sp -> map (cdiv 1) sp = sp.
Proof. induction sp as [|n sp IH]; intros P; [reflexivity|]. cbn [map]. rewrite cdiv_1 by (apply P; left; reflexivity). rewrite IH by (intros m Hm; apply P; right; exact Hm). reflexivity. Qed.
Lemma map_cdiv_cdiv a b sp : 0 < a -> 0 < b -> map (cdiv b) (map (cdiv a) sp) = map (cdiv (a * b)) sp.
Proof. intros. rewrite map_map. apply map_ext. intros n. apply cdiv_cdiv; assumption. Qed.
(** main path from [cin] to [cout] channels with total stride [s] *)
Inductive chain : list (conv * arith) -> nat -> nat -> nat -> Prop :=
| chain1 c n : tight c -> 0 < c_s c -> chain [(c, n)] (c_in c) (c_out c) (c_s c)
| chainS c n l cout s : tight c -> 0 < c_s c -> l <> [] -> chain l (c_out c) cout s -> chain ((c, n) :: l) (c_in c) cout (c_s c * s).
Lemma chain_s l a b s : chain l a b s -> 0 < s.
Proof. induction 1; nia. Qed.
Lemma main_path_ok l a b s : chain l a b s -> forall x B sp, shape x = B :: a :: sp -> positive sp -> exists y, main_path l x = Ok y /\ shape y = B :: b :: map (cdiv s) sp.
Proof.
  induction 1 as [c n T Ps|c n l cout s T Ps NE CH IH]; intros x B sp HS P.
  - cbn [main_path]. destruct (conv_apply_ok c x B sp T HS P) as [y [E Sy]]. rewrite E. cbn [bind]. eexists. split; [reflexivity|exact Sy].
  - destruct (conv_apply_ok c x B sp T HS P) as [y [E Sy]]. destruct l as [|p l]; [contradiction|]. destruct (IH (relu (same_shape n y)) B (map (cdiv (c_s c)) sp) Sy (positive_cdiv _ _)) as [z [Ez Sz]].
    exists z. split; [|rewrite Sz, map_cdiv_cdiv; [reflexivity|assumption|apply (chain_s _ _ _ _ CH)]]. change (main_path ((c, n) :: p :: l) x) with (bind (conv_apply c x) (fun y => main_path (p :: l) (relu (same_shape n y)))). rewrite E. exact Ez.
Qed.
Definition block_ok (b : blk) (cin cout s : nat) : Prop := chain (b_main b) cin cout s /\
  match b_down b with Some (c, _) => tight c /\ c_in c = cin /\ c_out c = cout /\ c_s c = s | None => cin = cout /\ s = 1 end.
(** the two branches always agree in shape, so the residual addition never fails or broadcasts *)
Lemma block_forward_ok b cin cout s x B sp : block_ok b cin cout s -> shape x = B :: cin :: sp -> positive sp ->
  exists y, block_forward b x = Ok y /\ shape y = B :: cout :: map (cdiv s) sp.
Proof.
  intros [CH D] HS P. unfold block_forward. destruct (main_path_ok _ _ _ _ CH x B sp HS P) as [m [E Sm]]. rewrite E. cbn [bind].
  assert (I : exists i, match b_down b with Some (c, n) => let* y := conv_apply c x in Ok (same_shape n y) | None => Ok x end = Ok i /\ shape i = B :: cout :: map (cdiv s) sp).
  { destruct (b_down b) as [[c n]|].
    - destruct D as [T [D1 [D2 D3]]]. subst cin cout s. destruct (conv_apply_ok c x B sp T HS P) as [y [Ey Sy]]. rewrite Ey. cbn [bind]. eexists. split; [reflexivity|exact Sy].
    - destruct D as [-> ->]. exists x. split; [reflexivity|]. rewrite map_cdiv_1 by exact P. exact HS. }
  destruct I as [i [-> Si]]. cbn [bind]. unfold bzip_inplace, bzip. rewrite Sm, Si, bshape_self. cbn [bind shape]. destruct (list_eq_dec Nat.eq_dec _ _) as [_|NE]; [|contradiction]. cbn [bind]. eexists. split; reflexivity.
Qed.
(** ** construction *)
Section Props.
Variable W Nf : list nat -> arith.
Variable nl : nat -> res unit.
Hypothesis nl_ok : forall c, nl c = Ok tt.

(** what a block needs: an odd kernel, and for BasicBlock groups 1, width 64 and no dilation *)
Definition block_args (kd : kind) (k g bw : nat) : Prop := k mod 2 = 1 /\ match kd with Basic => g = 1 /\ bw = 64 | Bottle => 0 < g end.
Definition dil_ok (kd : kind) (d : nat) : Prop := match kd with Basic => d <= 1 | Bottle => True end.
Lemma odd_or k : k mod 2 = 1 \/ k mod 2 = 0. Proof. pose proof (Nat.mod_upper_bound k 2). lia. Qed.
Lemma nn_conv_1 a b k s p d f : nn_conv a b k s p d 1 f = Ok (mkconv a b k s p d 1 f).
Proof. unfold nn_conv. cbn [Nat.eqb]. rewrite !Nat.mod_1_r. reflexivity. Qed.
Lemma convN_1 a b k s d f : k mod 2 = 1 -> convN a b k s 1 d f = Ok (mkconv a b k s (d * (k / 2)) d 1 f).
Proof. intros H. unfold convN. rewrite H. cbn [Nat.eqb]. apply nn_conv_1. Qed.
Lemma tight_same a b k s d g f : k mod 2 = 1 -> tight (mkconv a b k s (d * (k / 2)) d g f).
Proof. intros H n Hn. apply csize_same; assumption. Qed.
Lemma tight_one a b s g f : tight (mkconv a b 1 s 0 1 g f).
Proof. intros n Hn. apply csize_1; assumption. Qed.
Definition main_len (kd : kind) : nat := match kd with Basic => 2 | Bottle => 3 end.
Lemma block_create_ok kd path a planes k s down g bw d : block_args kd k g bw -> dil_ok kd d -> 0 < s ->
  exists b, block W Nf nl kd path a planes k s down g bw d = Ok b /\ chain (b_main b) a (planes * expansion kd) s /\ b_down b = down /\ List.length (b_main b) = main_len kd.
Proof.
  intros [Hk HA] HD Hs. destruct kd; cbn [block expansion main_len] in *.
  - destruct HA as [-> ->]. unfold basic_block. cbn [Nat.eqb andb negb]. destruct (Nat.ltb_spec 1 d); [unfold dil_ok in HD; lia|]. rewrite !(convN_1 _ _ k) by exact Hk. cbn [bind]. rewrite !nl_ok. cbn [bind].
    eexists. split; [reflexivity|]. cbn [b_main b_down]. split; [|split; reflexivity]. rewrite Nat.mul_1_r.
    set (c1 := mkconv a planes k s _ _ _ _). set (c2 := mkconv planes planes k 1 _ _ _ _). replace s with (c_s c1 * c_s c2) by (cbn; lia).
    apply (chainS c1); [apply tight_same; exact Hk|exact Hs|discriminate|]. apply (chain1 c2); [apply tight_same; exact Hk|cbn; lia].
  - unfold bottleneck. set (w := planes * bw / 64 * g). rewrite (convN_1 a w k) by exact Hk. cbn [bind]. rewrite !nl_ok. cbn [bind]. unfold convN. rewrite Hk. cbn [Nat.eqb]. unfold nn_conv at 1. destruct (Nat.eqb_spec g 0); [lia|].
    assert (EW : w mod g = 0) by (unfold w; apply Nat.mod_mul; lia). rewrite EW. cbn [Nat.eqb negb bind]. unfold conv1. rewrite nn_conv_1. cbn [bind].
    eexists. split; [reflexivity|]. cbn [b_main b_down]. split; [|split; reflexivity].
    set (c1 := mkconv a w k 1 _ _ _ _). set (c2 := mkconv w w k s _ _ _ _). set (c3 := mkconv w (planes * 4) 1 1 0 1 1 _).
    assert (ES : s = c_s c1 * (c_s c2 * c_s c3)) by (cbn; lia). rewrite ES.
    apply (chainS c1); [apply tight_same; exact Hk|cbn; lia|discriminate|]. apply (chainS c2); [apply tight_same; exact Hk|exact Hs|discriminate|]. apply (chain1 c3); [apply tight_one|cbn; lia].
Qed.
Lemma block_dilated path a planes k s down d : k mod 2 = 1 -> 1 < d -> block W Nf nl Basic path a planes k s down 1 64 d = Err NotImplementedError.
Proof. intros Hk Hd. cbn [block]. unfold basic_block. cbn [Nat.eqb andb negb]. destruct (Nat.ltb_spec 1 d); [reflexivity|lia]. Qed.
(** a stage: [n] blocks from [cin] to [cout] channels with stride [s] *)
Inductive stage_ok : list blk -> nat -> nat -> nat -> Prop :=
| stage_intro b bs cin cout s : block_ok b cin cout s -> Forall (fun b => block_ok b cout cout 1) bs -> stage_ok (b :: bs) cin cout s.
Definition dil_after (d : nat) (ty : stype) (s : nat) : nat := match ty with SDilation => d * s | _ => d end.
Definition stride_of (ty : stype) (s : nat) : nat := match ty with SDilation => 1 | _ => s end.
Lemma make_layer_ok kd path g bw a d planes nb k s ty : block_args kd k g bw -> ty <> SOther -> 0 < s -> dil_ok kd d -> (nb <= 1 \/ dil_ok kd (dil_after d ty s)) ->
  exists bs, make_layer W Nf nl kd path g bw (a, d) planes nb k s ty = Ok (bs, (planes * expansion kd, dil_after d ty s)) /\ stage_ok bs a (planes * expansion kd) (stride_of ty s) /\
    List.length bs = Nat.max 1 nb /\ Forall (fun b => List.length (b_main b) = main_len kd) bs.
Proof.
  intros HA HT Hs HD1 HD2. unfold make_layer. set (out := planes * expansion kd).
  assert (E1 : match ty with SDilation => Ok (d * s, 1) | SStride => Ok (d, s) | SOther => Err ValueError end = Ok (dil_after d ty s, stride_of ty s)) by (destruct ty; [reflexivity|reflexivity|contradiction]).
  rewrite E1. cbn [bind]. set (d' := dil_after d ty s) in *. set (s' := stride_of ty s) in *. assert (Hs' : 0 < s') by (unfold s', stride_of; destruct ty; lia).
  assert (DN : exists down, (if negb (s' =? 1) || negb (a =? out) then let* c := conv1 a out s' (W (path ++ [0; 0])) in let* _ := nl out in Ok (Some (c, Nf (path ++ [0; 0]))) else Ok None) = Ok down /\
     match down with Some (c, _) => tight c /\ c_in c = a /\ c_out c = out /\ c_s c = s' | None => a = out /\ s' = 1 end).
  { destruct (Nat.eqb_spec s' 1) as [e1|e1]; [destruct (Nat.eqb_spec a out) as [e2|e2]|]; cbn [negb orb].
    - exists None. split; [reflexivity|auto].
    - unfold conv1. rewrite nn_conv_1. cbn [bind]. rewrite nl_ok. cbn [bind]. eexists. split; [reflexivity|]. cbn [c_in c_out c_s]. repeat split. apply tight_one.
    - unfold conv1. rewrite nn_conv_1. cbn [bind]. rewrite nl_ok. cbn [bind]. eexists. split; [reflexivity|]. cbn [c_in c_out c_s]. repeat split. apply tight_one. }
  destruct DN as [down [-> HDn]]. cbn [bind].
  destruct (block_create_ok kd (path ++ [0]) a planes k s' down g bw d HA HD1 Hs') as [b [-> [CH [BD BL]]]]. cbn [bind]. fold out in CH.
  assert (RS : exists rest, sequence (map (fun j => block W Nf nl kd (path ++ [j]) out planes k 1 None g bw d') (seq 1 (nb - 1))) = Ok rest /\ List.length rest = nb - 1 /\ Forall (fun b => block_ok b out out 1 /\ List.length (b_main b) = main_len kd) rest).
  { assert (HB : forall l, (l = [] \/ dil_ok kd d') -> exists rest, sequence (map (fun j => block W Nf nl kd (path ++ [j]) out planes k 1 None g bw d') l) = Ok rest /\ List.length rest = List.length l /\ Forall (fun b => block_ok b out out 1 /\ List.length (b_main b) = main_len kd) rest).
    { induction l as [|j l IH]; intros Hl; [exists []; cbn; auto|]. destruct Hl as [Hl|Hl]; [discriminate|]. cbn [map sequence].
      destruct (block_create_ok kd (path ++ [j]) out planes k 1 None g bw d' HA Hl ltac:(lia)) as [b' [-> [CH' [BD' BL']]]]. cbn [bind]. destruct IH as [rest [-> [LR FR]]]; [right; exact Hl|]. cbn [bind]. eexists. split; [reflexivity|]. split; [cbn; f_equal; exact LR|].
      constructor; [|exact FR]. split; [|exact BL']. split; [exact CH'|]. rewrite BD'. auto. }
    destruct (HB (seq 1 (nb - 1))) as [rest [E [L F]]].
    - destruct HD2 as [Hn|Hd2]; [left; replace (nb - 1) with 0 by lia; reflexivity|right; exact Hd2].
    - exists rest. rewrite seq_length in L. auto. }
  destruct RS as [rest [-> [LR FR]]]. cbn [bind]. eexists. split; [reflexivity|]. split; [|split].
  - constructor; [split; [exact CH|rewrite BD; exact HDn]|]. eapply Forall_impl; [|exact FR]. cbn. tauto.
  - cbn [List.length]. lia.
  - constructor; [exact BL|]. eapply Forall_impl; [|exact FR]. cbn. tauto.
Qed.
(** the later stages *)
Fixpoint stages_ok (kd : kind) (i cin : nat) (l : list (nat * stype)) (ls : list (list blk)) : Prop :=
  match l, ls with
  | [], [] => True
  | (nb, ty) :: l, bs :: ls => stage_ok bs cin (64 * 2 ^ (i + 1) * expansion kd) (stride_of ty 2) /\ List.length bs = Nat.max 1 nb /\ Forall (fun b => List.length (b_main b) = main_len kd) bs /\
      stages_ok kd (S i) (64 * 2 ^ (i + 1) * expansion kd) l ls
  | _, _ => False end.
(** BasicBlock supports dilation only where no block would see it: in the last stage, if that stage is a single block *)
Fixpoint dilation_ok (kd : kind) (l : list (nat * stype)) : Prop :=
  match kd with Bottle => True | Basic => match l with [] => True | (nb, ty) :: l => (ty = SDilation -> nb <= 1 /\ l = []) /\ dilation_ok kd l end end.
Definition known (l : list (nat * stype)) : Prop := Forall (fun p => snd p <> SOther) l.
Lemma more_layers_ok kd g bw k l : block_args kd k g bw -> known l -> dilation_ok kd l -> forall i a d, dil_ok kd d ->
  exists ls, more_layers W Nf nl kd g bw k i (a, d) l = Ok ls /\ stages_ok kd i a l ls.
Proof.
  intros HA. induction l as [|[nb ty] l IH]; intros HK HD i a d Hd; [exists []; split; [reflexivity|exact I]|].
  cbn [more_layers]. apply Forall_cons_iff in HK. destruct HK as [HT HK]. cbn [snd] in HT.
  assert (H2 : nb <= 1 \/ dil_ok kd (dil_after d ty 2)). { destruct kd; [|right; exact I]. cbn [dilation_ok] in HD. destruct ty; cbn [dil_after]; [right; exact Hd|left; apply HD; reflexivity|contradiction]. }
  destruct (make_layer_ok kd [S i] g bw a d (64 * 2 ^ (i + 1)) nb k 2 ty HA HT ltac:(lia) Hd H2) as [bs [-> [SO [LN LM]]]]. cbn [bind fst snd].
  destruct l as [|q l].
  - cbn [more_layers bind]. eexists. split; [reflexivity|]. cbn [stages_ok]. auto.
  - assert (HD' : dilation_ok kd (q :: l)) by (destruct kd; [apply HD|exact I]).
    assert (Hd' : dil_ok kd (dil_after d ty 2)). { destruct kd; [|exact I]. cbn [dilation_ok] in HD. destruct ty; cbn [dil_after]; try exact Hd. destruct HD as [HD _]. destruct (HD eq_refl) as [_ N]. discriminate. }
    destruct (IH HK HD' (S i) (64 * 2 ^ (i + 1) * expansion kd) (dil_after d ty 2) Hd') as [ls [-> ST]]. cbn [bind]. eexists. split; [reflexivity|]. cbn [stages_ok]. auto.
Qed.
(** ** creation errors *)
Notation create kd cin layers classes k g bw st := (resnet_create W Nf nl kd cin layers classes k g bw st) (only parsing).
Theorem resnet_stride_error kd cin layers classes k g bw sts : List.length sts + 1 <> List.length layers -> create kd cin layers classes k g bw (Some sts) = Err ValueError.
Proof. intros H. unfold resnet_create. destruct (Z.eqb_spec (Z.of_nat (List.length sts)) (Z.of_nat (List.length layers) - 1)); [lia|reflexivity]. Qed.
Lemma down_some a out s path : exists o, (if negb (s =? 1) || negb (a =? out) then let* c := conv1 a out s (W (path ++ [0; 0])) in let* _ := nl out in Ok (Some (c, Nf (path ++ [0; 0]))) else Ok None) = Ok o.
Proof. destruct (negb (s =? 1) || negb (a =? out)); [|eexists; reflexivity]. unfold conv1. rewrite nn_conv_1. cbn [bind]. rewrite nl_ok. cbn [bind]. eexists. reflexivity. Qed.
Lemma block_args_error kd path a planes k s down g bw : ~ block_args kd k g bw -> block W Nf nl kd path a planes k s down g bw 1 = Err ValueError.
Proof.
  intros H. destruct kd; cbn [block].
  - unfold basic_block. destruct (Nat.eqb_spec g 1) as [eg|]; [|reflexivity]. destruct (Nat.eqb_spec bw 64) as [ew|]; [|reflexivity]. cbn [andb negb Nat.ltb Nat.leb]. unfold convN.
    destruct (odd_or k) as [o|o]; [exfalso; apply H; repeat split; assumption|]. rewrite o. reflexivity.
  - unfold bottleneck. destruct (odd_or k) as [o|o]; [|unfold convN; rewrite o; reflexivity]. rewrite (convN_1 a _ k) by exact o. cbn [bind]. rewrite nl_ok. cbn [bind]. unfold convN. rewrite o. cbn [Nat.eqb]. unfold nn_conv at 1.
    destruct (Nat.eqb_spec g 0); [reflexivity|]. exfalso. apply H. split; [exact o|lia].
Qed.
(** an even kernel, or arguments the block does not support, is a ValueError whatever the other arguments are *)
Theorem resnet_block_error kd cin layers classes k g bw st : ~ block_args kd k g bw -> create kd cin layers classes k g bw st = Err ValueError.
Proof.
  intros H. unfold resnet_create. set (sts := match st with Some s => s | None => _ end). destruct (Z.eqb_spec (Z.of_nat (List.length sts)) (Z.of_nat (List.length layers) - 1)) as [EL|]; [|reflexivity]. cbn [negb]. rewrite nn_conv_1. cbn [bind]. rewrite nl_ok. cbn [bind].
  destruct layers as [|nb rest]; [cbn in EL; lia|]. unfold make_layer. destruct (down_some 64 (64 * expansion kd) 1 [0]) as [o E]. cbn [bind]. rewrite E. cbn [bind]. rewrite block_args_error by exact H. reflexivity.
Qed.
(** the first stage *)
Lemma first_layer kd g bw k nb : block_args kd k g bw -> exists bs, make_layer W Nf nl kd [0] g bw (64, 1) 64 nb k 1 SStride = Ok (bs, (64 * expansion kd, 1)) /\ stage_ok bs 64 (64 * expansion kd) 1 /\
    List.length bs = Nat.max 1 nb /\ Forall (fun b => List.length (b_main b) = main_len kd) bs.
Proof. intros H. apply (make_layer_ok kd [0] g bw 64 1 64 nb k 1 SStride H); [discriminate|lia|destruct kd; cbn; auto|right; destruct kd; cbn; auto]. Qed.
(** documented call shape with a single stage: the head's width is never assigned *)
Theorem resnet_one_stage kd cin nb classes k g bw st : block_args kd k g bw -> (st = None \/ st = Some []) -> create kd cin [nb] classes k g bw st = Err UnboundLocalError.
Proof.
  intros H HS. unfold resnet_create. assert (E : match st with Some s => s | None => repeat SStride (List.length [nb] - 1) end = []) by (destruct HS as [-> | ->]; reflexivity). rewrite E. change (negb (Z.of_nat (@List.length stype []) =? Z.of_nat (List.length [nb]) - 1)%Z) with false. cbv iota. rewrite nn_conv_1. cbn [bind]. rewrite nl_ok. cbn [bind].
  destruct (first_layer kd g bw k nb H) as [bs [-> _]]. reflexivity.
Qed.
(** what the later stages do on an unsupported plan *)
Lemma more_layers_unknown g bw k l : block_args Bottle k g bw -> ~ known l -> forall i a d, more_layers W Nf nl Bottle g bw k i (a, d) l = Err ValueError.
Proof.
  intros HA. induction l as [|[nb ty] l IH]; intros HK i a d; [exfalso; apply HK; constructor|]. cbn [more_layers].
  assert (DEC : ty = SOther \/ ty <> SOther) by (destruct ty; [right|right|left]; congruence). destruct DEC as [-> |HT]; [reflexivity|].
  destruct (make_layer_ok Bottle [S i] g bw a d (64 * 2 ^ (i + 1)) nb k 2 ty HA HT ltac:(lia) I (or_intror I)) as [bs [-> _]]. cbn [bind snd]. rewrite IH; [reflexivity|]. intros HK'. apply HK. constructor; [exact HT|exact HK'].
Qed.
Lemma more_layers_dilated k l : k mod 2 = 1 -> known l -> ~ dilation_ok Basic l -> forall i a, more_layers W Nf nl Basic 1 64 k i (a, 1) l = Err NotImplementedError.
Proof.
  intros Hk. assert (HA : block_args Basic k 1 64) by (repeat split; exact Hk). induction l as [|[nb ty] l IH]; intros HK HD i a; [exfalso; apply HD; exact I|]. cbn [more_layers]. apply Forall_cons_iff in HK. destruct HK as [HT HK]. cbn [snd] in HT.
  destruct ty; [| |contradiction].
  - destruct (make_layer_ok Basic [S i] 1 64 a 1 (64 * 2 ^ (i + 1)) nb k 2 SStride HA HT ltac:(lia) (le_n 1) (or_intror (le_n 1))) as [bs [-> _]]. cbn [bind snd dil_after]. rewrite IH; [reflexivity|exact HK|]. intros HD'. apply HD. cbn [dilation_ok]. split; [discriminate|exact HD'].
  - destruct (le_lt_dec nb 1) as [Hn|Hn].
    + destruct (make_layer_ok Basic [S i] 1 64 a 1 (64 * 2 ^ (i + 1)) nb k 2 SDilation HA HT ltac:(lia) (le_n 1) (or_introl Hn)) as [bs [-> _]]. cbn [bind snd dil_after].
      destruct l as [|[nb' ty'] l]; [exfalso; apply HD; cbn; auto|]. cbn [more_layers]. apply Forall_cons_iff in HK. destruct HK as [HT' _]. cbn [snd] in HT'. unfold make_layer at 1.
      assert (DT : match ty' with SStride => Ok (1 * 2, 2) | SDilation => Ok (1 * 2 * 2, 1) | SOther => Err ValueError end = Ok (dil_after 2 ty' 2, stride_of ty' 2)) by (destruct ty'; [reflexivity|reflexivity|contradiction]). rewrite DT. cbn [bind].

      destruct (down_some (64 * 2 ^ (i + 1) * expansion Basic) (64 * 2 ^ (S i + 1) * expansion Basic) (stride_of ty' 2) [S (S i)]) as [o E]. rewrite E. cbn [bind]. rewrite block_dilated by (assumption || lia). reflexivity.
    + unfold make_layer. cbn [bind]. destruct (down_some a (64 * 2 ^ (i + 1) * expansion Basic) 1 [S i]) as [o E]. rewrite E. cbn [bind].
      destruct (block_create_ok Basic ([S i] ++ [0]) a (64 * 2 ^ (i + 1)) k 1 o 1 64 1 HA (le_n 1) ltac:(lia)) as [b [-> _]]. cbn [bind].
      destruct (nb - 1) as [|m] eqn:Em; [lia|]. cbn [seq map sequence]. rewrite block_dilated by (assumption || lia). reflexivity.
Qed.
Lemma more_layers_error kd g bw k l : block_args kd k g bw -> ~ (known l /\ dilation_ok kd l) -> forall i a, exists e, more_layers W Nf nl kd g bw k i (a, 1) l = Err e.
Proof.
  intros HA HN i a. assert (DK : known l \/ ~ known l). { clear. induction l as [|[nb ty] l IH]; [left; constructor|]. destruct IH as [H|H]; [|right; intros X; apply Forall_cons_iff in X; tauto]. destruct ty; [left; constructor; [discriminate|exact H]|left; constructor; [discriminate|exact H]|right; intros X; apply Forall_cons_iff in X; destruct X as [X _]; cbn in X; congruence]. }
  destruct kd.
  - destruct HA as [Hk [-> ->]]. destruct DK as [DK|DK]; [eexists; apply more_layers_dilated; tauto|].
    assert (HA : block_args Basic k 1 64) by (repeat split; exact Hk). revert i a DK. clear HN. induction l as [|[nb ty] l IH]; intros i a DK; [exfalso; apply DK; constructor|]. cbn [more_layers].
    destruct (make_layer W Nf nl Basic [S i] 1 64 (a, 1) (64 * 2 ^ (i + 1)) nb k 2 ty) as [[bs [a' d']]|e] eqn:EM; [|eexists; reflexivity]. cbn [bind snd].
    destruct ty; [| |discriminate EM].
    + destruct (make_layer_ok Basic [S i] 1 64 a 1 (64 * 2 ^ (i + 1)) nb k 2 SStride HA ltac:(discriminate) ltac:(lia) (le_n 1) (or_intror (le_n 1))) as [bs' [E _]]. rewrite E in EM. cbn [dil_after] in EM. assert (d' = 1) by congruence. subst d'.
      destruct (IH (S i) a') as [e Ee]; [intros K; apply DK; constructor; [discriminate|exact K]|]. rewrite Ee. eexists. reflexivity.
    + assert (d' = 2). { unfold make_layer in EM. cbn [bind] in EM. destruct (down_some a (64 * 2 ^ (i + 1) * expansion Basic) 1 [S i]) as [o E]. rewrite E in EM. cbn [bind] in EM. destruct (block _ _ _ _ _ _ _ _ _ _ _ _ 1); [|discriminate]. cbn [bind] in EM. destruct (sequence _); [|discriminate]. cbn [bind] in EM. change (1 * 2) with 2 in EM. congruence. } subst d'.
      destruct l as [|[nb' ty'] l]; [exfalso; apply DK; constructor; [discriminate|constructor]|]. cbn [more_layers]. unfold make_layer at 1. destruct ty'; cbn [bind].
      * destruct (down_some a' (64 * 2 ^ (S i + 1) * expansion Basic) 2 [S (S i)]) as [o E]. rewrite E. cbn [bind]. rewrite block_dilated by (assumption || lia). eexists. reflexivity.
      * destruct (down_some a' (64 * 2 ^ (S i + 1) * expansion Basic) 1 [S (S i)]) as [o E]. rewrite E. cbn [bind]. rewrite block_dilated by (assumption || lia). eexists. reflexivity.
      * eexists. reflexivity.
  - destruct DK as [DK|DK]; [exfalso; apply HN; split; [exact DK|destruct l as [|[? ?] ?]; exact I]|]. eexists. apply more_layers_unknown; assumption.
Qed.
(** the plan of the stages after the first: block count and stride type of each *)
Definition plan (layers : list nat) (st : option (list stype)) : list (nat * stype) :=
  combine (tl layers) (match st with Some s => s | None => repeat SStride (List.length layers - 1) end).
Definition plan_len (layers : list nat) (st : option (list stype)) : Prop := 2 <= List.length layers /\ match st with Some s => List.length s + 1 = List.length layers | None => True end.
(** what is built *)
Definition built (kd : kind) (cin classes : nat) (layers : list nat) (st : option (list stype)) (n : net) : Prop :=
  exists b0 more, n_layers n = b0 :: more /\ stage_ok b0 64 (64 * expansion kd) 1 /\ List.length b0 = Nat.max 1 (hd 0 layers) /\ Forall (fun b => List.length (b_main b) = main_len kd) b0 /\
    stages_ok kd 0 (64 * expansion kd) (plan layers st) more /\ n_classes n = classes /\ n_fc n = 64 * 2 ^ (List.length layers - 1) * expansion kd /\
    tight (n_stem n) /\ c_in (n_stem n) = cin /\ c_out (n_stem n) = 64 /\ c_s (n_stem n) = 2.
Lemma plan_start layers st : plan_len layers st -> (Z.of_nat (List.length (match st with Some s => s | None => repeat SStride (List.length layers - 1) end)) =? Z.of_nat (List.length layers) - 1)%Z = true.
Proof. intros [H1 H2]. apply Z.eqb_eq. destruct st as [s|]; [lia|]. rewrite repeat_length. lia. Qed.
Lemma create_built kd cin layers classes k g bw st : block_args kd k g bw -> plan_len layers st -> known (plan layers st) -> dilation_ok kd (plan layers st) ->
  exists n, create kd cin layers classes k g bw st = Ok n /\ built kd cin classes layers st n.
Proof.
  intros HA HP HK HD. unfold resnet_create. rewrite plan_start by exact HP. cbn [negb]. rewrite nn_conv_1. cbn [bind]. rewrite nl_ok. cbn [bind].
  destruct layers as [|nb [|nb2 rest]]; [destruct HP as [HP _]; cbn in HP; lia|destruct HP as [HP _]; cbn in HP; lia|].
  destruct (first_layer kd g bw k nb HA) as [bs [-> [S1 [S2 S3]]]]. cbn [bind fst snd].
  destruct (more_layers_ok kd g bw k _ HA HK HD 0 (64 * expansion kd) 1) as [ls [E SO]]; [destruct kd; cbn; auto|]. unfold plan in E. cbn [tl] in E. rewrite E. cbn [bind].
  eexists. split; [reflexivity|]. exists bs, ls. cbn [n_layers n_stem n_classes n_fc c_in c_out c_s]. repeat (split; [first [reflexivity|assumption]|]). split; [|repeat split].
  intros n Hn. apply csize_stem. exact Hn.
Qed.
(** creation succeeds exactly when: the kernel is odd and the block accepts groups and width, there are at least two
    stages, one stride type per later stage, all known, and for BasicBlock no block is dilated *)
Theorem resnet_create_iff kd cin layers classes k g bw st :
  (exists n, create kd cin layers classes k g bw st = Ok n) <-> (block_args kd k g bw /\ plan_len layers st /\ known (plan layers st) /\ dilation_ok kd (plan layers st)).
Proof.
  split.
  - intros [n E]. assert (HA : block_args kd k g bw). { unfold block_args. destruct (odd_or k) as [o|o]; [|rewrite resnet_block_error in E by (intros [X _]; lia); discriminate]. split; [exact o|].
      destruct kd; [destruct (Nat.eq_dec g 1); [destruct (Nat.eq_dec bw 64); [auto|]|]|destruct (Nat.eq_dec g 0); [|lia]]; rewrite resnet_block_error in E by (unfold block_args; lia); discriminate. }
    split; [exact HA|]. assert (HP : plan_len layers st).
    { split.
      - destruct layers as [|nb [|nb2 rest]]; [| |cbn; lia].
        + unfold resnet_create in E. destruct (negb _) eqn:EN; [discriminate|]. apply Bool.negb_false_iff, Z.eqb_eq in EN. cbn in EN. lia.
        + destruct st as [[|s1 s]|]; [| |]; [rewrite resnet_one_stage in E by auto; discriminate| |rewrite resnet_one_stage in E by auto; discriminate]. rewrite resnet_stride_error in E by (cbn; lia). discriminate.
      - destruct st as [s|]; [|exact I]. destruct (Nat.eq_dec (List.length s + 1) (List.length layers)) as [e|e]; [exact e|]. rewrite resnet_stride_error in E by exact e. discriminate. }
    split; [exact HP|]. assert (DEC : (known (plan layers st) /\ dilation_ok kd (plan layers st)) \/ ~ (known (plan layers st) /\ dilation_ok kd (plan layers st))).
    { clear. assert (DK : forall l, known l \/ ~ known l). { induction l as [|[nb ty] l IH]; [left; constructor|]. destruct IH as [H|H]; [|right; intros X; apply Forall_cons_iff in X; tauto]. destruct ty; [left; constructor; [discriminate|exact H]|left; constructor; [discriminate|exact H]|right; intros X; apply Forall_cons_iff in X; destruct X as [X _]; cbn in X; congruence]. }
      assert (DD : forall l, dilation_ok kd l \/ ~ dilation_ok kd l). { destruct kd; [|intros [|[? ?] ?]; left; exact I]. induction l as [|[nb ty] l IH]; [left; exact I|]. cbn [dilation_ok]. destruct IH as [H|H]; [|tauto]. destruct ty; [left; split; [discriminate|exact H]| |left; split; [discriminate|exact H]]. destruct (le_lt_dec nb 1); [destruct l as [|q l]; [left; auto|right]|right]; intros [X _]; destruct (X eq_refl); [discriminate|lia]. }
      destruct (DK (plan layers st)); destruct (DD (plan layers st)); tauto. }
    destruct DEC as [D|D]; [exact D|exfalso]. revert E. unfold resnet_create. rewrite plan_start by exact HP. cbn [negb]. rewrite nn_conv_1. cbn [bind]. rewrite nl_ok. cbn [bind]. destruct layers as [|nb rest]; [discriminate|].
    destruct (first_layer kd g bw k nb HA) as [bs [-> _]]. cbn [bind fst snd]. destruct (more_layers_error kd g bw k _ HA D 0 (64 * expansion kd)) as [e Ee]. unfold plan in Ee. cbn [tl] in Ee. rewrite Ee. discriminate.
  - intros (HA & HP & HK & HD). destruct (create_built kd cin layers classes k g bw st HA HP HK HD) as [n [E _]]. exists n. exact E.
Qed.
(** BasicBlock: dilation seen by a block is NotImplementedError *)
Theorem resnet_dilation_error cin layers classes k st : k mod 2 = 1 -> plan_len layers st -> known (plan layers st) -> ~ dilation_ok Basic (plan layers st) -> create Basic cin layers classes k 1 64 st = Err NotImplementedError.
Proof.
  intros Hk HP HK HD. unfold resnet_create. rewrite plan_start by exact HP. cbn [negb]. rewrite nn_conv_1. cbn [bind]. rewrite nl_ok. cbn [bind]. destruct layers as [|nb rest]; [destruct HP as [HP _]; cbn in HP; lia|].
  destruct (first_layer Basic 1 64 k nb) as [bs [-> _]]; [repeat split; exact Hk|]. cbn [bind fst snd]. pose proof (more_layers_dilated k _ Hk HK HD 0 (64 * expansion Basic)) as E. unfold plan in E. cbn [tl] in E. rewrite E. reflexivity.
Qed.
(** an unknown stride type is a ValueError *)
Theorem resnet_stride_type_error cin layers classes k g bw st : block_args Bottle k g bw -> plan_len layers st -> ~ known (plan layers st) -> create Bottle cin layers classes k g bw st = Err ValueError.
Proof.
  intros HA HP HK. unfold resnet_create. rewrite plan_start by exact HP. cbn [negb]. rewrite nn_conv_1. cbn [bind]. rewrite nl_ok. cbn [bind]. destruct layers as [|nb rest]; [destruct HP as [HP _]; cbn in HP; lia|].
  destruct (first_layer Bottle g bw k nb HA) as [bs [-> _]]. cbn [bind fst snd]. pose proof (more_layers_unknown g bw k _ HA HK 0 (64 * expansion Bottle) 1) as E. unfold plan in E. cbn [tl] in E. rewrite E. reflexivity.
Qed.
(** ** forward *)
Lemma layer_forward_ok bs cin cout s x B sp : stage_ok bs cin cout s -> shape x = B :: cin :: sp -> positive sp -> exists y, layer_forward bs x = Ok y /\ shape y = B :: cout :: map (cdiv s) sp.
Proof.
  intros H HS P. destruct H as [b bs cin cout s HB HF]. cbn [layer_forward]. destruct (block_forward_ok b cin cout s x B sp HB HS P) as [y [-> Sy]]. cbn [bind].
  assert (P' := positive_cdiv s sp). revert y Sy. generalize (map (cdiv s) sp) P'. clear - HF. intros sp P. induction bs as [|b bs IH]; intros y Sy; [exists y; auto|]. apply Forall_cons_iff in HF. destruct HF as [HB HF]. cbn [layer_forward].
  destruct (block_forward_ok b cout cout 1 y B sp HB Sy P) as [z [-> Sz]]. cbn [bind]. rewrite map_cdiv_1 in Sz by exact P. apply IH; assumption.
Qed.
(** number of stages that stride *)
Definition strides (l : list (nat * stype)) : nat := List.length (filter (fun p => match snd p with SDilation => false | _ => true end) l).
Lemma layers_forward_ok kd l : forall ls i cin x B sp, stages_ok kd i cin l ls -> shape x = B :: cin :: sp -> positive sp ->
  exists y, layers_forward ls x = Ok y /\ shape y = B :: (if List.length l =? 0 then cin else 64 * 2 ^ (i + List.length l) * expansion kd) :: map (cdiv (2 ^ strides l)) sp.
Proof.
  induction l as [|[nb ty] l IH]; intros ls i cin x B sp HS Sx P; destruct ls as [|bs ls]; try contradiction.
  - exists x. split; [reflexivity|]. cbn. rewrite map_cdiv_1 by exact P. exact Sx.
  - cbn [stages_ok] in HS. destruct HS as [SO [_ [_ ST]]]. cbn [layers_forward]. destruct (layer_forward_ok _ _ _ _ _ _ _ SO Sx P) as [y [-> Sy]]. cbn [bind].
    destruct (IH ls (S i) _ y B _ ST Sy (positive_cdiv _ _)) as [z [-> Sz]]. exists z. split; [reflexivity|]. rewrite Sz. cbn [List.length Nat.eqb]. f_equal. f_equal.
    + destruct (Nat.eqb_spec (List.length l) 0) as [e|e]; [rewrite e; reflexivity|]. do 3 f_equal. lia.
    + assert (ES : 2 ^ strides ((nb, ty) :: l) = stride_of ty 2 * 2 ^ strides l) by (unfold strides; destruct ty; cbn [filter snd List.length stride_of Nat.pow]; lia). rewrite ES. apply map_cdiv_cdiv; [destruct ty; cbn; lia|]. pose proof (Nat.pow_nonzero 2 (strides l)). lia.
Qed.
Lemma plan_length layers st : plan_len layers st -> List.length (plan layers st) = List.length layers - 1.
Proof. intros [H1 H2]. unfold plan. rewrite combine_length. assert (E : List.length (tl layers) = List.length layers - 1) by (destruct layers; cbn; lia). rewrite E. destruct st; [lia|]. rewrite repeat_length. lia. Qed.
(** a network that was built maps (B, in_channels, *spatial) to (B, classes); the feature map before pooling has
    64 * 2^(stages-1) * expansion channels and every spatial size n becomes ceil(n / (4 * 2^#strided stages)) *)
Theorem resnet_forward_spec kd cin layers classes k g bw st n x B sp : 0 < bw -> create kd cin layers classes k g bw st = Ok n -> shape x = B :: cin :: sp -> sp <> [] -> positive sp ->
  exists f y, features W Nf n x = Ok f /\ shape f = B :: 64 * 2 ^ (List.length layers - 1) * expansion kd :: map (cdiv (4 * 2 ^ strides (plan layers st))) sp /\
    resnet_forward W Nf n x = Ok y /\ shape y = [B; classes].
Proof.
  intros _ E HS _ P. destruct (proj1 (resnet_create_iff kd cin layers classes k g bw st) (ex_intro _ n E)) as (HA & HP & HK & HD). destruct (create_built kd cin layers classes k g bw st HA HP HK HD) as [n' [E' BT]]. rewrite E in E'. injection E' as <-.
  destruct BT as (b0 & more & EL & SO & _ & _ & ST & EC & EF & TS & S1 & S2 & S3).
  assert (F : exists f, features W Nf n x = Ok f /\ shape f = B :: 64 * 2 ^ (List.length layers - 1) * expansion kd :: map (cdiv (4 * 2 ^ strides (plan layers st))) sp).
  { unfold features. rewrite <- S1 in HS. destruct (conv_apply_ok (n_stem n) x B sp TS HS P) as [y [-> Sy]]. cbn [bind]. rewrite S2, S3 in Sy. unfold maxpool. cbn [shape relu same_shape]. rewrite Sy.
    rewrite (sequence_map_ok _ (cdiv 2)) by (intros m Hm; apply csize_pool; apply (positive_cdiv _ _ _ Hm)). cbn [bind]. rewrite map_cdiv_cdiv by lia. rewrite EL. cbn [layers_forward].
    match goal with |- context [layer_forward b0 ?t] => destruct (layer_forward_ok b0 64 (64 * expansion kd) 1 t B (map (cdiv (2 * 2)) sp) SO eq_refl (positive_cdiv _ _)) as [z [-> Sz]] end. cbn [bind]. rewrite map_cdiv_1 in Sz by apply positive_cdiv.
    destruct (layers_forward_ok kd _ _ _ _ z B _ ST Sz (positive_cdiv _ _)) as [u [-> Su]]. exists u. split; [reflexivity|]. rewrite Su, plan_length by exact HP. destruct HP as [HP _]. destruct (Nat.eqb_spec (List.length layers - 1) 0); [lia|]. cbn [Nat.add]. f_equal. f_equal.
    apply map_cdiv_cdiv; [lia|]. pose proof (Nat.pow_nonzero 2 (strides (plan layers st))). lia. }
  destruct F as [f [EFt Sf]]. exists f. unfold resnet_forward. rewrite EFt. cbn [bind]. rewrite Sf, EF, Nat.eqb_refl, EC. eexists. split; [reflexivity|]. split; [reflexivity|]. split; reflexivity.
Qed.
(** the input must have in_channels channels *)
Theorem resnet_channel_error kd cin layers classes k g bw st n x B c sp : create kd cin layers classes k g bw st = Ok n -> shape x = B :: c :: sp -> sp <> [] -> c <> cin -> resnet_forward W Nf n x = Err RuntimeError.
Proof.
  intros E HS _ HN. destruct (proj1 (resnet_create_iff kd cin layers classes k g bw st) (ex_intro _ n E)) as (HA & HP & HK & HD). destruct (create_built kd cin layers classes k g bw st HA HP HK HD) as [n' [E' BT]]. rewrite E in E'. injection E' as <-.
  destruct BT as (b0 & more & EL & SO & _ & _ & ST & EC & EF & TS & S1 & S2 & S3). unfold resnet_forward, features, conv_apply. rewrite HS, S1. destruct (Nat.eqb_spec c cin); [contradiction|reflexivity].
Qed.
(** number of weighted layers: the stem, the convolutions of the main paths, the head. It is 2 + factor * sum(layers)
    when every entry is at least one; an entry of zero still builds a block *)
Definition depth (n : net) : nat := 2 + list_sum (map (fun bs => list_sum (map (fun b => List.length (b_main b)) bs)) (n_layers n)).
Lemma depth_stage kd bs : Forall (fun b => List.length (b_main b) = main_len kd) bs -> list_sum (map (fun b => List.length (b_main b)) bs) = List.length bs * main_len kd.
Proof. induction 1 as [|b bs H _ IH]; [reflexivity|]. change (list_sum (map (fun b => List.length (b_main b)) (b :: bs))) with (List.length (b_main b) + list_sum (map (fun b => List.length (b_main b)) bs)). rewrite IH, H. cbn [List.length]. lia. Qed.
Lemma depth_stages kd l : forall ls i cin, stages_ok kd i cin l ls -> list_sum (map (fun bs => list_sum (map (fun b => List.length (b_main b)) bs)) ls) = main_len kd * list_sum (map (fun p => Nat.max 1 (fst p)) l) /\ List.length ls = List.length l.
Proof.
  induction l as [|[nb ty] l IH]; intros [|bs ls] i cin H; try contradiction; [cbn; lia|]. cbn [stages_ok] in H. destruct H as [_ [HL [HM ST]]]. destruct (IH _ _ _ ST) as [E1 E2]. split; [|cbn; lia].
  change (list_sum (map (fun bs0 => list_sum (map (fun b => List.length (b_main b)) bs0)) (bs :: ls))) with (list_sum (map (fun b => List.length (b_main b)) bs) + list_sum (map (fun bs0 => list_sum (map (fun b => List.length (b_main b)) bs0)) ls)).
  change (list_sum (map (fun p => Nat.max 1 (fst p)) ((nb, ty) :: l))) with (Nat.max 1 nb + list_sum (map (fun p : nat * stype => Nat.max 1 (fst p)) l)). rewrite E1, (depth_stage kd) by exact HM. rewrite HL. lia.
Qed.
Theorem resnet_depth kd cin layers classes k g bw st n : create kd cin layers classes k g bw st = Ok n -> depth n = 2 + main_len kd * list_sum (map (Nat.max 1) layers) /\ List.length (n_layers n) = List.length layers.
Proof.
  intros E. destruct (proj1 (resnet_create_iff kd cin layers classes k g bw st) (ex_intro _ n E)) as (HA & HP & HK & HD). destruct (create_built kd cin layers classes k g bw st HA HP HK HD) as [n' [E' BT]]. rewrite E in E'. injection E' as <-.
  destruct BT as (b0 & more & EL & SO & L0 & F0 & ST & EC & EF & TS & S1 & S2 & S3). destruct (depth_stages kd _ _ _ _ ST) as [D1 D2]. rewrite plan_length in D2 by exact HP. unfold depth. rewrite EL.
  split; [|cbn [List.length]; destruct HP; lia].
  change (list_sum (map (fun bs0 => list_sum (map (fun b => List.length (b_main b)) bs0)) (b0 :: more))) with (list_sum (map (fun b => List.length (b_main b)) b0) + list_sum (map (fun bs0 => list_sum (map (fun b => List.length (b_main b)) bs0)) more)). rewrite D1, (depth_stage kd) by exact F0. rewrite L0.
  destruct layers as [|nb rest]; [destruct HP as [HP _]; cbn in HP; lia|]. change (list_sum (map (Nat.max 1) (nb :: rest))) with (Nat.max 1 nb + list_sum (map (Nat.max 1) rest)). cbn [hd].
  assert (EM : map (fun p : nat * stype => Nat.max 1 (fst p)) (plan (nb :: rest) st) = map (Nat.max 1) rest).
  { unfold plan. cbn [tl]. assert (HL : List.length (match st with Some s => s | None => repeat SStride (List.length (nb :: rest) - 1) end) = List.length rest). { destruct HP as [_ HP]. destruct st; [cbn in HP; lia|]. rewrite repeat_length. cbn. lia. }
    revert HL. generalize (match st with Some s => s | None => repeat SStride (List.length (nb :: rest) - 1) end). clear. induction rest as [|r rest IH]; intros [|s l] HL; try discriminate; [reflexivity|]. cbn [combine map fst]. f_equal. apply IH. cbn in HL. lia. }
  rewrite EM. lia.
Qed.
Theorem resnet_depth_documented kd cin layers classes k g bw st n : create kd cin layers classes k g bw st = Ok n -> (forall m, In m layers -> 1 <= m) -> depth n = 2 + main_len kd * list_sum layers.
Proof.
  intros E H. destruct (resnet_depth kd cin layers classes k g bw st n E) as [-> _]. do 3 f_equal. clear E. induction layers as [|m l IH]; [reflexivity|]. cbn [map]. rewrite IH by (intros q Hq; apply H; right; exact Hq). f_equal. specialize (H m (or_introl eq_refl)). lia.
Qed.
Lemma main_path_zero l : l <> [] -> (forall c nf l', l = l' ++ [(c, nf)] -> forall t i, nf t i = 0%R) -> forall x m, main_path l x = Ok m -> forall i, elt m i = 0%R.
Proof.
  induction l as [|[c nf] l IH]; intros NE HZ x m EM; [contradiction|]. destruct l as [|q l].
  - cbn [main_path] in EM. destruct (conv_apply c x) as [y|]; [|discriminate]. cbn [bind] in EM. injection EM as <-. intros i. cbn. apply (HZ c nf []). reflexivity.
  - change (main_path ((c, nf) :: q :: l) x) with (bind (conv_apply c x) (fun y => main_path (q :: l) (relu (same_shape nf y)))) in EM. destruct (conv_apply c x) as [y|]; [|discriminate]. cbn [bind] in EM. refine (IH _ _ _ _ EM); [discriminate|]. intros c' n' l' E. apply (HZ c' n' ((c, nf) :: l')). rewrite E. reflexivity.
Qed.
(** zero_init_residual: when the norm closing the main path returns zeros, a block without downsample path is the
    identity on non-negative input (and every input of a block but the first of the network's is an output of ReLU) *)
Theorem resnet_zero_init b cin x B sp : block_ok b cin cin 1 -> b_down b = None -> (forall c nf l, b_main b = l ++ [(c, nf)] -> forall t i, nf t i = 0%R) -> shape x = B :: cin :: sp -> positive sp ->
  exists y, block_forward b x = Ok y /\ shape y = shape x /\ (forall i, inb i (shape x) -> elt y i = Rmax 0 (elt x i)).
Proof.
  intros [CH _] HN HZ HS P. destruct (main_path_ok _ _ _ _ CH x B sp HS P) as [m [EM Sm]]. rewrite map_cdiv_1 in Sm by exact P.
  assert (EZ : forall i, elt m i = 0%R) by (apply (main_path_zero (b_main b)) with (x := x); [destruct CH; discriminate|exact HZ|exact EM]).
  unfold block_forward. rewrite EM, HN. cbn [bind]. unfold bzip_inplace, bzip. rewrite Sm, HS, bshape_self. cbn [bind shape]. destruct (list_eq_dec Nat.eq_dec _ _) as [_|NE]; [|contradiction]. cbn [bind]. eexists. split; [reflexivity|]. split; [reflexivity|].
  intros i Hi. cbn [relu elt]. rewrite !bidx_self by exact Hi. rewrite EZ, Rplus_0_l. reflexivity.
Qed.
(** the output of a block is non-negative *)
Theorem resnet_block_nonneg b x y i : block_forward b x = Ok y -> (0 <= elt y i)%R.
Proof.
  unfold block_forward. destruct (main_path (b_main b) x) as [m|]; [|discriminate]. cbn [bind]. destruct (match b_down b with Some (c, nf) => _ | None => _ end) as [t|]; [|discriminate]. cbn [bind]. destruct (bzip_inplace Rplus m t) as [u|]; [|discriminate]. cbn [bind]. intros E. injection E as <-. cbn. apply Rmax_l.
Qed.
End Props.

(** concrete cases *)
Definition no_arith : list nat -> arith := fun _ _ _ => 0%R.
Definition any_norm : nat -> res unit := fun _ => Ok tt.
(** ResNet-18 on one second at 2048 Hz *)
Example resnet_ex : match resnet_create no_arith no_arith any_norm Basic 2 [2; 2; 2; 2] 1 3 1 64 None with
  | Ok n => depth n = 18 /\ match features no_arith no_arith n (mk [5; 2; 2048] (fun _ => 0%R)) with Ok f => shape f = [5; 512; 64] | _ => False end
            /\ match resnet_forward no_arith no_arith n (mk [5; 2; 2048] (fun _ => 0%R)) with Ok f => shape f = [5; 1] | _ => False end | _ => False end.
Proof. vm_compute. repeat split. Qed.
(** bottleneck network over two axes with a dilated stage: the last stage does not downsample *)
Example resnet_ex2 : match resnet_create no_arith no_arith any_norm Bottle 2 [1; 2; 1] 7 5 2 32 (Some [SStride; SDilation]) with
  | Ok n => depth n = 14 /\ match features no_arith no_arith n (mk [3; 2; 33; 17] (fun _ => 0%R)) with Ok f => shape f = [3; 1024; 5; 3] | _ => False end | _ => False end.
Proof. vm_compute. repeat split. Qed.
Example resnet_ex3 : resnet_create no_arith no_arith any_norm Basic 2 [1; 2] 7 5 1 64 (Some [SDilation]) = Err NotImplementedError /\ match resnet_create no_arith no_arith any_norm Basic 2 [1; 1] 7 5 1 64 (Some [SDilation]) with Ok _ => True | _ => False end.
Proof. vm_compute. split; [reflexivity|exact I]. Qed.
