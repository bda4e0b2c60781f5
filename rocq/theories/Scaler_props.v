(** Property C38: ChannelWiseScaler. *)
From Coq Require Import String FunctionalExtensionality.
From Verif Require Import Base Tensor Rutil Bcast Norm_model Norm_props Fit_model Fit_props.
Local Open Scope R_scope.

(** ** specification: per-channel statistics of a multichannel timeseries *)
Definition ch_mean (X : tensor R) (T c : nat) : R := Rsum T (fun t => elt X [c; t]) / INR T.
Definition ch_var (X : tensor R) (T c : nat) : R := Rsum T (fun t => (elt X [c; t] - ch_mean X T c) ^ 2) / INR T.
Ltac sd := repeat match goal with |- context [string_dec ?a ?b] =>
  let E := fresh in destruct (string_dec a b) as [E|E]; [try discriminate E|try (exfalso; apply E; reflexivity)]; clear E end.
(** a scaler whose buffers hold the given statistics; the shapes are those of a C channel scaler *)
Definition holds (st : fit R) (C : nat) (m s : nat -> R) : Prop :=
  built st = true /\ exists bm bs, assoc "mean" (bufs st) = Some bm /\ assoc "std" (bufs st) = Some bs /\
    shape bm = [C; 1%nat] /\ shape bs = [C; 1%nat] /\ forall c, (c < C)%nat -> elt bm [c; 0%nat] = m c /\ elt bs [c; 0%nat] = s c.

Lemma shapes_2 (st : fit R) C : shapes st = shapes (scaler_create (Some C)) -> (0 < C)%nat ->
  exists bm bs, bufs st = [("mean"%string, bm); ("std"%string, bs)] /\ shape bm = [C; 1%nat] /\ shape bs = [C; 1%nat].
Proof.
  intros H HC. unfold shapes, scaler_create in H. cbn in H. destruct (Nat.eqb_spec C 0); [lia|].
  destruct (bufs st) as [|[n1 b1] [|[n2 b2] [|? ?]]]; cbn in H; try discriminate. injection H as -> H1 -> H2. exists b1, b2. auto.
Qed.
(** fit stores the channel-wise mean and population standard deviation (plus the regularisation), whatever was fitted before *)
Theorem scaler_fit_values (st : fit R) C T X reg : shapes st = shapes (scaler_create (Some C)) -> (0 < C)%nat -> shape X = [C; T] ->
  exists st', scaler_fit st X reg = (st', Ok tt) /\ shapes st' = shapes st /\
    holds st' C (ch_mean X T) (fun c => sqrt (ch_var X T c) + reg).
Proof.
  intros Hs HC HX. destruct (shapes_2 _ _ Hs HC) as [bm [bs [E [S1 S2]]]].
  unfold scaler_fit. rewrite HX, E. cbn [assoc]. unfold ndim. sd.
  rewrite S1, S2. cbn [List.length hd]. rewrite !Nat.eqb_refl. cbn [andb].
  assert (SM : shape (mean_last true X) = [C; 1%nat]) by (unfold mean_last; cbn [shape]; rewrite HX; reflexivity).
  assert (SS : shape (tmap (fun v => v + reg) (std_last X)) = [C; 1%nat]) by (unfold std_last, tmap; cbn [shape]; rewrite HX; reflexivity).
  destruct (copy_ok bm (mean_last true X)) as [K1 _]. destruct K1 as [bm' [Em [Sm Gm]]]; [unfold fits; rewrite SM, S1; apply bshape_self|].
  destruct (copy_ok bs (tmap (fun v => v + reg) (std_last X))) as [K2 _]. destruct K2 as [bs' [Es [Ss Gs]]]; [unfold fits; rewrite SS, S2; apply bshape_self|].
  cbn [build]. rewrite E. cbn [assoc]. sd. rewrite Em. cbn [update bufs]. sd. cbn [assoc]. sd. rewrite Es. cbn [update built bufs]. sd. eexists. split; [reflexivity|]. split.
  - unfold shapes. cbn [bufs map fst snd]. rewrite E. cbn. rewrite Sm, Ss. reflexivity.
  - split; [reflexivity|]. exists bm', bs'. cbn [bufs assoc]. sd.
    rewrite Sm, Ss. repeat split; try assumption.
    + rewrite Gm, SM, bidx_self by (cbn; lia). unfold mean_last. cbn [elt removelast]. rewrite HX. reflexivity.
    + rewrite Gs, SS, bidx_self by (cbn; lia). unfold std_last, tmap. cbn [elt removelast]. rewrite HX. reflexivity.
Qed.
(** forward and reverse on data with any leading dimensions *)
Theorem scaler_forward_values (st : fit R) C m s X pre T : holds st C m s -> shape X = pre ++ [C; T] ->
  (exists Y, scaler_forward st X false = Ok Y /\ shape Y = shape X /\
     forall p c t, inb p pre -> (c < C)%nat -> (t < T)%nat -> elt Y (p ++ [c; t]) = (elt X (p ++ [c; t]) - m c) / s c) /\
  (exists Y, scaler_forward st X true = Ok Y /\ shape Y = shape X /\
     forall p c t, inb p pre -> (c < C)%nat -> (t < T)%nat -> elt Y (p ++ [c; t]) = s c * elt X (p ++ [c; t]) + m c).
Proof.
  intros [Hb [bm [bs [E1 [E2 [S1 [S2 G]]]]]]] HX. unfold scaler_forward, call. rewrite Hb. cbn [bind]. rewrite E1, E2.
  assert (Q : bshape [C; T] [C; 1%nat] = Ok [C; T]) by (unfold bshape; cbn; rewrite bdim_1_r, bdim_refl; reflexivity).
  assert (BS : bshape (pre ++ [C; T]) [C; 1%nat] = Ok (pre ++ [C; T])) by (apply bshape_pre; [exact Q|cbn; lia]).
  assert (I1 : forall p c t, (c < C)%nat -> bidx [C; 1%nat] (p ++ [c; t]) = [c; 0%nat]).
  { intros p c t Hc. rewrite bidx_pre by reflexivity. unfold bidx. cbn. rewrite b1 by assumption. reflexivity. }
  assert (I2 : forall p c t, inb p pre -> (c < C)%nat -> (t < T)%nat -> bidx (pre ++ [C; T]) (p ++ [c; t]) = p ++ [c; t]).
  { intros p c t Hp Hc Ht. apply bidx_self, inb_app; [assumption|cbn; lia]. }
  cbn [negb]. split.
  - unfold bzip. rewrite HX, S1, BS. cbn [bind shape]. rewrite S2, BS. cbn [bind]. eexists. split; [reflexivity|]. split; [reflexivity|].
    intros p c t Hp Hc Ht. cbn [elt]. rewrite !I2, !I1 by assumption. destruct (G c Hc) as [-> ->]. reflexivity.
  - unfold bzip. rewrite HX, S2, (bshape_comm [C; 1%nat]), BS. cbn [bind shape]. rewrite S1, BS. cbn [bind]. eexists. split; [reflexivity|]. split; [reflexivity|].
    intros p c t Hp Hc Ht. cbn [elt]. rewrite !I2, !I1 by assumption. destruct (G c Hc) as [-> ->]. reflexivity.
Qed.
(** reverse undoes forward and forward undoes reverse, for any statistics with non-zero scale *)
Theorem scaler_round_trip (st : fit R) C m s X pre T rev : holds st C m s -> shape X = pre ++ [C; T] -> (forall c, (c < C)%nat -> s c <> 0) ->
  exists Y Z, scaler_forward st X rev = Ok Y /\ scaler_forward st Y (negb rev) = Ok Z /\ shape Y = shape X /\ shape Z = shape X /\
     forall p c t, inb p pre -> (c < C)%nat -> (t < T)%nat -> elt Z (p ++ [c; t]) = elt X (p ++ [c; t]).
Proof.
  intros H HX Hs. destruct (scaler_forward_values _ _ _ _ _ _ _ H HX) as [[Y1 [E1 [S1 G1]]] [Y2 [E2 [S2 G2]]]].
  destruct rev.
  - destruct (scaler_forward_values _ _ _ _ Y2 pre T H) as [[Z [E [S G]]] _]; [congruence|].
    exists Y2, Z. repeat split; try assumption; [congruence|]. intros p c t Hp Hc Ht. rewrite G, G2 by assumption. field. auto.
  - destruct (scaler_forward_values _ _ _ _ Y1 pre T H) as [_ [Z [E [S G]]]]; [congruence|].
    exists Y1, Z. repeat split; try assumption; [congruence|]. intros p c t Hp Hc Ht. rewrite G, G1 by assumption. field. auto.
Qed.
(** the data the scaler was fitted on is standardised: zero mean, unit variance per channel *)
Theorem scaler_standardises (st : fit R) C T X : shapes st = shapes (scaler_create (Some C)) -> (0 < C)%nat -> (0 < T)%nat -> shape X = [C; T] ->
  exists st' Y, scaler_fit st X 0 = (st', Ok tt) /\ scaler_forward st' X false = Ok Y /\ shape Y = [C; T] /\
    forall c, (c < C)%nat -> 0 < ch_var X T c -> ch_mean Y T c = 0 /\ ch_var Y T c = 1.
Proof.
  intros Hs HC HT HX. destruct (scaler_fit_values st C T X 0 Hs HC HX) as [st' [E [_ H]]].
  destruct (scaler_forward_values _ _ _ _ X [] T H HX) as [[Y [EY [SY G0]]] _].
  assert (G := fun c t => G0 [] c t I). cbn [app] in G. clear G0. exists st', Y. rewrite SY. repeat split; try assumption; rename H0 into Hc, H1 into Hvar.
  - set (sd := sqrt (ch_var X T c)) in *. assert (Hsd : 0 < sd) by (apply sqrt_lt_R0; assumption). assert (HN := INR_pos T HT).
    unfold ch_mean at 1. rewrite (Rsum_ext _ _ (fun t => (elt X [c; t] - ch_mean X T c) * / (sd + 0))).
    + rewrite Rsum_scal_r, Rsum_minus, Rsum_const. unfold ch_mean. field. lra.
    + intros t Ht. rewrite (G c t) by assumption. reflexivity.
  - set (sd := sqrt (ch_var X T c)) in *. assert (Hsd : 0 < sd) by (apply sqrt_lt_R0; assumption). assert (HN := INR_pos T HT).
    assert (M : ch_mean Y T c = 0).
    { unfold ch_mean at 1. rewrite (Rsum_ext _ _ (fun t => (elt X [c; t] - ch_mean X T c) * / (sd + 0))).
      + rewrite Rsum_scal_r, Rsum_minus, Rsum_const. unfold ch_mean. field. lra.
      + intros t Ht. rewrite (G c t) by assumption. reflexivity. }
    assert (SQ : sd * sd = ch_var X T c) by (apply sqrt_sqrt; lra).
    unfold ch_var at 1. rewrite M. rewrite (Rsum_ext _ _ (fun t => (elt X [c; t] - ch_mean X T c) ^ 2 * / (sd * sd))).
    + rewrite Rsum_scal_r, SQ. unfold ch_var. field. split; [lra|]. intros Z. unfold ch_var in Hvar. rewrite Z in Hvar. unfold Rdiv in Hvar. lra.
    + intros t Ht. rewrite (G c t) by assumption. fold sd. field. lra.
Qed.
(** ** single channel scaler *)
Theorem scaler_1d X T : shape X = [T] ->
  exists st, scaler_fit (scaler_create None) X 0 = (st, Ok tt) /\ (exists Y, scaler_forward st X false = Ok Y /\ shape Y = [T] /\
    forall t, (t < T)%nat -> elt Y [t] = (elt X [t] - Rsum T (fun u => elt X [u]) / INR T) / (sqrt (Rsum T (fun u => (elt X [u] - Rsum T (fun v => elt X [v]) / INR T) ^ 2) / INR T) + 0)) /\
    forall Y, scaler_forward st X false = Ok Y -> 0 < Rsum T (fun u => (elt X [u] - Rsum T (fun v => elt X [v]) / INR T) ^ 2) / INR T ->
      exists Z, scaler_forward st Y true = Ok Z /\ shape Z = [T] /\ forall t, (t < T)%nat -> elt Z [t] = elt X [t].
Proof.
  intros HX. unfold scaler_fit. rewrite HX. cbn [ndim_of scaler_create bufs assoc]. 
  assert (SM : shape (mean_last true X) = [1%nat]) by (unfold mean_last; cbn [shape]; rewrite HX; reflexivity).
  assert (SS : shape (tmap (fun v => v + 0) (std_last X)) = [1%nat]) by (unfold std_last, tmap; cbn [shape]; rewrite HX; reflexivity).
  set (st0 := scaler_create None) in *. change (ndim_of st0 "mean" =? 1)%nat with true. change (ndim_of st0 "std" =? 1)%nat with true. cbn [andb].
  unfold build, st0, scaler_create. cbn [bufs assoc]. sd.
  unfold copy_ at 1. cbn [shape]. rewrite SM. change (bshape [1%nat] [1%nat]) with (Ok [1%nat]). cbn iota. destruct (list_eq_dec Nat.eq_dec [1%nat] [1%nat]); [|congruence].
  cbn [update bufs]. sd. cbn [assoc]. sd.
  unfold copy_ at 1. cbn [shape]. rewrite SS. change (bshape [1%nat] [1%nat]) with (Ok [1%nat]). cbn iota. destruct (list_eq_dec Nat.eq_dec [1%nat] [1%nat]); [|congruence].
  cbn [update bufs built]. sd.
  set (mu := Rsum T (fun u => elt X [u]) / INR T). set (va := Rsum T (fun u => (elt X [u] - mu) ^ 2) / INR T).
  match goal with |- exists st, (?a, _) = _ /\ _ => set (st1 := a) end.
  assert (BS : bshape [T] [1%nat] = Ok [T]) by (unfold bshape; cbn; rewrite bdim_1_r; reflexivity).
  assert (BT : forall t, (t < T)%nat -> bidx [T] [t] = [t]) by (intros; apply bidx_self; cbn; auto).
  assert (VM : forall i, elt (mean_last true X) (bidx [1%nat] i) = mu).
  { intros i. unfold mean_last. cbn [elt]. rewrite HX. unfold mu. cbn [last]. f_equal. apply Rsum_ext. intros j _.
    replace (removelast (bidx [1%nat] i)) with (@nil nat); [reflexivity|]. unfold bidx. cbn [List.length].
    destruct (skipn (List.length i - 1) i) as [|? [|? ?]]; reflexivity. }
  assert (VS : forall i, elt (tmap (fun v => v + 0) (std_last X)) (bidx [1%nat] i) = sqrt va + 0).
  { intros i. unfold std_last, tmap, pop_std. cbn [elt]. rewrite HX. unfold va, mu. cbn [last].
    replace (removelast (bidx [1%nat] i)) with (@nil nat); [reflexivity|]. unfold bidx. cbn [List.length].
    destruct (skipn (List.length i - 1) i) as [|? [|? ?]]; reflexivity. }
  assert (F : forall W, shape W = [T] -> scaler_forward st1 W false = Ok (mk [T] (fun i => (elt W (bidx [T] (bidx [T] i)) - mu) / (sqrt va + 0)))
    /\ scaler_forward st1 W true = Ok (mk [T] (fun i => (sqrt va + 0) * elt W (bidx [T] (bidx [T] i)) + mu))).
  { intros W HW. unfold scaler_forward, call, st1. cbn [built bind bufs assoc]. sd. cbn [negb]. unfold bzip. cbn [shape].
    rewrite HW, (bshape_comm [1%nat]), BS. cbn [bind shape]. rewrite BS. cbn [bind elt].
    split; f_equal; f_equal; apply FunctionalExtensionality.functional_extensionality; intros i; rewrite VM, VS; reflexivity. }
  exists st1. split; [reflexivity|]. split.
  - eexists. split; [apply F, HX|]. split; [reflexivity|]. intros t Ht. cbn [elt]. rewrite !BT by assumption. reflexivity.
  - intros Y HY Hv. destruct (F X HX) as [F1 _]. rewrite F1 in HY. injection HY as <-. eexists. split; [apply F; reflexivity|]. split; [reflexivity|].
    intros t Ht. cbn [elt]. rewrite !BT by assumption. assert (0 < sqrt va) by (apply sqrt_lt_R0; exact Hv). field. lra.
Qed.
(** ** errors *)
Theorem scaler_errors st C T X reg : shapes st = shapes (scaler_create (Some C)) -> (0 < C)%nat ->
  ((ndim X <> 1)%nat -> (ndim X <> 2)%nat -> scaler_fit st X reg = (st, Err ValueError)) /\
  (shape X = [T] -> scaler_fit st X reg = (st, Err AssertionError)) /\
  (forall c, shape X = [c; T] -> c <> C -> scaler_fit st X reg = (st, Err AssertionError)).
Proof.
  intros Hs HC. destruct (shapes_2 _ _ Hs HC) as [bm [bs [E [S1 S2]]]]. unfold scaler_fit, ndim, ndim_of. repeat split.
  - intros N1 N2. destruct (shape X) as [|? [|? [|? ?]]]; cbn in *; try congruence; reflexivity.
  - intros ->. rewrite E. cbn. unfold ndim. rewrite S1. reflexivity.
  - intros c -> N. rewrite E. cbn. unfold ndim. rewrite S1, S2. cbn. apply Nat.eqb_neq in N. rewrite N. reflexivity.
Qed.
Theorem scaler_unfitted C X rev : scaler_forward (scaler_create C) X rev = Err ValueError.
Proof. destruct C; reflexivity. Qed.
(** ** non-vacuity *)
Example scaler_example : let X := mk [1; 2]%nat (fun i => INR (nth 1 i 0%nat)) in
  shapes (scaler_create (Some 1%nat)) = shapes (scaler_create (Some 1%nat)) /\ ch_mean X 2 0 = / 2 /\ ch_var X 2 0 = / 4.
Proof. cbn. unfold ch_mean, ch_var, ch_mean. cbn. repeat split; lra. Qed.
