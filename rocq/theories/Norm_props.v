(** C21-C23: GroupNorm1D and the signal augmentations. *)
From Verif Require Import Base Tensor Rutil Norm_model.
Local Open Scope R_scope.

(** ** Specification of group normalisation: group g of a sample consists of [cpg] consecutive channels *)
Definition group_mean (x : tensor R) (cpg t i g : nat) : R :=
  Rsum cpg (fun c => Rsum t (fun j => elt x [i; (g * cpg + c)%nat; j])) / (INR cpg * INR t).
Definition group_var (x : tensor R) (cpg t i g : nat) : R :=
  Rsum cpg (fun c => Rsum t (fun j => (elt x [i; (g * cpg + c)%nat; j] - group_mean x cpg t i g) ^ 2)) / (INR cpg * INR t).

Lemma var_trick cpg t (f : nat -> nat -> R) : (0 < cpg)%nat -> (0 < t)%nat ->
  let N := INR cpg * INR t in let m := Rsum cpg (fun c => Rsum t (fun j => f c j)) / N in
  Rsum cpg (fun c => Rsum t (fun j => (f c j - m) ^ 2)) / N = Rsum cpg (fun c => Rsum t (fun j => f c j * f c j)) / N - m * m.
Proof.
  intros Hc Ht N m. assert (HN : N <> 0) by (apply Rmult_integral_contrapositive; split; apply not_0_INR; lia).
  assert (E : Rsum cpg (fun c => Rsum t (fun j => (f c j - m) ^ 2)) =
              Rsum cpg (fun c => Rsum t (fun j => f c j * f c j)) - 2 * m * (N * m) + N * m * m).
  { transitivity (Rsum cpg (fun c => Rsum t (fun j => f c j * f c j) - 2 * m * Rsum t (fun j => f c j) + INR t * (m * m))).
    - apply Rsum_ext. intros c _. rewrite <- Rsum_scal, <- Rsum_const, <- Rsum_minus, <- Rsum_plus. apply Rsum_ext. intros; ring.
    - rewrite Rsum_plus, Rsum_minus, Rsum_const, Rsum_scal. 
      assert (Es : Rsum cpg (fun c => Rsum t (fun j => f c j)) = N * m) by (unfold m; field; exact HN).
      rewrite Es. unfold N. ring. }
  rewrite E. field. exact HN.
Qed.

(** construction: exactly the divisibility check *)
Theorem gnorm_create_spec C g eps : (0 < C)%nat -> (0 < g)%nat ->
  ((C mod g = 0)%nat -> exists m, gnorm_create C (Some g) eps = Ok m /\ gn_groups m = g /\ gn_channels m = C) /\
  ((C mod g <> 0)%nat -> gnorm_create C (Some g) eps = Err ValueError) /\
  (exists m, gnorm_create C None eps = Ok m /\ gn_groups m = C).
Proof.
  intros HC Hg. unfold gnorm_create. destruct g as [|g]; [lia|]. change (S g =? 0)%nat with false. cbn iota. repeat split.
  - intros E. rewrite E. cbn. eauto.
  - intros E. apply Nat.eqb_neq in E. rewrite E. reflexivity.
  - destruct (Nat.eqb_spec C 0); [lia|]. rewrite Nat.mod_same by lia. cbn. eauto.
Qed.

(** the getter's min rule: fine up to [groups] channels and at multiples of it, ValueError elsewhere *)
Theorem gnorm_getter_spec C g eps : (0 < C)%nat -> (0 < g)%nat ->
  is_ok (gnorm_getter (Some g) C eps) <-> (C <= g \/ C mod g = 0)%nat.
Proof.
  intros HC Hg. unfold gnorm_getter. destruct (Nat.leb_spec C g) as [H|H].
  - rewrite Nat.min_l by lia. destruct (proj1 (gnorm_create_spec C C eps HC HC)) as [m [E _]]; [apply Nat.mod_same; lia|].
    split; [tauto|]. intros _. exists m. exact E.
  - rewrite Nat.min_r by lia. destruct (gnorm_create_spec C g eps HC Hg) as [A [B _]]. split.
    + intros [m E]. right. destruct (Nat.eq_dec (C mod g) 0) as [|N]; [assumption|]. rewrite (B N) in E. discriminate.
    + intros [|E]; [lia|]. destruct (A E) as [m [Em _]]. exists m. exact Em.
Qed.
Theorem gnorm_getter_refuted eps : gnorm_getter (Some 16%nat) 24 eps = Err ValueError.
Proof. reflexivity. Qed.
(** the 2D getter has the same domain *)
Theorem gnorm2d_getter_spec C g : (0 < C)%nat -> (0 < g)%nat ->
  is_ok (gnorm2d_getter (Some g) C) <-> (C <= g \/ C mod g = 0)%nat.
Proof.
  intros HC Hg. unfold gnorm2d_getter. destruct (Nat.leb_spec C g) as [H|H].
  - rewrite Nat.min_l by lia. destruct (Nat.eqb_spec C 0); [lia|]. rewrite Nat.mod_same by lia. cbn. split; [tauto|]. intros _. eexists; reflexivity.
  - rewrite Nat.min_r by lia. destruct (Nat.eqb_spec g 0); [lia|]. destruct (Nat.eqb_spec (C mod g) 0) as [E|E]; cbn.
    + split; [tauto|]. intros _. eexists; reflexivity.
    + split; [intros [? ?]; discriminate|]. intros [?|?]; [lia|congruence].
Qed.

Theorem gnorm_forward_ndim m x : ndim x <> 3%nat -> gnorm_forward m x = Err ValueError.
Proof. intros H. unfold gnorm_forward. apply Nat.eqb_neq in H. rewrite H. reflexivity. Qed.

(** a created module with arbitrary trained parameters *)
Definition gnorm_params (m : gnorm) (w b : tensor R) : gnorm :=
  {| gn_channels := gn_channels m; gn_groups := gn_groups m; gn_cpg := gn_cpg m; gn_eps := gn_eps m; gn_weight := w; gn_bias := b |}.

Lemma infer_m1 (a b c : nat) n : (0 < a * b * c)%nat -> (n mod (a * b * c) = 0)%nat ->
  infer_dims [(-1)%Z; Z.of_nat a; Z.of_nat b; Z.of_nat c] n = Ok [(n / (a * b * c))%nat; a; b; c].
Proof.
  intros Hp Hm. unfold infer_dims. cbn [filter map existsb].
  assert (F : forall k : nat, (Z.of_nat k =? -1)%Z = false) by (intros; lia).
  assert (F' : forall k : nat, (Z.of_nat k <? -1)%Z = false) by (intros; lia).
  rewrite !F, !F'. cbn [negb map filter length orb]. change (-1 =? -1)%Z with true. change (-1 <? -1)%Z with false. cbn [negb orb length map].
  rewrite !Nat2Z.id. cbn [prod]. rewrite Nat.mul_1_r, Nat.mul_assoc.
  destruct (Nat.eqb_spec (a * b * c) 0); [lia|]. rewrite Hm. reflexivity.
Qed.

Lemma Rsum_1 f : Rsum 1 f = f 0%nat.
Proof. cbn. lra. Qed.

Lemma b1 (d x : nat) : (x < d)%nat -> (if (d =? 1)%nat then 0%nat else x) = x.
Proof. destruct (Nat.eqb_spec d 1); lia. Qed.
Lemma bidx_BC1 B C i c t : (i < B)%nat -> (c < C)%nat -> bidx [B; C; 1%nat] [i; c; t] = [i; c; 0%nat].
Proof. intros. unfold bidx. cbn. rewrite !b1 by assumption. reflexivity. Qed.
Lemma bidx_C1 C i c t : (c < C)%nat -> bidx [C; 1%nat] [i; c; t] = [c; 0%nat].
Proof. intros. unfold bidx. cbn. rewrite !b1 by assumption. reflexivity. Qed.
Lemma bidx_BCT B C T i c t : (i < B)%nat -> (c < C)%nat -> (t < T)%nat -> bidx [B; C; T] [i; c; t] = [i; c; t].
Proof. intros. unfold bidx. cbn. rewrite !b1 by assumption. reflexivity. Qed.

Lemma bshape_33 B C T : bshape [B; C; T] [B; C; T] = Ok [B; C; T].
Proof. unfold bshape. cbn. rewrite !bdim_refl. reflexivity. Qed.
Lemma bshape_33b B C T : bshape [B; C; T] [B; C; 1%nat] = Ok [B; C; T].
Proof. unfold bshape. cbn. rewrite !bdim_refl, bdim_1_r. reflexivity. Qed.
Lemma bshape_33c B C T : bshape [B; C; 1%nat] [B; C; T] = Ok [B; C; T].
Proof. unfold bshape. cbn. rewrite !bdim_refl, bdim_1_l. reflexivity. Qed.
Lemma bshape_23 B C : bshape [C; 1%nat] [B; C; 1%nat] = Ok [B; C; 1%nat].
Proof. unfold bshape. cbn. rewrite !bdim_refl. reflexivity. Qed.

(** the statistics computed by forward (before broadcasting), for any element-wise transform of the input *)
Lemma mean_BC keep (x : tensor R) (f : R -> R) B C T : shape x = [B; C; T] ->
  shape (mean_last keep (tmap f x)) = [B; C] ++ (if keep then [1%nat] else []) /\
  (forall i c, elt (mean_last keep (tmap f x)) ([i; c] ++ if keep then [0%nat] else []) = Rsum T (fun j => f (elt x [i; c; j])) / INR T).
Proof.
  intros Hx. unfold mean_last, tmap. cbn [shape]. rewrite Hx. cbn [last removelast]. split; [reflexivity|].
  intros i c. cbn [elt]. destruct keep; reflexivity.
Qed.

Theorem groupnorm1d_textbook C groups eps m0 m w bias x B T :
  gnorm_create C groups eps = Ok m0 -> m = gnorm_params m0 w bias -> (0 < C)%nat ->
  shape w = [C; 1%nat] -> shape bias = [C; 1%nat] -> shape x = [B; C; T] -> (0 < T)%nat ->
  (forall i c, (i < B)%nat -> (c < C)%nat -> group_var x (gn_cpg m) T i (c / gn_cpg m) + eps > 0) ->
  exists y, gnorm_forward m x = Ok y /\ shape y = [B; C; T] /\
    forall i c t, (i < B)%nat -> (c < C)%nat -> (t < T)%nat ->
      elt y [i; c; t] =
      (elt x [i; c; t] - group_mean x (gn_cpg m) T i (c / gn_cpg m)) / sqrt (group_var x (gn_cpg m) T i (c / gn_cpg m) + eps)
        * elt w [c; 0%nat] + elt bias [c; 0%nat].
Proof.
  intros Hc Hm HCpos Hw Hb Hx HT Hpos.
  assert (Hg : exists g, gn_channels m = C /\ gn_groups m = g /\ gn_eps m = eps /\ (0 < g)%nat /\ (C = g * gn_cpg m)%nat).
  { revert Hc. unfold gnorm_create. set (g := match groups with Some (S g) => S g | _ => C end).
    destruct (Nat.eqb_spec g 0); [discriminate|]. destruct (Nat.eqb_spec (C mod g) 0) as [E|E]; cbn; [|discriminate].
    intros H. injection H as H. exists g. rewrite Hm, <- H. cbn. pose proof (Nat.div_mod C g ltac:(lia)). repeat split; lia. }
  destruct Hg as [g [HC [Hgg [He [Hgpos HCg]]]]].
  set (p := gn_cpg m) in *.
  assert (Hp : (0 < p)%nat) by (destruct p; [lia|lia]).
  assert (Ew : gn_weight m = w) by (rewrite Hm; reflexivity). assert (Eb : gn_bias m = bias) by (rewrite Hm; reflexivity).
  (* the two statistics tensors *)
  assert (Hstat : exists mu sq,
    (if negb (g =? C)%nat then
      let* t := reshape [-1; 2; Z.of_nat g; Z.of_nat p]%Z (stack1 (mean_last (g =? C)%nat x) (mean_last (g =? C)%nat (tmap (fun v => v * v) x))) in
      let* t := reshape [-1; 2; Z.of_nat C; 1]%Z (expand_last p (mean_last true t)) in
      Ok (select1 0 t, select1 1 t)
     else Ok (mean_last (g =? C)%nat x, mean_last (g =? C)%nat (tmap (fun v => v * v) x))) = Ok (mu, sq) /\
    shape mu = [B; C; 1%nat] /\ shape sq = [B; C; 1%nat] /\
    forall i c, (i < B)%nat -> (c < C)%nat ->
      elt mu [i; c; 0%nat] = group_mean x p T i (c / p) /\
      elt sq [i; c; 0%nat] = Rsum p (fun k => Rsum T (fun j => elt x [i; (c / p * p + k)%nat; j] * elt x [i; (c / p * p + k)%nat; j])) / (INR p * INR T)).
  { assert (Ex : x = tmap (fun v => v) x) by (destruct x; reflexivity).
    destruct (Nat.eqb_spec g C) as [E|E]; cbn [negb].
    - assert (p = 1%nat) by nia.
      destruct (mean_BC true x (fun v => v) B C T Hx) as [S1 E1]. destruct (mean_BC true x (fun v => v * v) B C T Hx) as [S2 E2].
      rewrite <- Ex in S1, E1. cbn [app] in *.
      eexists _, _; split; [reflexivity|]. split; [exact S1|]. split; [exact S2|].
      intros i c Hi Hcc. rewrite E1, E2. unfold group_mean. rewrite H, Nat.div_1_r. cbn [Rsum]. rewrite !Rplus_0_l, !Nat.mul_1_r, !Nat.add_0_r.
      cbn [INR]. rewrite !Rmult_1_l. split; reflexivity.
    - destruct (mean_BC false x (fun v => v) B C T Hx) as [S1 E1]. destruct (mean_BC false x (fun v => v * v) B C T Hx) as [S2 E2].
      rewrite <- Ex in S1, E1. cbn [app] in *.
      set (mx := mean_last false x) in *. set (mq := mean_last false (tmap (fun v => v * v) x)) in *.
      unfold reshape at 1.
      assert (N1 : numel (stack1 mx mq) = (B * (2 * g * p))%nat) by (unfold numel, stack1; cbn [shape]; rewrite S1; cbn [prod]; nia).
      assert (P2 : (0 < 2 * g * p)%nat) by nia.
      change 2%Z with (Z.of_nat 2). rewrite N1, infer_m1 by (try lia; apply Nat.mod_mul; lia). rewrite Nat.div_mul by lia. cbn [bind].
      unfold reshape_to at 1. rewrite N1.
      replace (prod [B; 2%nat; g; p] =? B * (2 * g * p))%nat with true by (symmetry; apply Nat.eqb_eq; cbn [prod]; nia). cbn [bind].
      set (t1 := mk [B; 2%nat; g; p] _).
      set (t2 := expand_last p (mean_last true t1)).
      assert (S3 : shape t2 = [B; 2%nat; g; p]) by reflexivity.
      unfold reshape. assert (N2 : numel t2 = (B * (2 * C * 1))%nat) by (unfold numel; rewrite S3; cbn [prod]; nia).
      rewrite N2. change 1%Z with (Z.of_nat 1). rewrite infer_m1 by (try lia; apply Nat.mod_mul; lia). rewrite Nat.div_mul by lia. cbn [bind].
      unfold reshape_to. rewrite N2.
      replace (prod [B; 2%nat; C; 1%nat] =? B * (2 * C * 1))%nat with true by (symmetry; apply Nat.eqb_eq; cbn [prod]; nia). cbn [bind].
      eexists _, _; split; [reflexivity|]. split; [reflexivity|]. split; [reflexivity|].
      intros i c Hi Hcc. unfold select1. cbn [elt shape].
      assert (D := Nat.div_mod c p ltac:(lia)). assert (M := Nat.mod_upper_bound c p ltac:(lia)).
      assert (Hcp : (c / p < g)%nat) by (apply Nat.div_lt_upper_bound; lia).
      assert (K : forall s, (s < 2)%nat -> elt t2 (unravel (shape t2) (ravel [B; 2%nat; C; 1%nat] [i; s; c; 0%nat])) =
          Rsum p (fun k => Rsum T (fun j => (if (s =? 0)%nat then (fun v : R => v) else (fun v : R => v * v)) (elt x [i; (c / p * p + k)%nat; j])) / INR T) / INR p).
      { intros s Hs.
        assert (Er : ravel [B; 2%nat; C; 1%nat] [i; s; c; 0%nat] = ravel (shape t2) [i; s; (c / p)%nat; (c mod p)%nat]).
        { rewrite S3. cbn [ravel prod]. rewrite HCg. nia. }
        rewrite Er, unravel_ravel by (rewrite S3; cbn; repeat split; auto).
        unfold t2, expand_last. cbn [elt removelast app]. unfold mean_last. cbn [elt shape t1 last removelast app].
        f_equal. apply Rsum_ext. intros k Hk.
        assert (S4 : shape (stack1 mx mq) = [B; 2%nat; C]) by (unfold stack1; cbn [shape]; rewrite S1; reflexivity).
        assert (Er2 : ravel [B; 2%nat; g; p] [i; s; (c / p)%nat; k] = ravel (shape (stack1 mx mq)) [i; s; (c / p * p + k)%nat]).
        { rewrite S4. cbn [ravel prod]. rewrite HCg. nia. }
        unfold t1. cbn [elt]. rewrite Er2, unravel_ravel by (rewrite S4; cbn; nia).
        unfold stack1. cbn [elt]. destruct s as [|[|s]]; [| |lia]; cbn [Nat.eqb]; [rewrite E1|rewrite E2]; reflexivity. }
      pose proof (K 0%nat ltac:(lia)) as K0. pose proof (K 1%nat ltac:(lia)) as K1. cbn [Nat.eqb] in K0, K1.
      assert (HTr : INR T <> 0) by (apply not_0_INR; lia). assert (Hpr : INR p <> 0) by (apply not_0_INR; lia).
      rewrite K0, K1. unfold group_mean. unfold Rdiv. rewrite !Rsum_scal_r. split; field; auto. }
  destruct Hstat as [mu [sq [E [Smu [Ssq Hst]]]]].
  unfold gnorm_forward, ndim. rewrite Hx. cbn [length Nat.eqb negb]. rewrite HC, Hgg, He. fold p. rewrite Ew, Eb, E. cbn [bind].
  unfold bzip at 1. rewrite Ssq, Smu, bshape_33. cbn [bind].
  unfold bzip at 1. unfold tmap. cbn [shape elt]. rewrite Hw, bshape_23. cbn [bind].
  unfold bzip at 1. cbn [shape elt]. rewrite Smu, bshape_33. cbn [bind].
  unfold bzip at 1. cbn [shape elt]. rewrite Hb, bshape_23. cbn [bind].
  unfold bzip at 1. cbn [shape elt]. rewrite Hx, bshape_33b. cbn [bind].
  unfold bzip. cbn [shape elt]. rewrite bshape_33c. cbn [bind].
  eexists; split; [reflexivity|]. cbn [shape elt]. split; [reflexivity|].
  intros i c t Hi Hcc Ht.
  rewrite !(bidx_BCT B C T i c t) by assumption. rewrite !(bidx_BC1 B C i c) by assumption. rewrite !(bidx_C1 C i c) by assumption.
  destruct (Hst i c Hi Hcc) as [-> ->]. specialize (Hpos i c Hi Hcc).
  assert (Hcp : (c / p < g)%nat) by (apply Nat.div_lt_upper_bound; lia).
  pose proof (var_trick p T (fun k j => elt x [i; (c / p * p + k)%nat; j]) Hp HT) as V. cbn zeta in V. cbv beta in V.
  fold (group_mean x p T i (c / p)) in V. fold (group_var x p T i (c / p)) in V. rewrite <- V.
  assert (sqrt (group_var x p T i (c / p) + eps) <> 0) by (apply Rgt_not_eq, sqrt_lt_R0; exact Hpos).
  field. assumption.
Qed.

(** the positivity hypothesis always holds for eps > 0 *)
Lemma group_var_nonneg x p T i g : 0 <= group_var x p T i g.
Proof.
  unfold group_var. apply Rmult_le_pos.
  - apply Rsum_nonneg. intros; apply Rsum_nonneg. intros. apply pow2_ge_0.
  - destruct (Req_dec (INR p * INR T) 0) as [->|H]; [rewrite Rinv_0; lra|].
    apply Rlt_le, Rinv_0_lt_compat. pose proof (pos_INR p). pose proof (pos_INR T). nra.
Qed.

(** affine change of the input: x -> a x + d with eps -> a^2 eps leaves the output unchanged (a > 0) *)
Theorem groupnorm1d_affine C groups eps m0 m w bias x B T a d m0' x' :
  gnorm_create C groups eps = Ok m0 -> m = gnorm_params m0 w bias -> (0 < C)%nat ->
  shape w = [C; 1%nat] -> shape bias = [C; 1%nat] -> shape x = [B; C; T] -> (0 < T)%nat -> 0 < eps -> 0 < a ->
  gnorm_create C groups (a * a * eps) = Ok m0' -> x' = tmap (fun v => a * v + d) x ->
  exists y y', gnorm_forward m x = Ok y /\ gnorm_forward (gnorm_params m0' w bias) x' = Ok y' /\
    forall i c t, (i < B)%nat -> (c < C)%nat -> (t < T)%nat -> elt y' [i; c; t] = elt y [i; c; t].
Proof.
  intros Hc Hm HC Hw Hb Hx HT He Ha Hc' Hx'.
  assert (Ep : gn_cpg (gnorm_params m0' w bias) = gn_cpg m /\ (0 < gn_cpg m)%nat).
  { revert Hc Hc'. rewrite Hm. unfold gnorm_create. set (g := match groups with Some (S g) => S g | _ => C end).
    destruct (Nat.eqb_spec g 0); [discriminate|]. destruct (Nat.eqb_spec (C mod g) 0) as [E|E]; cbn; [|discriminate].
    intros H H'. injection H as <-. injection H' as <-. cbn. split; [reflexivity|].
    pose proof (Nat.div_mod C g ltac:(lia)) as D. destruct (C / g)%nat; lia. }
  destruct Ep as [Ep Hp]. set (p := gn_cpg m) in *.
  assert (Sx' : shape x' = [B; C; T]) by (rewrite Hx'; exact Hx).
  destruct (groupnorm1d_textbook C groups eps m0 m w bias x B T Hc Hm HC Hw Hb Hx HT) as [y [Ey [_ Gy]]].
  { intros i c _ _. pose proof (group_var_nonneg x p T i (c / p)). fold p. lra. }
  destruct (groupnorm1d_textbook C groups (a * a * eps) m0' _ w bias x' B T Hc' eq_refl HC Hw Hb Sx' HT) as [y' [Ey' [_ Gy']]].
  { intros i c _ _. match goal with |- group_var ?z ?q ?r ?s ?u + _ > 0 => pose proof (group_var_nonneg z q r s u) end. assert (0 < a * a * eps) by (repeat apply Rmult_lt_0_compat; lra). lra. }
  exists y, y'. split; [exact Ey|]. split; [exact Ey'|]. intros i c t Hi Hcc Ht.
  rewrite Gy', Gy by assumption. rewrite Ep. fold p.
  assert (HTr : INR T <> 0) by (apply not_0_INR; lia). assert (Hpr : INR p <> 0) by (apply not_0_INR; lia).
  assert (Em : forall q, group_mean x' p T i q = a * group_mean x p T i q + d).
  { intros q. unfold group_mean. rewrite Hx'. unfold tmap. cbn [elt].
    rewrite (Rsum_ext p _ (fun k => a * Rsum T (fun j => elt x [i; (q * p + k)%nat; j]) + INR T * d)).
    - rewrite Rsum_plus, Rsum_scal, Rsum_const. field. auto.
    - intros k _. rewrite Rsum_plus, Rsum_scal, Rsum_const. reflexivity. }
  assert (Ev : forall q, group_var x' p T i q = a * a * group_var x p T i q).
  { intros q. unfold group_var. rewrite Em. rewrite Hx'. unfold tmap. cbn [elt].
    rewrite (Rsum_ext p _ (fun k => (a * a) * Rsum T (fun j => (elt x [i; (q * p + k)%nat; j] - group_mean x p T i q) ^ 2))).
    - rewrite Rsum_scal. field. auto.
    - intros k _. rewrite <- Rsum_scal. apply Rsum_ext. intros j _. ring. }
  rewrite Em, Ev. rewrite <- Rmult_plus_distr_l.
  pose proof (group_var_nonneg x p T i (c / p)).
  rewrite sqrt_mult by nra. rewrite sqrt_square by lra. rewrite Hx'. unfold tmap. cbn [elt].
  assert (sqrt (group_var x p T i (c / p) + eps) <> 0) by (apply Rgt_not_eq, sqrt_lt_R0; lra).
  field. split; [assumption|lra].
Qed.

Example groupnorm_nonvacuous :
  exists m, gnorm_create 4 (Some 2%nat) (1 / 100000) = Ok m /\ gn_cpg m = 2%nat /\
    let x := mk [3; 4; 5]%nat (fun i => INR (nth 1 i 0%nat + nth 2 i 0%nat)) in
    forall i c, group_var x 2 5 i (c / 2) + 1 / 100000 > 0.
Proof.
  eexists. split; [reflexivity|]. split; [reflexivity|]. cbn zeta. intros i c.
  match goal with |- group_var ?z ?q ?r ?s ?u + _ > 0 => pose proof (group_var_nonneg z q r s u) end. lra.
Qed.

(** ** C23 *)
Lemma pos_of_nth i l : In i l -> nth (pos_of i l) l [] = i.
Proof.
  induction l as [|a l IH]; intros H; [destruct H|]. cbn. destruct (list_eq_dec Nat.eq_dec a i) as [E|E]; [exact E|].
  apply IH. destruct H; [congruence|assumption].
Qed.

Lemma inb_removelast i s : s <> [] -> inb i s -> inb (removelast i) (removelast s) /\ (last i 0 < last s 0)%nat /\ i = removelast i ++ [last i 0%nat].
Proof.
  intros Hs H. assert (Hi : i <> []) by (apply inb_length in H; destruct i, s; congruence || discriminate).
  pose proof (app_removelast_last 0%nat Hi) as Ei. pose proof (app_removelast_last 0%nat Hs) as Es.
  rewrite Ei, Es in H. apply inb_app_inv in H.
  - destruct H as [H1 H2]. cbn in H2. tauto.
  - apply inb_length in H. rewrite !app_length in H. cbn in H. lia.
Qed.

Lemma mask_roundtrip {A} mask (x : tensor A) i : shape x <> [] -> inb i (shape x) -> mask (removelast i) = true ->
  nth (pos_of (removelast i) (mask_idx mask (shape x))) (mask_idx mask (shape x)) [] = removelast i.
Proof.
  intros Hs Hi Hm. apply pos_of_nth. unfold mask_idx. apply filter_In. split; [|exact Hm].
  apply all_idx_spec. apply inb_removelast; assumption.
Qed.

Lemma rand_mask_cases prob rand i : (rand i < prob /\ rand_mask prob rand i = true) \/ (rand i >= prob /\ rand_mask prob rand i = false).
Proof. unfold rand_mask. destruct (Rlt_dec (rand i) prob); [left|right]; split; auto; lra. Qed.

(** each series of the result is the input series, negated exactly when its own draw is below [prob] *)
Theorem signal_inverter_spec prob rand (x : tensor R) : shape x <> [] ->
  exists y, invert prob rand x = Ok y /\ shape y = shape x /\
    forall i, inb i (shape x) ->
      (rand (removelast i) < prob -> elt y i = - elt x i) /\ (rand (removelast i) >= prob -> elt y i = elt x i).
Proof.
  intros Hs. unfold invert. destruct (shape x) as [|d s] eqn:E; [congruence|]. eexists; split; [reflexivity|].
  split; [exact E|]. intros i Hi. unfold mask_set. cbn [elt].
  assert (Hx : shape x <> []) by congruence. assert (Hi' : inb i (shape x)) by congruence.
  destruct (inb_removelast i (shape x) Hx Hi') as [_ [_ Ei]].
  destruct (rand_mask_cases prob rand (removelast i)) as [[L M]|[L M]]; rewrite M; split; intros H; try (exfalso; lra); [|reflexivity].
  unfold tmap, mask_get. cbn [elt]. rewrite mask_roundtrip by assumption.
  rewrite <- Ei. ring.
Qed.

Theorem signal_reverser_spec prob rand (x : tensor R) : shape x <> [] ->
  exists y, reverse prob rand x = Ok y /\ shape y = shape x /\
    forall i t, inb (i ++ [t]) (shape x) ->
      (rand i < prob -> elt y (i ++ [t]) = elt x (i ++ [(last (shape x) 0 - 1 - t)%nat])) /\
      (rand i >= prob -> elt y (i ++ [t]) = elt x (i ++ [t])).
Proof.
  intros Hs. unfold reverse. destruct (shape x) as [|d s] eqn:E; [congruence|]. eexists; split; [reflexivity|].
  split; [exact E|]. intros i t Hi. unfold mask_set. cbn [elt]. rewrite removelast_last, last_last.
  assert (Hx : shape x <> []) by congruence. assert (Hi' : inb (i ++ [t]) (shape x)) by congruence.
  destruct (rand_mask_cases prob rand i) as [[L Mk]|[L Mk]]; rewrite Mk; split; intros H; try (exfalso; lra); [|reflexivity].
  pose proof (mask_roundtrip (rand_mask prob rand) x (i ++ [t]) Hx Hi') as M. rewrite removelast_last in M.
  unfold flip_last, mask_get. cbn [elt shape removelast last app].
  rewrite M by exact Mk. rewrite E. reflexivity.
Qed.

(** a 0-d input is one sample with one draw: negated or not, and never changed by reversal *)
Theorem augmentation_scalar prob rand (x : tensor R) : shape x = [] ->
  (exists y, invert prob rand x = Ok y /\ shape y = [] /\ (rand [] < prob -> get y [] = Some (- elt x [])) /\ (rand [] >= prob -> get y [] = Some (elt x []))) /\
  reverse prob rand x = Ok x.
Proof.
  intros Hs. unfold invert, reverse. rewrite Hs. split; [|reflexivity]. eexists; split; [reflexivity|].
  destruct (rand_mask_cases prob rand []) as [[L M]|[L M]]; rewrite M; unfold tmap; cbn [shape]; (split; [exact Hs|]);
    split; intros H; try (exfalso; lra); rewrite get_inb by (cbn [shape]; rewrite Hs; exact I); cbn [elt]; f_equal; ring.
Qed.
(** prob = 0 changes nothing, prob = 1 changes every series (draws lie in [0, 1)) *)
Theorem augmentation_extremes rand (x : tensor R) : shape x <> [] -> (forall i, 0 <= rand i < 1) ->
  (exists y, invert 0 rand x = Ok y /\ teq y x) /\
  (exists y, reverse 0 rand x = Ok y /\ teq y x) /\
  (exists y, invert 1 rand x = Ok y /\ forall i, inb i (shape x) -> elt y i = - elt x i) /\
  (exists y, reverse 1 rand x = Ok y /\ forall i t, inb (i ++ [t]) (shape x) -> elt y (i ++ [t]) = elt x (i ++ [(last (shape x) 0 - 1 - t)%nat])).
Proof.
  intros Hs Hr.
  destruct (signal_inverter_spec 0 rand x Hs) as [y0 [E0 [S0 P0]]]. destruct (signal_inverter_spec 1 rand x Hs) as [y1 [E1 [S1 P1]]].
  destruct (signal_reverser_spec 0 rand x Hs) as [y2 [E2 [S2 P2]]]. destruct (signal_reverser_spec 1 rand x Hs) as [y3 [E3 [S3 P3]]].
  split; [|split; [|split]].
  - exists y0. split; [exact E0|]. split; [exact S0|]. intros i Hi. rewrite S0 in Hi. apply P0; [exact Hi|]. specialize (Hr (removelast i)). lra.
  - exists y2. split; [exact E2|]. split; [exact S2|]. intros i Hi. rewrite S2 in Hi.
    destruct (inb_removelast i (shape x) Hs Hi) as [_ [_ Ei]]. rewrite Ei in Hi |- *. apply P2; [exact Hi|]. specialize (Hr (removelast i)). lra.
  - exists y1. split; [exact E1|]. intros i Hi. apply P1; [exact Hi|]. apply Hr.
  - exists y3. split; [exact E3|]. intros i t Hi. apply P3; [exact Hi|]. apply Hr.
Qed.

(** the same mask twice is the identity *)
Theorem augmentation_involutive prob rand (x : tensor R) : shape x <> [] ->
  (exists y z, invert prob rand x = Ok y /\ invert prob rand y = Ok z /\ teq z x) /\
  (exists y z, reverse prob rand x = Ok y /\ reverse prob rand y = Ok z /\ teq z x).
Proof.
  intros Hs. split.
  - destruct (signal_inverter_spec prob rand x Hs) as [y [E [S P]]].
    destruct (signal_inverter_spec prob rand y) as [z [E' [S' P']]]; [rewrite S; exact Hs|].
    exists y, z. split; [exact E|]. split; [exact E'|]. split; [congruence|]. intros i Hi. rewrite S', S in Hi.
    destruct (P i Hi) as [Pa Pb]. rewrite S in P'. destruct (P' i Hi) as [Pc Pd].
    destruct (Rlt_dec (rand (removelast i)) prob) as [L|L].
    + rewrite Pc, Pa by assumption. ring.
    + rewrite Pd, Pb by lra. reflexivity.
  - destruct (signal_reverser_spec prob rand x Hs) as [y [E [S P]]].
    destruct (signal_reverser_spec prob rand y) as [z [E' [S' P']]]; [rewrite S; exact Hs|].
    exists y, z. split; [exact E|]. split; [exact E'|]. split; [congruence|]. intros i Hi. rewrite S', S in Hi.
    destruct (inb_removelast i (shape x) Hs Hi) as [Hl [Hl2 Ei]]. set (r := removelast i) in *. set (t := last i 0%nat) in *. rewrite Ei in Hi |- *.
    rewrite S in P'. destruct (P' r t Hi) as [Pc Pd].
    destruct (Rlt_dec (rand r) prob) as [L|L].
    + rewrite Pc by assumption.
      assert (Hi2 : inb (r ++ [(last (shape x) 0 - 1 - t)%nat]) (shape x)).
      { rewrite (app_removelast_last 0%nat Hs). apply inb_app; [exact Hl|]. rewrite last_last. cbn. lia. }
      rewrite (proj1 (P r _ Hi2)) by assumption. do 3 f_equal. lia.
    + rewrite Pd by lra. apply (proj2 (P r t Hi)). lra.
Qed.
