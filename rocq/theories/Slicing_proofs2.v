(** Lemmas about slice_kernels and sample_kernels. *)
From Verif Require Import Base Tensor Slicing_model Slicing_spec Slicing_proofs.

Lemma infer_dims_hole l1 l2 n : prod (l1 ++ l2) <> 0 -> n mod prod (l1 ++ l2) = 0 ->
  infer_dims (map Z.of_nat l1 ++ (-1)%Z :: map Z.of_nat l2) n
  = Ok (l1 ++ (n / prod (l1 ++ l2)) :: l2).
Proof.
  intros Hp Hm. unfold infer_dims.
  rewrite existsb_app, existsb_of_nat. cbn [existsb orb].
  change (-1 <? -1)%Z with false. rewrite existsb_of_nat. cbn [orb].
  rewrite !filter_app. cbn [filter]. change (-1 =? -1)%Z with true. cbn [negb].
  rewrite !(filter_all (fun d => negb (d =? -1)%Z)) by (intros a Ha; apply in_map_iff in Ha; destruct Ha as [b [E _]]; subst; cbv beta; lia).
  rewrite !(filter_none (fun d => (d =? -1)%Z)) by (intros a Ha; apply in_map_iff in Ha; destruct Ha as [b [E _]]; subst; cbv beta; lia).
  cbn [app length]. rewrite <- map_app, map_to_of_nat.
  replace (prod (l1 ++ l2) =? 0) with false by lia. rewrite Hm. cbn [Nat.eqb].
  rewrite map_app. cbn [map]. change (-1 =? -1)%Z with true. cbn iota.
  assert (Hid : forall l, map (fun d => if (d =? -1)%Z then n / prod (l1 ++ l2) else Z.to_nat d) (map Z.of_nat l) = l).
  { intros l. rewrite map_map. rewrite <- (map_id l) at 2. apply map_ext. intros a.
    destruct (Z.eqb_spec (Z.of_nat a) (-1)); lia. }
  rewrite !Hid. reflexivity.
Qed.

Lemma reshape_hole_ok {A} l1 l2 w (t : tensor A) : prod (l1 ++ l2) <> 0 -> numel t = w * prod (l1 ++ l2) ->
  reshape (map Z.of_nat l1 ++ (-1)%Z :: map Z.of_nat l2) t
  = Ok (mk (l1 ++ w :: l2) (fun i => elt t (unravel (shape t) (ravel (l1 ++ w :: l2) i)))).
Proof.
  intros Hp Hn. destruct (div_mod_exact _ _ _ Hp Hn) as [H1 H2].
  unfold reshape. rewrite infer_dims_hole by assumption. cbn [bind]. rewrite H2. unfold reshape_to.
  rewrite prod_app in *. cbn [prod]. rewrite Hn.
  replace (prod l1 * (w * prod l2) =? w * (prod l1 * prod l2)) with true by (symmetry; apply Nat.eqb_eq; lia).
  reflexivity.
Qed.

Lemma forallb_all_idx (f : list nat -> bool) s :
  forallb f (all_idx s) = true <-> forall i, inb i s -> f i = true.
Proof.
  rewrite forallb_forall. split; intros H i Hi; apply H; apply all_idx_spec; assumption.
Qed.

Lemma mod_1 n : n mod 1 = 0.
Proof. apply Nat.mod_1_r. Qed.

(** *** 1D x, 1D idx *)
Lemma slice_kernels_11 {A} (x : tensor A) idx (k t b : nat) :
  shape x = [t] -> shape idx = [b] -> 0 < k ->
  let v i := elt idx [i] in
  ((forall i, i < b -> (- Z.of_nat t <= v i /\ v i + Z.of_nat k <= Z.of_nat t)%Z) ->
     exists y, slice_kernels x idx (Z.of_nat k) = Ok y /\ shape y = [b; k] /\
       forall i j, i < b -> j < k ->
         get y [i; j] = get x [Z.to_nat ((v i + Z.of_nat j) mod Z.of_nat t)])
  /\ ((exists i, i < b /\ (v i < - Z.of_nat t \/ Z.of_nat t < v i + Z.of_nat k)%Z) ->
     slice_kernels x idx (Z.of_nat k) = Err IndexError).
Proof.
  intros Hx Hi Hk v.
  assert (HK : exists K, shape K = [b; k] /\ (forall i j, i < b -> j < k -> elt K [i; j] = (v i + Z.of_nat j)%Z)
     /\ slice_kernels x idx (Z.of_nat k) = take x K).
  { unfold slice_kernels, arange. replace (Z.of_nat k <? 0)%Z with false by lia. cbn [bind].
    rewrite Hx, Hi, !Nat2Z.id.
    unfold reshape_to at 1. unfold numel; cbn [shape prod]. replace (k * (1 * 1) =? k * 1) with true by lia.
    cbn [bind elt]. unfold repeat_t. cbn [shape zip_with elt].
    unfold bzip, bshape. cbn [shape]. rewrite Hi. cbn [rev app bshape_rev].
    rewrite Nat.mul_1_l, bdim_refl. cbn [bind rev app].
    rewrite (transpose_eq 0 1 0 1) by reflexivity. cbn [bind shape elt].
    eexists; split; [|split]; [| |reflexivity].
    - cbn. f_equal. f_equal. lia.
    - intros i j Hi' Hj. cbn [elt swap_nth set_nth nth]. unfold bidx. cbn.
      rewrite mod_1. replace (k * 1 =? 1) with (k =? 1) by lia.
      rewrite ?Nat.div_1_r.
      assert (E1 : (if k =? 1 then 0 else j) = j) by (destruct (Nat.eqb_spec k 1); lia).
      assert (E2 : (if b =? 1 then 0 else i) = i) by (destruct (Nat.eqb_spec b 1); lia).
      rewrite E1, E2. rewrite Nat.mod_small by lia.
      replace (j * 1 + (0 + 0)) with j by lia. unfold v. lia. }
  destruct HK as [K [HKs [HKe ->]]].
  assert (Ht : numel x = t) by (unfold numel; rewrite Hx; cbn; lia).
  split.
  - intros Hv. unfold take. rewrite Ht.
    replace (forallb _ _) with true.
    + eexists; split; [reflexivity|]. cbn [shape]. split; [assumption|].
      intros i j Hi' Hj. specialize (Hv i Hi').
      rewrite get_inb by (cbn; rewrite HKs; cbn; lia). cbn [elt].
      rewrite HKe by assumption. rewrite Hx. cbn [unravel].
      set (q := (v i + Z.of_nat j)%Z) in *.
      assert (Hq : (- Z.of_nat t <= q < Z.of_nat t)%Z) by lia.
      assert (Hm : (if q <? 0 then q + Z.of_nat t else q)%Z = (q mod Z.of_nat t)%Z).
      { destruct (Z.ltb_spec q 0).
        - rewrite <- (Z.mod_add q 1 (Z.of_nat t)) by lia. rewrite Z.mod_small by lia. lia.
        - rewrite Z.mod_small by lia. reflexivity. }
      rewrite Hm. pose proof (Z.mod_pos_bound q (Z.of_nat t) ltac:(lia)).
      rewrite get_inb by (rewrite Hx; cbn; lia). do 2 f_equal. rewrite Nat.div_1_r. reflexivity.
    + symmetry. apply forallb_all_idx. rewrite HKs. intros ij Hij.
      destruct ij as [|i [|j [|? ?]]]; cbn in Hij; try tauto. destruct Hij as [H1 [H2 _]].
      rewrite HKe by assumption. specialize (Hv i H1). lia.
  - intros [i [Hi' Hv]]. unfold take. rewrite Ht.
    destruct (forallb _ _) eqn:E; [|reflexivity]. exfalso.
    rewrite forallb_all_idx in E. rewrite HKs in E.
    destruct Hv as [Hv|Hv].
    + specialize (E [i; 0]). cbn in E. rewrite HKe in E by lia. specialize (E ltac:(lia)). lia.
    + specialize (E [i; k - 1]). cbn in E. rewrite HKe in E by lia. specialize (E ltac:(lia)). lia.
Qed.

(** *** 2D x: common tail [reshape (c,-1); take_along_dim; reshape (c,b,k); transpose] *)
Lemma gather_tail {A} (x : tensor A) (K : tensor Z) (c b k t : nat) (w : nat -> nat -> Z) :
  shape x = [c; t] -> shape K = [c; b; k] -> 0 < c -> 0 < k ->
  (forall ci i j, ci < c -> i < b -> j < k -> elt K [ci; i; j] = (w i ci + Z.of_nat j)%Z) ->
  let r := (let* kernels := reshape [Z.of_nat c; -1]%Z K in
      let* y := take_along_last x kernels in
      let* y := reshape_to [c; b; k] y in
      transpose 0 1 y) in
  ((forall i ci, i < b -> ci < c -> (0 <= w i ci /\ w i ci + Z.of_nat k <= Z.of_nat t)%Z) ->
     exists y, r = Ok y /\ shape y = [b; c; k] /\
       forall i ci j, i < b -> ci < c -> j < k ->
         get y [i; ci; j] = get x [ci; Z.to_nat (w i ci) + j])
  /\ ((exists i ci, i < b /\ ci < c /\ (w i ci < 0 \/ Z.of_nat t < w i ci + Z.of_nat k)%Z) ->
     r = Err RuntimeError).
Proof.
  intros Hx HKs Hc Hk HKe r.
  assert (Hr : r = (let* y := take_along_last x
     (mk [c; b * k] (fun i => elt K (unravel (shape K) (ravel [c; b * k] i)))) in
      let* y := reshape_to [c; b; k] y in
      transpose 0 1 y)).
  { unfold r. change [Z.of_nat c; (-1)%Z] with (map Z.of_nat [c] ++ (-1)%Z :: map Z.of_nat []).
    rewrite (reshape_hole_ok [c] [] (b * k)) by (unfold numel; rewrite ?HKs; cbn; nia).
    reflexivity. }
  clearbody r. subst r.
  set (K' := mk [c; b * k] _).
  assert (HK' : forall ci i j, ci < c -> i < b -> j < k -> elt K' [ci; i * k + j] = (w i ci + Z.of_nat j)%Z).
  { intros ci i j H1 H2 H3. unfold K'. cbn [elt]. rewrite HKs.
    replace (ravel [c; b * k] [ci; i * k + j]) with (ravel [c; b; k] [ci; i; j]) by (cbn; nia).
    rewrite unravel_ravel by (cbn; lia). apply HKe; assumption. }
  unfold take_along_last. rewrite Hx. cbn [shape removelast K'].
  destruct (list_eq_dec Nat.eq_dec [c] [c]) as [_|]; [|congruence]. cbn [last].
  split.
  - intros Hv. replace (forallb _ _) with true.
    + cbn [bind]. unfold reshape_to, numel. cbn [shape prod].
      replace (c * (b * (k * 1)) =? c * (b * k * 1)) with true by nia. cbn [bind].
      rewrite (transpose_eq 0 1 0 1) by reflexivity.
      eexists; split; [reflexivity|]. split; [reflexivity|].
      intros i ci j Hi Hci Hj. specialize (Hv i ci Hi Hci).
      rewrite get_inb by (cbn; lia). rewrite get_inb by (rewrite Hx; cbn; lia).
      f_equal. cbn [elt swap_nth set_nth nth shape].
      replace (ravel [c; b; k] [ci; i; j]) with (ravel [c; b * k] [ci; i * k + j]) by (cbn; nia).
      rewrite unravel_ravel by (cbn; nia). cbn [removelast app].
      rewrite HK' by assumption. do 3 f_equal. lia.
    + symmetry. apply forallb_all_idx. intros ij Hij.
      destruct ij as [|ci [|n [|? ?]]]; cbn in Hij; try tauto. destruct Hij as [H1 [H2 _]].
      rewrite (Nat.div_mod n k) by lia. rewrite (Nat.mul_comm k).
      assert (n / k < b) by (apply Nat.div_lt_upper_bound; lia).
      assert (n mod k < k) by (apply Nat.mod_upper_bound; lia).
      rewrite HK' by assumption. specialize (Hv (n / k) ci ltac:(assumption) H1). lia.
  - intros [i [ci [Hi [Hci Hv]]]].
    destruct (forallb _ _) eqn:E; [|reflexivity]. exfalso.
    rewrite forallb_all_idx in E.
    destruct Hv as [Hv|Hv].
    + specialize (E [ci; i * k + 0]). cbn [inb] in E. rewrite HK' in E by lia. specialize (E ltac:(nia)). lia.
    + specialize (E [ci; i * k + (k - 1)]). cbn [inb] in E. rewrite HK' in E by lia. specialize (E ltac:(nia)). lia.
Qed.

Lemma slice_kernels_21 {A} (x : tensor A) idx (k c t b : nat) :
  shape x = [c; t] -> shape idx = [b] -> 0 < k -> 0 < c ->
  let v i := elt idx [i] in
  ((forall i, i < b -> (0 <= v i /\ v i + Z.of_nat k <= Z.of_nat t)%Z) ->
     exists y, slice_kernels x idx (Z.of_nat k) = Ok y /\ shape y = [b; c; k] /\
       forall i ci j, i < b -> ci < c -> j < k ->
         get y [i; ci; j] = get x [ci; Z.to_nat (v i) + j])
  /\ ((exists i, i < b /\ (v i < 0 \/ Z.of_nat t < v i + Z.of_nat k)%Z) ->
     slice_kernels x idx (Z.of_nat k) = Err RuntimeError).
Proof.
  intros Hx Hi Hk Hc v.
  unfold slice_kernels, arange. replace (Z.of_nat k <? 0)%Z with false by lia. cbn [bind].
  rewrite Hx, Hi, !Nat2Z.id.
  unfold reshape_to at 1 3. unfold numel; cbn [shape prod]. replace (1 * (1 * (k * 1)) =? k * 1) with true by lia.
  cbn [bind elt].
  change [1; -1; 1]%Z with (map Z.of_nat [1%nat] ++ (-1)%Z :: map Z.of_nat [1%nat]).
  rewrite (reshape_hole_ok [1] [1] b) by (unfold numel; rewrite ?Hi; cbn; lia).
  cbn [bind app]. rewrite Hi.
  unfold bzip_inplace, bzip, bshape, repeat_t. cbn [shape zip_with rev app bshape_rev].
  rewrite !Nat.mul_1_l, !bdim_1_r, bdim_refl. cbn [bind rev app shape elt].
  destruct (list_eq_dec Nat.eq_dec [c; b; k * 1] [c; b; k * 1]) as [_|]; [|congruence]. cbn [bind].
  rewrite Nat.mul_1_r.
  match goal with |- context [reshape [Z.of_nat c; (-1)%Z] ?z] => set (K := z) end.
  assert (HKe : forall ci i j, ci < c -> i < b -> j < k -> elt K [ci; i; j] = (v i + Z.of_nat j)%Z).
  { intros ci i j H1 H2 H3. unfold K, bidx. cbn. rewrite !mod_1, !Nat.div_1_r.
    assert (E1 : (if k =? 1 then 0 else j) = j) by (destruct (Nat.eqb_spec k 1); lia).
    assert (E2 : (if b =? 1 then 0 else i) = i) by (destruct (Nat.eqb_spec b 1); lia).
    rewrite E1, E2, Nat.mod_small by lia.
    rewrite ?Nat.mul_1_r, ?Nat.add_0_r, ?Nat.mul_0_l, ?Nat.add_0_l, ?Nat.add_0_r. unfold v. lia. }
  destruct (gather_tail x K c b k t (fun i _ => v i) Hx eq_refl Hc Hk) as [G1 G2].
  { intros; apply HKe; assumption. }
  cbn zeta in G1, G2. split.
  - intros Hv. apply G1. intros i ci H1 H2; apply Hv; assumption.
  - intros [i [H1 H2]]. apply G2. exists i, 0. auto.
Qed.

Lemma slice_kernels_22 {A} (x : tensor A) idx (k c t b : nat) :
  shape x = [c; t] -> shape idx = [b; c] -> 0 < k -> 0 < c ->
  let v i ci := elt idx [i; ci] in
  ((forall i ci, i < b -> ci < c -> (0 <= v i ci /\ v i ci + Z.of_nat k <= Z.of_nat t)%Z) ->
     exists y, slice_kernels x idx (Z.of_nat k) = Ok y /\ shape y = [b; c; k] /\
       forall i ci j, i < b -> ci < c -> j < k ->
         get y [i; ci; j] = get x [ci; Z.to_nat (v i ci) + j])
  /\ ((exists i ci, i < b /\ ci < c /\ (v i ci < 0 \/ Z.of_nat t < v i ci + Z.of_nat k)%Z) ->
     slice_kernels x idx (Z.of_nat k) = Err RuntimeError).
Proof.
  intros Hx Hi Hk Hc v.
  unfold slice_kernels, arange. replace (Z.of_nat k <? 0)%Z with false by lia. cbn [bind].
  rewrite Hx, Hi, !Nat2Z.id. rewrite Nat.eqb_refl. cbn [negb].
  unfold reshape_to at 1 3. unfold numel; cbn [shape prod]. replace (1 * (1 * (k * 1)) =? k * 1) with true by lia.
  cbn [bind elt].
  unfold bzip_inplace, bzip, bshape, repeat_t. cbn [shape zip_with rev app bshape_rev].
  rewrite !Nat.mul_1_l, !bdim_1_r, !bdim_refl. cbn [bind rev app shape elt].
  destruct (list_eq_dec Nat.eq_dec [b; c; k * 1] [b; c; k * 1]) as [_|]; [|congruence]. cbn [bind].
  rewrite Nat.mul_1_r.
  rewrite (transpose_eq 0 1 0 1) by reflexivity. cbn [bind shape swap_nth set_nth nth].
  match goal with |- context [reshape [Z.of_nat c; (-1)%Z] ?z] => set (K := z) end.
  assert (HKe : forall ci i j, ci < c -> i < b -> j < k -> elt K [ci; i; j] = (v i ci + Z.of_nat j)%Z).
  { intros ci i j H1 H2 H3. unfold K, bidx. cbn. rewrite !mod_1, !Nat.div_1_r.
    assert (E1 : (if k =? 1 then 0 else j) = j) by (destruct (Nat.eqb_spec k 1); lia).
    assert (E2 : (if b =? 1 then 0 else i) = i) by (destruct (Nat.eqb_spec b 1); lia).
    assert (E3 : (if c =? 1 then 0 else ci) = ci) by (destruct (Nat.eqb_spec c 1); lia).
    rewrite E1, E2, E3, Nat.mod_small by lia.
    rewrite ?Nat.mul_1_r, ?Nat.add_0_r, ?Nat.mul_0_l, ?Nat.add_0_l, ?Nat.add_0_r. unfold v. lia. }
  destruct (gather_tail x K c b k t (fun i ci => v i ci) Hx eq_refl Hc Hk) as [G1 G2].
  { intros; apply HKe; assumption. }
  cbn zeta in G1, G2. split.
  - intros Hv. apply G1. intros i ci H1 H2; apply Hv; assumption.
  - intros H. apply G2. assumption.
Qed.

Lemma slice_kernels_31 {A} (x : tensor A) idx (k n c t : nat) :
  shape x = [n; c; t] -> shape idx = [n] -> 0 < k -> 0 < c ->
  let v i := elt idx [i] in
  ((forall i, i < n -> (0 <= v i /\ v i + Z.of_nat k <= Z.of_nat t)%Z) ->
     exists y, slice_kernels x idx (Z.of_nat k) = Ok y /\ shape y = [n; c; k] /\
       forall i ci j, i < n -> ci < c -> j < k ->
         get y [i; ci; j] = get x [i; ci; Z.to_nat (v i) + j])
  /\ ((exists i, i < n /\ (v i < 0 \/ Z.of_nat t < v i + Z.of_nat k)%Z) ->
     slice_kernels x idx (Z.of_nat k) = Err RuntimeError).
Proof.
  intros Hx Hi Hk Hc v.
  assert (HK : exists K, shape K = [n; c; k] /\
    (forall ci i j, ci < c -> i < n -> j < k -> elt K [i; ci; j] = (v i + Z.of_nat j)%Z)
    /\ slice_kernels x idx (Z.of_nat k) = take_along_last x K).
  { unfold slice_kernels, arange. replace (Z.of_nat k <? 0)%Z with false by lia. cbn [bind].
  rewrite Hx, Hi, !Nat2Z.id. rewrite Nat.eqb_refl. cbn [negb].
  change [1; -1]%Z with (map Z.of_nat [1%nat] ++ (-1)%Z :: map Z.of_nat []).
  rewrite (reshape_hole_ok [1] [] k) by (unfold numel; cbn; lia). cbn [bind app elt shape].
  change [-1; 1]%Z with (map Z.of_nat [] ++ (-1)%Z :: map Z.of_nat [1%nat]).
  rewrite (reshape_hole_ok [] [1] n) by (unfold numel; rewrite ?Hi; cbn; lia). cbn [bind app elt shape].
  rewrite Hi.
  unfold bzip_inplace, bzip, bshape. unfold repeat_t. cbn [shape zip_with rev app bshape_rev].
  rewrite !Nat.mul_1_l, !bdim_1_r, !bdim_refl. cbn [bind rev app shape elt].
  match goal with |- context [list_eq_dec Nat.eq_dec ?a ?b] =>
    destruct (list_eq_dec Nat.eq_dec a b) as [_|Hn]; [|exfalso; apply Hn; cbn; f_equal; lia] end. cbn [bind].
  change [-1; 1; Z.of_nat k]%Z with (map Z.of_nat [] ++ (-1)%Z :: map Z.of_nat [1%nat; k]).
  rewrite (reshape_hole_ok [] [1; k] n) by (unfold numel; cbn; nia). cbn [bind app elt shape].
  eexists; split; [|split; [|reflexivity]]; [cbn; repeat f_equal; lia|].
  intros ci i j H1 H2 H3. cbn [elt zip_with shape].
    rewrite mod_1, (Nat.mod_small i), (Nat.mod_small j) by lia.
    rewrite ?(Nat.mul_1_r k).
    replace (ravel [n; 1; k] [i; 0; j]) with (ravel [n; k] [i; j]) by (cbn; lia).
    rewrite unravel_ravel by (cbn; lia).
    unfold bidx. cbn. rewrite !mod_1, !Nat.div_1_r.
    assert (E1 : (if k =? 1 then 0 else j) = j) by (destruct (Nat.eqb_spec k 1); lia).
    assert (E2 : (if n =? 1 then 0 else i) = i) by (destruct (Nat.eqb_spec n 1); lia).
    rewrite ?Nat.mul_1_r, ?E1, ?E2, ?Nat.add_0_r.
    rewrite ?(Nat.mod_small j) by lia. rewrite ?E1.
    unfold v. lia. }
  destruct HK as [K [HKs [HKe ->]]].
  unfold take_along_last. rewrite Hx, HKs. cbn [removelast last].
  destruct (list_eq_dec Nat.eq_dec [n; c] [n; c]) as [_|]; [|congruence].
  split.
  - intros Hv. replace (forallb _ _) with true.
    + eexists; split; [reflexivity|]. split; [reflexivity|].
      intros i ci j H1 H2 H3. specialize (Hv i H1).
      rewrite get_inb by (cbn; lia). rewrite get_inb by (rewrite Hx; cbn; lia).
      f_equal. cbn [elt removelast app]. rewrite HKe by assumption. do 4 f_equal. lia.
    + symmetry. apply forallb_all_idx. intros ij Hij.
      destruct ij as [|i [|ci [|j [|? ?]]]]; cbn in Hij; try tauto. destruct Hij as [H1 [H2 [H3 _]]].
      rewrite HKe by assumption. specialize (Hv i H1). lia.
  - intros [i [Hi' Hv]].
    destruct (forallb _ _) eqn:E; [|reflexivity]. exfalso.
    rewrite forallb_all_idx in E.
    destruct Hv as [Hv|Hv].
    + specialize (E [i; 0; 0]). cbn [inb] in E. rewrite HKe in E by lia. specialize (E ltac:(lia)). lia.
    + specialize (E [i; 0; k - 1]). cbn [inb] in E. rewrite HKe in E by lia. specialize (E ltac:(lia)). lia.
Qed.

(** *** sample_kernels *)
Lemma start_range_fun T k off lo hi lo' hi' :
  start_range T k off lo hi -> start_range T k off lo' hi' -> lo = lo' /\ hi = hi'.
Proof. unfold start_range. destruct off; intros [-> ->] [-> ->]; auto. Qed.

Lemma start_range_inside T k off lo hi s :
  (0 < k <= T)%Z -> start_range T k off lo hi -> (0 <= lo)%Z -> (lo <= s < hi)%Z ->
  (0 <= s /\ s + k <= T)%Z.
Proof.
  unfold start_range. destruct off as [o|]; intros Hk [-> ->] H0 Hs; [|lia].
  destruct (Z.leb_spec 0 o); lia.
Qed.

Lemma sample_bounds_spec T k off lo hi :
  start_range T k off lo hi -> (0 <= lo)%Z -> (lo < hi)%Z -> sample_bounds T k off = Ok (lo, hi).
Proof.
  unfold start_range, sample_bounds. destruct off as [o|]; intros [-> ->] H0 H1.
  - destruct (Z.leb_spec 0 o); cbn [bind].
    + destruct (Z.ltb_spec (T / 2 - o - k) 0); [lia|reflexivity].
    + destruct (Z.leb_spec (T / 2 + o) (T / 2 - o - k)); cbn [bind]; [lia|].
      destruct (Z.ltb_spec (T / 2 - o - k) 0); [lia|reflexivity].
  - cbn [bind]. reflexivity.
Qed.

Lemma sample_bounds_bad T k off lo hi :
  start_range T k off lo hi -> ~ (0 <= lo /\ lo < hi)%Z -> (k <= T)%Z ->
  (sample_bounds T k off = Err ValueError /\ range_error off lo hi = ValueError) \/
  (sample_bounds T k off = Ok (lo, hi) /\ (hi <= lo)%Z /\ range_error off lo hi = RuntimeError).
Proof.
  unfold start_range, sample_bounds, range_error. destruct off as [o|]; intros [-> ->] Hn HT.
  - destruct (Z.leb_spec 0 o); destruct (Z.ltb_spec o 0); try lia; cbn [bind].
    + destruct (Z.ltb_spec (T / 2 - o - k) 0); [left; split; reflexivity|]. right; split; [reflexivity|split; [lia|reflexivity]].
    + destruct (Z.leb_spec (T / 2 + o) (T / 2 - o - k)); cbn [bind]; [left; split; [reflexivity|rewrite orb_true_r; reflexivity]|].
      destruct (Z.ltb_spec (T / 2 - o - k) 0); [left; split; reflexivity|]. lia.
  - cbn [bind]. right; split; [reflexivity|split; [lia|reflexivity]].
Qed.

Section Sample.
Context {A : Type}.
Implicit Types (X : tensor A) (rng : list nat -> Z).

Lemma sample_1d X (T k n : nat) off co rng :
  shape X = [T] -> 0 < k ->
  (T < k -> sample_kernels X (Z.of_nat k) (Some (Z.of_nat n)) off co rng = Err ValueError) /\
  (T = k -> sample_kernels X (Z.of_nat k) (Some (Z.of_nat n)) off co rng = Err RuntimeError) /\
  (k < T -> exists y idx,
     sample_kernels X (Z.of_nat k) (Some (Z.of_nat n)) off co rng = Ok (y, idx)
     /\ shape idx = [n] /\ shape y = [n; k]
     /\ forall i, i < n -> (0 <= elt idx [i] < Z.of_nat T - Z.of_nat k)%Z
        /\ forall j, j < k -> get y [i; j] = get X [Z.to_nat (elt idx [i]) + j]).
Proof.
  intros Hs Hk. unfold sample_kernels, last_dim, py_len, ndim. rewrite Hs. cbn [bind last length].
  change (3 <? 1) with false. change (1 =? 3) with false. change (1 <? 3) with true. change (1 =? 1) with true.
  cbn [andb].
  split; [|split].
  - intros H. replace (Z.of_nat T <? Z.of_nat k)%Z with true by lia. reflexivity.
  - intros <-. replace (Z.of_nat T <? Z.of_nat T)%Z with false by lia.
    unfold randint_z. cbn [existsb]. replace (Z.of_nat n <? 0)%Z with false by lia. cbn [orb].
    unfold randint. replace (Z.of_nat T - Z.of_nat T <=? 0)%Z with true by lia. reflexivity.
  - intros H. replace (Z.of_nat T <? Z.of_nat k)%Z with false by lia.
    unfold randint_z. cbn [existsb]. replace (Z.of_nat n <? 0)%Z with false by lia. cbn [orb map].
    rewrite Nat2Z.id.
    destruct (randint 0 (Z.of_nat T - Z.of_nat k) [n] rng) as [idx|e] eqn:E.
    2:{ unfold randint in E. replace (Z.of_nat T - Z.of_nat k <=? 0)%Z with false in E by lia. discriminate. }
    cbn [bind].
    assert (Hish : shape idx = [n]) by (unfold randint in E; destruct (_ <=? _)%Z; inversion E; reflexivity).
    pose proof (fun i => randint_range _ _ _ _ _ i E) as Hr.
    destruct (slice_kernels_11 X idx k T n Hs Hish Hk) as [G _].
    destruct G as [y [Hy [Hys Hyg]]]; [intros i Hi; specialize (Hr [i]); lia|].
    rewrite Hy. cbn [bind]. exists y, idx. split; [reflexivity|]. split; [assumption|]. split; [assumption|].
    intros i Hi. specialize (Hr [i]). split; [lia|]. intros j Hj. rewrite Hyg by assumption.
    do 2 f_equal. rewrite Z.mod_small by lia. lia.
Qed.

Lemma randint_z_ok lo hi s rng : (lo < hi)%Z ->
  exists idx, randint_z lo hi (map Z.of_nat s) rng = Ok idx /\ shape idx = s
    /\ forall i, elt idx i = (lo + rng i mod (hi - lo))%Z.
Proof.
  intros H. unfold randint_z.
  replace (existsb _ _) with false.
  - unfold randint. replace (hi <=? lo)%Z with false by lia.
    eexists; split; [reflexivity|]. cbn. rewrite map_to_of_nat. split; reflexivity.
  - symmetry. induction s as [|a s IH]; cbn; [reflexivity|]. rewrite IH. lia.
Qed.
Lemma randint_z_empty lo hi s rng : (hi <= lo)%Z -> randint_z lo hi s rng = Err RuntimeError.
Proof.
  intros H. unfold randint_z. destruct (existsb _ _); [reflexivity|].
  unfold randint. replace (hi <=? lo)%Z with true by lia. reflexivity.
Qed.

Lemma sample_short X batch (T k : nat) N off co rng :
  shape X = batch ++ [T] -> T < k -> sample_kernels X (Z.of_nat k) N off co rng = Err ValueError.
Proof.
  intros Hs H. unfold sample_kernels. rewrite (last_dim_app _ _ _ Hs). cbn [bind].
  unfold py_len. rewrite Hs. destruct batch; cbn [app bind];
  replace (Z.of_nat T <? Z.of_nat k)%Z with true by lia; reflexivity.
Qed.

Lemma sample_2d_co X (C T k n : nat) off rng lo hi :
  shape X = [C; T] -> 0 < C -> 0 < k <= T -> 0 < n ->
  start_range (Z.of_nat T) (Z.of_nat k) off lo hi ->
  ((0 <= lo < hi)%Z -> exists y idx,
     sample_kernels X (Z.of_nat k) (Some (Z.of_nat n)) off true rng = Ok (y, idx)
     /\ shape idx = [n] /\ shape y = [n; C; k]
     /\ forall i, i < n -> elt idx [i] = (lo + rng [i] mod (hi - lo))%Z /\ (lo <= elt idx [i] < hi)%Z
        /\ forall c j, c < C -> j < k -> get y [i; c; j] = get X [c; Z.to_nat (elt idx [i]) + j]) /\
  (~ (0 <= lo < hi)%Z -> sample_kernels X (Z.of_nat k) (Some (Z.of_nat n)) off true rng = Err (range_error off lo hi)).
Proof.
  intros Hs HC Hk Hn Hr. unfold sample_kernels, last_dim, py_len, ndim. rewrite Hs. cbn [bind last length].
  change (3 <? 2) with false. change (2 =? 3) with false. change (2 <? 3) with true. change (2 =? 1) with false.
  cbn [andb orb]. replace (Z.of_nat T <? Z.of_nat k)%Z with false by lia.
  replace (Z.of_nat n =? 0)%Z with false by lia.
  split.
  - intros H. rewrite (sample_bounds_spec _ _ _ _ _ Hr) by lia. cbn [bind].
    change [Z.of_nat n] with (map Z.of_nat [n]).
    destruct (randint_z_ok lo hi [n] rng ltac:(lia)) as [idx [E [Hish Hie]]]. rewrite E. cbn [bind].
    assert (Hin : forall i, (lo <= elt idx i < hi)%Z)
      by (intros i; rewrite Hie; pose proof (Z.mod_pos_bound (rng i) (hi - lo)); lia).
    destruct (slice_kernels_21 X idx k C T n Hs Hish ltac:(lia) HC) as [G _].
    destruct G as [y [Hy [Hys Hyg]]].
    { intros i Hi. apply (start_range_inside (Z.of_nat T) (Z.of_nat k) off lo hi); auto; lia. }
    rewrite Hy. cbn [bind]. exists y, idx. split; [reflexivity|]. split; [assumption|]. split; [assumption|].
    intros i Hi. split; [apply Hie|]. split; [apply Hin|]. intros c j Hc Hj. apply Hyg; assumption.
  - intros H. destruct (sample_bounds_bad _ _ _ _ _ Hr ltac:(lia) ltac:(lia)) as [[E RE]|[E [Hb RE]]]; rewrite E, RE; cbn [bind].
    + reflexivity.
    + rewrite randint_z_empty by assumption. reflexivity.
Qed.

Lemma sample_2d_indep X (C T k n : nat) off rng lo hi :
  shape X = [C; T] -> 0 < C -> 0 < k <= T ->
  start_range (Z.of_nat T) (Z.of_nat k) off lo hi ->
  ((0 <= lo < hi)%Z -> exists y idx,
     sample_kernels X (Z.of_nat k) (Some (Z.of_nat n)) off false rng = Ok (y, idx)
     /\ shape idx = [n; C] /\ shape y = [n; C; k]
     /\ forall i c, i < n -> c < C -> elt idx [i; c] = (lo + rng [i; c] mod (hi - lo))%Z /\ (lo <= elt idx [i; c] < hi)%Z
        /\ forall j, j < k -> get y [i; c; j] = get X [c; Z.to_nat (elt idx [i; c]) + j]) /\
  (~ (0 <= lo < hi)%Z -> sample_kernels X (Z.of_nat k) (Some (Z.of_nat n)) off false rng = Err (range_error off lo hi)).
Proof.
  intros Hs HC Hk Hr. unfold sample_kernels, last_dim, py_len, ndim. rewrite Hs. cbn [bind last length].
  change (3 <? 2) with false. change (2 =? 3) with false. change (2 <? 3) with true. change (2 =? 1) with false.
  cbn [andb orb]. replace (Z.of_nat T <? Z.of_nat k)%Z with false by lia.
  split.
  - intros H. rewrite (sample_bounds_spec _ _ _ _ _ Hr) by lia. cbn [bind].
    change [Z.of_nat n; Z.of_nat C] with (map Z.of_nat [n; C]).
    destruct (randint_z_ok lo hi [n; C] rng ltac:(lia)) as [idx [E [Hish Hie]]]. rewrite E. cbn [bind].
    assert (Hin : forall i, (lo <= elt idx i < hi)%Z)
      by (intros i; rewrite Hie; pose proof (Z.mod_pos_bound (rng i) (hi - lo)); lia).
    destruct (slice_kernels_22 X idx k C T n Hs Hish ltac:(lia) HC) as [G _].
    destruct G as [y [Hy [Hys Hyg]]].
    { intros i ci Hi Hci. apply (start_range_inside (Z.of_nat T) (Z.of_nat k) off lo hi); auto; lia. }
    rewrite Hy. cbn [bind]. exists y, idx. split; [reflexivity|]. split; [assumption|]. split; [assumption|].
    intros i c Hi Hc. split; [apply Hie|]. split; [apply Hin|]. intros j Hj. apply Hyg; assumption.
  - intros H. destruct (sample_bounds_bad _ _ _ _ _ Hr ltac:(lia) ltac:(lia)) as [[E RE]|[E [Hb RE]]]; rewrite E, RE; cbn [bind].
    + reflexivity.
    + rewrite randint_z_empty by assumption. reflexivity.
Qed.

Lemma sample_3d X (B C T k : nat) N off co rng lo hi :
  shape X = [B; C; T] -> 0 < C -> 0 < k <= T -> N = None \/ N = Some (Z.of_nat B) ->
  start_range (Z.of_nat T) (Z.of_nat k) off lo hi ->
  ((0 <= lo < hi)%Z -> exists y idx,
     sample_kernels X (Z.of_nat k) N off co rng = Ok (y, idx)
     /\ shape idx = [B] /\ shape y = [B; C; k]
     /\ forall i, i < B -> elt idx [i] = (lo + rng [i] mod (hi - lo))%Z /\ (lo <= elt idx [i] < hi)%Z
        /\ forall c j, c < C -> j < k -> get y [i; c; j] = get X [i; c; Z.to_nat (elt idx [i]) + j]) /\
  (~ (0 <= lo < hi)%Z -> sample_kernels X (Z.of_nat k) N off co rng = Err (range_error off lo hi)).
Proof.
  intros Hs HC Hk HN Hr. unfold sample_kernels, last_dim, py_len, ndim. rewrite Hs. cbn [bind last length].
  change (3 <? 3) with false. change (3 =? 3) with true. change (3 =? 1) with false.
  cbn [andb orb]. replace (Z.of_nat T <? Z.of_nat k)%Z with false by lia.
  replace (match N with Some n => negb (n =? Z.of_nat B)%Z | None => false end) with false
    by (destruct HN as [->| ->]; [reflexivity|rewrite Z.eqb_refl; reflexivity]).
  replace (match N with Some n => if (n =? 0)%Z then Z.of_nat B else n | None => Z.of_nat B end) with (Z.of_nat B)
    by (destruct HN as [->| ->]; [reflexivity|destruct (_ =? 0)%Z; reflexivity]).
  split.
  - intros H. rewrite (sample_bounds_spec _ _ _ _ _ Hr) by lia. cbn [bind].
    change [Z.of_nat B] with (map Z.of_nat [B]).
    destruct (randint_z_ok lo hi [B] rng ltac:(lia)) as [idx [E [Hish Hie]]]. rewrite E. cbn [bind].
    assert (Hin : forall i, (lo <= elt idx i < hi)%Z)
      by (intros i; rewrite Hie; pose proof (Z.mod_pos_bound (rng i) (hi - lo)); lia).
    destruct (slice_kernels_31 X idx k B C T Hs Hish ltac:(lia) HC) as [G _].
    destruct G as [y [Hy [Hys Hyg]]].
    { intros i Hi. apply (start_range_inside (Z.of_nat T) (Z.of_nat k) off lo hi); auto; lia. }
    rewrite Hy. cbn [bind]. exists y, idx. split; [reflexivity|]. split; [assumption|]. split; [assumption|].
    intros i Hi. split; [apply Hie|]. split; [apply Hin|]. intros c j Hc Hj. apply Hyg; assumption.
  - intros H. destruct (sample_bounds_bad _ _ _ _ _ Hr ltac:(lia) ltac:(lia)) as [[E RE]|[E [Hb RE]]]; rewrite E, RE; cbn [bind].
    + reflexivity.
    + rewrite randint_z_empty by assumption. reflexivity.
Qed.

(** Rejected argument combinations (any rng) *)
Lemma sample_rejects X k N off co rng T :
  last_dim X = Ok T -> (k <= T)%Z ->
  (3 < ndim X -> sample_kernels X k N off co rng = Err ValueError) /\
  (ndim X < 3 -> N = None -> sample_kernels X k N off co rng = Err ValueError) /\
  (forall B C T', shape X = [B; C; T'] -> forall n, N = Some n -> n <> Z.of_nat B ->
      sample_kernels X k N off co rng = Err ValueError).
Proof.
  intros HT Hk. unfold sample_kernels. rewrite HT. cbn [bind].
  assert (Hne : exists d s, shape X = d :: s) by (unfold last_dim in HT; destruct (shape X); [discriminate|eauto]).
  destruct Hne as [d [s Hd]]. unfold py_len, ndim. rewrite Hd. cbn [bind].
  replace (T <? k)%Z with false by lia. split; [|split].
  - intros H. replace (3 <? length (d :: s)) with true by lia. reflexivity.
  - intros H ->. replace (3 <? length (d :: s)) with false by lia.
    replace (length (d :: s) <? 3) with true by lia. reflexivity.
  - intros B C T' HX n -> Hn. inversion HX; subst. cbn.
    replace (n =? Z.of_nat B)%Z with false by lia. reflexivity.
Qed.

Lemma sample_idx_range X batch (T : nat) k N off co rng y idx lo hi p s :
  shape X = batch ++ [T] -> batch <> [] ->
  sample_kernels X k N off co rng = Ok (y, idx) ->
  start_range (Z.of_nat T) k off lo hi -> get idx p = Some s ->
  (k <= Z.of_nat T)%Z /\ (0 <= lo)%Z /\ (lo <= s < hi)%Z.
Proof.
  intros Hs Hb H Hr Hg. unfold sample_kernels in H. rewrite (last_dim_app _ _ _ Hs) in H. cbn [bind] in H.
  destruct (py_len X) as [len|e]; cbn [bind] in H; [|discriminate].
  destruct (Z.ltb_spec (Z.of_nat T) k); [discriminate|].
  destruct (3 <? ndim X); [discriminate|].
  destruct ((ndim X <? 3) && _); [discriminate|].
  destruct ((ndim X =? 3) && _); [discriminate|].
  destruct (Nat.eqb_spec (ndim X) 1) as [E|_].
  { unfold ndim in E. rewrite Hs, app_length in E. cbn in E. destruct batch; [congruence|cbn in E; lia]. }
  destruct (Z_le_dec 0 lo) as [H00|H00]; [destruct (Z_lt_dec lo hi) as [H01|H01]|].
  2,3: destruct (sample_bounds_bad _ _ _ _ _ Hr ltac:(lia) ltac:(lia)) as [[E _]|[E [Hb' _]]]; rewrite E in H; cbn [bind] in H; [discriminate|];
     rewrite randint_z_empty in H by assumption; discriminate.
  rewrite (sample_bounds_spec _ _ _ _ _ Hr H00 H01) in H. cbn [bind] in H.
  destruct (randint_z lo hi _ rng) as [i'|e] eqn:E; cbn [bind] in H; [|discriminate].
  destruct (slice_kernels X i' k) as [y'|e]; cbn [bind] in H; [|discriminate].
  inversion H; subst. apply get_some in Hg. destruct Hg as [_ <-].
  unfold randint_z in E. destruct (existsb _ _); [discriminate|].
  pose proof (randint_range _ _ _ _ _ p E). lia.
Qed.
End Sample.
