(** Lemmas about the slicing model. *)
From Verif Require Import Base Tensor Slicing_model.

Lemma filter_all {A} (f : A -> bool) l : (forall a, In a l -> f a = true) -> filter f l = l.
Proof.
  induction l as [|a l IH]; cbn; intros H; [reflexivity|].
  rewrite (H a (or_introl eq_refl)). f_equal; apply IH; intros b Hb; apply H; right; exact Hb.
Qed.
Lemma filter_none {A} (f : A -> bool) l : (forall a, In a l -> f a = false) -> filter f l = [].
Proof.
  induction l as [|a l IH]; cbn; intros H; [reflexivity|].
  rewrite (H a (or_introl eq_refl)). apply IH; intros b Hb; apply H; right; exact Hb.
Qed.

Lemma map_to_of_nat l : map Z.to_nat (map Z.of_nat l) = l.
Proof. rewrite map_map. rewrite <- (map_id l) at 2. apply map_ext; intros; lia. Qed.

Lemma existsb_of_nat l : existsb (fun d => (d <? -1)%Z) (map Z.of_nat l) = false.
Proof. induction l as [|a l IH]; cbn; [reflexivity|]. rewrite IH. lia. Qed.

Lemma infer_dims_hole_end l n : prod l <> 0 -> n mod prod l = 0 ->
  infer_dims (map Z.of_nat l ++ [-1]%Z) n = Ok (l ++ [n / prod l]).
Proof.
  intros Hp Hm. unfold infer_dims.
  rewrite existsb_app, existsb_of_nat. cbn [existsb orb Z.ltb].
  change ((-1 <? -1)%Z || false) with false. cbn iota.
  rewrite !filter_app.
  rewrite (filter_all (fun d => negb (d =? -1)%Z) (map Z.of_nat l)) by (intros a Ha; apply in_map_iff in Ha; destruct Ha as [b [E _]]; subst; cbv beta; lia).
  rewrite (filter_none (fun d => (d =? -1)%Z) (map Z.of_nat l)) by (intros a Ha; apply in_map_iff in Ha; destruct Ha as [b [E _]]; subst; cbv beta; lia).
  cbn [filter negb Z.eqb app length Pos.eqb]. rewrite app_nil_r, map_to_of_nat.
  replace (prod l =? 0) with false by lia. rewrite Hm. cbn [Nat.eqb].
  rewrite map_app. cbn [map Z.eqb Pos.eqb]. f_equal. f_equal.
  rewrite map_map. rewrite <- (map_id l) at 2. apply map_ext_in. intros a _.
  destruct (Z.eqb_spec (Z.of_nat a) (-1)); lia.
Qed.

Lemma reshape_hole_end {A} l (t : tensor A) : prod l <> 0 -> numel t mod prod l = 0 ->
  reshape (map Z.of_nat l ++ [-1]%Z) t = reshape_to (l ++ [numel t / prod l]) t.
Proof. intros H1 H2. unfold reshape. rewrite infer_dims_hole_end by assumption. reflexivity. Qed.

(** ** unfold_windows *)
Lemma last_dim_app {A} (x : tensor A) batch T :
  shape x = batch ++ [T] -> last_dim x = Ok (Z.of_nat T).
Proof.
  intros H. unfold last_dim. rewrite H. destruct (batch ++ [T]) eqn:E; [destruct batch; discriminate|].
  rewrite <- E, last_last. reflexivity.
Qed.

Lemma unfold_1k_ok {A} (k d : nat) (x : tensor A) n c w :
  shape x = [n; c; 1; d * (k - 1) + w] -> 0 < k -> 0 < d -> 0 < w -> 0 < c ->
  unfold_1k (Z.of_nat k) (Z.of_nat d) x
  = Ok (mk [n; c * k; 1 * w]
        (fun i => match i with
                  | [b; ck; l] => elt x [b; ck / k; l / w; l mod w + d * (ck mod k)]
                  | _ => elt x i end)).
Proof.
  intros Hs Hk Hd Hw Hc. unfold unfold_1k. rewrite Hs.
  replace (Z.of_nat (d * (k - 1) + w) - Z.of_nat d * (Z.of_nat k - 1))%Z with (Z.of_nat w) by nia.
  replace (Z.of_nat k <=? 0)%Z with false by lia.
  replace (Z.of_nat d <=? 0)%Z with false by lia.
  replace (Z.of_nat w <=? 0)%Z with false by lia.
  replace (c =? 0) with false by lia.
  replace (d * (k - 1) + w =? 0) with false by nia.
  cbn [orb Nat.eqb]. rewrite !Nat2Z.id. reflexivity.
Qed.

Lemma div_mod_lin k c i : i < k -> (c * k + i) / k = c /\ (c * k + i) mod k = i.
Proof.
  intros H. rewrite Nat.div_add_l, Nat.div_small by lia.
  rewrite (Nat.add_comm (c * k)), Nat.mod_add, Nat.mod_small by lia. lia.
Qed.

Lemma div_mod_exact n m w : m <> 0 -> n = w * m -> n mod m = 0 /\ n / m = w.
Proof. intros Hm ->. split; [apply Nat.mod_mul | apply Nat.div_mul]; assumption. Qed.

Lemma reshape_hole_end_ok {A} l w (t : tensor A) : prod l <> 0 -> numel t = w * prod l ->
  reshape (map Z.of_nat l ++ [-1]%Z) t
  = Ok (mk (l ++ [w]) (fun i => elt t (unravel (shape t) (ravel (l ++ [w]) i)))).
Proof.
  intros Hp Hn. destruct (div_mod_exact _ _ _ Hp Hn) as [H1 H2].
  rewrite reshape_hole_end by assumption. rewrite H2. unfold reshape_to.
  rewrite prod_app. cbn [prod]. rewrite Hn.
  replace (prod l * (w * 1) =? w * prod l) with true by (symmetry; apply Nat.eqb_eq; lia). reflexivity.
Qed.

Lemma transpose_eq {A} d0 d1 i j (t : tensor A) :
  norm_dim d0 (ndim t) = Ok i -> norm_dim d1 (ndim t) = Ok j ->
  transpose d0 d1 t = Ok (mk (swap_nth 0 i j (shape t)) (fun x => elt t (swap_nth 0 i j x))).
Proof. intros H1 H2. unfold transpose. rewrite H1; cbn [bind]. rewrite H2. reflexivity. Qed.

(** the unfold + reshape + transpose core on an exactly divisible last dimension *)
Lemma unfold_core {A} (x : tensor A) batch (k d w : nat) :
  shape x = batch ++ [d * (k - 1) + w] -> length batch <= 2 -> Forall (fun b => 0 < b) batch ->
  0 < k -> 0 < d -> 0 < w ->
  exists y,
    (let* u := unfold_1k (Z.of_nat k) (Z.of_nat d) (to4d x) in
     let* r := reshape (map Z.of_nat batch ++ [Z.of_nat k; -1]%Z) u in
     let* r := transpose 1 (-2) r in
     transpose 0 1 r) = Ok y
    /\ shape y = k :: batch ++ [w]
    /\ forall i b j, i < k -> inb b batch -> j < w ->
         get y (i :: b ++ [j]) = get x (b ++ [i * d + j]).
Proof.
  intros Hs Hl Hp Hk Hd Hw.
  change [Z.of_nat k; (-1)%Z] with ([Z.of_nat k] ++ [(-1)%Z]).
  change [Z.of_nat k] with (map Z.of_nat [k]).
  rewrite app_assoc, <- map_app.
  destruct batch as [|b1 [|b2 [|? ?]]]; cbn [app] in *; [| | |cbn in Hl; lia];
    unfold to4d; rewrite Hs.
  - (* 1D *)
    rewrite (unfold_1k_ok _ _ _ 1 1 w) by (cbn; auto; lia). cbn [bind].
    match goal with |- context [mk [1; 1 * k; 1 * w] ?f] =>
      set (u := mk [1; 1 * k; 1 * w] f) end.
    rewrite (reshape_hole_end_ok [k] w u) by (unfold u, numel; cbn; lia). cbn [bind].
    rewrite (transpose_eq 1 (-2) 1 0) by reflexivity. cbn [bind].
    rewrite (transpose_eq 0 1 0 1) by reflexivity. cbn [shape swap_nth set_nth nth app].
    eexists; split; [reflexivity|]. split; [reflexivity|].
    intros i b j Hi Hb Hj. destruct b; [|cbn in Hb; tauto]. cbn [app].
    rewrite get_inb by (cbn; lia). rewrite get_inb by (rewrite Hs; cbn; nia).
    f_equal. cbn [elt swap_nth set_nth nth app].
    replace (ravel [k; w] [i; j]) with (ravel [1; 1 * k; 1 * w] [0; i; j]) by (cbn; lia).
    rewrite unravel_ravel by (cbn; lia).
    unfold u. cbn [elt skipn]. f_equal. f_equal.
    destruct (div_mod_lin k 0 i Hi) as [_ E]. cbn in E. rewrite E.
    rewrite Nat.mod_small by lia. lia.
  - (* 2D *)
    inversion Hp as [|? ? Hb1 _]; subst.
    rewrite (unfold_1k_ok _ _ _ 1 b1 w) by (cbn; auto; lia). cbn [bind].
    match goal with |- context [mk [1; b1 * k; 1 * w] ?f] =>
      set (u := mk [1; b1 * k; 1 * w] f) end.
    rewrite (reshape_hole_end_ok [b1; k] w u) by (unfold u, numel; cbn; nia). cbn [bind].
    rewrite (transpose_eq 1 (-2) 1 1) by reflexivity. cbn [bind].
    rewrite (transpose_eq 0 1 0 1) by reflexivity. cbn [shape swap_nth set_nth nth app].
    eexists; split; [reflexivity|]. split; [reflexivity|].
    intros i b j Hi Hb Hj. destruct b as [|c [|? ?]]; cbn in Hb; try tauto. destruct Hb as [Hb _]. cbn [app].
    rewrite get_inb by (cbn; lia). rewrite get_inb by (rewrite Hs; cbn; nia).
    f_equal. cbn [elt swap_nth set_nth nth app].
    replace (ravel [b1; k; w] [c; i; j]) with (ravel [1; b1 * k; 1 * w] [0; c * k + i; j]) by (cbn; nia).
    rewrite unravel_ravel by (cbn; nia).
    unfold u. cbn [elt skipn]. destruct (div_mod_lin k c i Hi) as [-> ->].
    rewrite Nat.mod_small by lia. f_equal. f_equal. f_equal. lia.
  - (* 3D *)
    inversion Hp as [|? ? Hb1 Hp']; subst. inversion Hp' as [|? ? Hb2 _]; subst.
    rewrite (unfold_1k_ok _ _ _ b1 b2 w) by (cbn; auto; lia). cbn [bind].
    match goal with |- context [mk [b1; b2 * k; 1 * w] ?f] =>
      set (u := mk [b1; b2 * k; 1 * w] f) end.
    rewrite (reshape_hole_end_ok [b1; b2; k] w u) by (unfold u, numel; cbn; nia). cbn [bind].
    rewrite (transpose_eq 1 (-2) 1 2) by reflexivity. cbn [bind].
    rewrite (transpose_eq 0 1 0 1) by reflexivity. cbn [shape swap_nth set_nth nth app].
    eexists; split; [reflexivity|]. split; [reflexivity|].
    intros i b j Hi Hb Hj. destruct b as [|a [|c [|? ?]]]; cbn in Hb; try tauto. destruct Hb as [Ha [Hb _]]. cbn [app].
    rewrite get_inb by (cbn; lia). rewrite get_inb by (rewrite Hs; cbn; nia).
    f_equal. cbn [elt swap_nth set_nth nth app].
    replace (ravel [b1; b2; k; w] [a; c; i; j]) with (ravel [b1; b2 * k; 1 * w] [a; c * k + i; j]) by (cbn; nia).
    rewrite unravel_ravel by (cbn; nia).
    unfold u. cbn [elt skipn]. destruct (div_mod_lin k c i Hi) as [-> ->].
    rewrite Nat.mod_small by lia. f_equal. f_equal. f_equal. f_equal. lia.
Qed.

Lemma unfold_1k_nonpos {A} k d (x : tensor A) : (k <= 0)%Z -> unfold_1k k d x = Err RuntimeError.
Proof.
  intros H. unfold unfold_1k.
  destruct (shape x) as [|? [|? [|? [|? [|? ?]]]]]; try reflexivity.
  replace (k <=? 0)%Z with true by lia. reflexivity.
Qed.

Lemma removelast_app1 {A} (l : list A) a : removelast (l ++ [a]) = l.
Proof. rewrite removelast_app by discriminate. cbn. apply app_nil_r. Qed.

Lemma unfold_windows_ok {A} (zero : A) (x : tensor A) (batch : list nat) (T w s : nat) (drop_last : bool) :
  shape x = batch ++ [T] -> length batch <= 2 -> Forall (fun b => 0 < b) batch ->
  0 < w -> 0 < s -> w <= T ->
  let nw := (T - w) / s + 1 in
  let used := (nw - 1) * s + w in
  exists y tail,
    unfold_windows zero x (Z.of_nat w) (Z.of_nat s) drop_last
      = Ok (y, if drop_last then None else Some tail)
    /\ shape y = nw :: batch ++ [w]
    /\ (forall i b j, i < nw -> inb b batch -> j < w ->
          get y (i :: b ++ [j]) = get x (b ++ [i * s + j]))
    /\ used <= T /\ T < used + s
    /\ shape tail = 1 :: batch ++ [T - used]
    /\ (forall b j, inb b batch -> j < T - used ->
          get tail (0 :: b ++ [j]) = get x (b ++ [used + j])).
Proof.
  intros Hs Hl Hp Hw0 Hs0 HwT nw used.
  unfold unfold_windows. rewrite (last_dim_app _ _ _ Hs). cbn [bind].
  replace (Z.of_nat s =? 0)%Z with false by lia.
  assert (Enw : ((Z.of_nat T - Z.of_nat w) / Z.of_nat s + 1 = Z.of_nat nw)%Z).
  { unfold nw. rewrite Nat2Z.inj_add, Nat2Z.inj_div, Nat2Z.inj_sub by lia. lia. }
  rewrite Enw.
  assert (Hnw : 0 < nw) by (unfold nw; lia).
  pose proof (Nat.div_mod (T - w) s ltac:(lia)) as Hdm.
  pose proof (Nat.mod_upper_bound (T - w) s ltac:(lia)) as Hmb.
  assert (Hused : used = s * ((T - w) / s) + w) by (unfold used, nw; rewrite Nat.add_sub; lia).
  assert (Erem : (Z.of_nat T - Z.of_nat w - (Z.of_nat nw - 1) * Z.of_nat s = Z.of_nat (T - used))%Z).
  { unfold nw in *. lia. }
  rewrite Erem.
  assert (HuT : used <= T) by lia.
  assert (HTu : T < used + s) by lia.
  destruct (Z.eqb_spec (Z.of_nat (T - used)) 0) as [E0|E0]; cbn [bind].
  - (* no remainder *)
    assert (Hs' : shape x = batch ++ [s * (nw - 1) + w]) by (rewrite Hs; do 2 f_equal; unfold used in *; lia).
    destruct (unfold_core x batch nw s w Hs' Hl Hp Hnw Hs0 Hw0) as [y [Hy [Hys Hyg]]].
    rewrite Hs, removelast_app1.
    match goal with |- context [Ok (?r, _)] => idtac | _ => idtac end.
    exists y, (unsqueeze0 (mk (batch ++ [0]) (fun _ => zero))).
    destruct (unfold_1k (Z.of_nat nw) (Z.of_nat s) (to4d x)) as [u|e]; cbn [bind] in *; [|discriminate].
    destruct (reshape (map Z.of_nat batch ++ [Z.of_nat nw; (-1)%Z]) u) as [r|e]; cbn [bind] in *; [|discriminate].
    destruct (transpose 1 (-2) r) as [r'|e]; cbn [bind] in *; [|discriminate].
    rewrite Hy. cbn [bind].
    split; [reflexivity|]. split; [exact Hys|]. split; [exact Hyg|].
    split; [exact HuT|]. split; [exact HTu|].
    replace (T - used) with 0 by lia. split; [reflexivity|]. intros; lia.
  - (* remainder *)
    unfold split2_last. rewrite Hs.
    replace (match batch ++ [T] with [] => _ | _ => _ end) with
      (if ((Z.of_nat T - Z.of_nat (T - used) <? 0) || (Z.of_nat (T - used) <? 0)
          || negb (Z.of_nat T - Z.of_nat (T - used) + Z.of_nat (T - used) =? Z.of_nat (last (batch ++ [T]) 0%nat)))%Z
       then Err RuntimeError
       else Ok (mk (removelast (batch ++ [T]) ++ [Z.to_nat (Z.of_nat T - Z.of_nat (T - used))]) (elt x),
                mk (removelast (batch ++ [T]) ++ [Z.to_nat (Z.of_nat (T - used))])
                   (fun i => elt x (removelast i ++ [last i 0 + Z.to_nat (Z.of_nat T - Z.of_nat (T - used))]))))
      by (destruct (batch ++ [T]) eqn:E; [destruct batch; discriminate | reflexivity]).
    rewrite last_last, removelast_app1.
    replace (_ || _ || _) with false by lia. cbn [bind].
    replace (Z.to_nat (Z.of_nat T - Z.of_nat (T - used))) with used by lia.
    rewrite Nat2Z.id. cbn [shape]. rewrite removelast_app1.
    set (x' := mk (batch ++ [used]) (elt x)).
    set (tl' := mk (batch ++ [T - used]) (fun i => elt x (removelast i ++ [last i 0 + used]))).
    assert (Hs' : shape x' = batch ++ [s * (nw - 1) + w]) by (cbn; do 2 f_equal; unfold used in *; lia).
    destruct (unfold_core x' batch nw s w Hs' Hl Hp Hnw Hs0 Hw0) as [y [Hy [Hys Hyg]]].
    exists y, (unsqueeze0 tl').
    destruct (unfold_1k (Z.of_nat nw) (Z.of_nat s) (to4d x')) as [u|e]; cbn [bind] in *; [|discriminate].
    destruct (reshape (map Z.of_nat batch ++ [Z.of_nat nw; (-1)%Z]) u) as [r|e]; cbn [bind] in *; [|discriminate].
    destruct (transpose 1 (-2) r) as [r'|e]; cbn [bind] in *; [|discriminate].
    rewrite Hy. cbn [bind].
    split; [reflexivity|]. split; [exact Hys|].
    assert (Hin : forall i j, i < nw -> j < w -> i * s + j < used) by (unfold used; intros; nia).
    split.
    { intros i b j Hi Hb Hj. rewrite Hyg by assumption.
      pose proof (Hin i j Hi Hj).
      rewrite !get_inb; [reflexivity| |].
      - rewrite Hs. apply inb_app; [assumption|]. cbn. lia.
      - cbn. apply inb_app; [assumption|]. cbn. lia. }
    split; [exact HuT|]. split; [exact HTu|]. split; [reflexivity|].
    intros b j Hb Hj.
    rewrite !get_inb.
    + cbn [elt unsqueeze0 tl tl']. unfold tl'. cbn [elt]. rewrite removelast_app1, last_last. do 3 f_equal. f_equal. lia.
    + rewrite Hs. apply inb_app; [assumption|]. cbn. lia.
    + cbn. split; [lia|]. apply inb_app; [assumption|]. cbn; lia.
Qed.

Lemma unfold_windows_short {A} (zero : A) (x : tensor A) batch (T w s : nat) drop_last :
  shape x = batch ++ [T] -> 0 < s -> T < w ->
  unfold_windows zero x (Z.of_nat w) (Z.of_nat s) drop_last = Err RuntimeError.
Proof.
  intros Hs Hs0 HT. unfold unfold_windows. rewrite (last_dim_app _ _ _ Hs). cbn [bind].
  replace (Z.of_nat s =? 0)%Z with false by lia.
  set (nw := ((Z.of_nat T - Z.of_nat w) / Z.of_nat s + 1)%Z).
  assert (Hn : (nw <= 0)%Z).
  { unfold nw. enough ((Z.of_nat T - Z.of_nat w) / Z.of_nat s < 0)%Z by lia. apply Z.div_lt_upper_bound; lia. }
  destruct (_ =? 0)%Z; cbn [bind].
  - rewrite unfold_1k_nonpos by exact Hn. reflexivity.
  - unfold split2_last. destruct (shape x) as [|d sh]; [reflexivity|].
    destruct (_ || _ || _); cbn [bind]; [reflexivity|].
    rewrite unfold_1k_nonpos by exact Hn. reflexivity.
Qed.

(** an empty batch or channel axis makes unfold/reshape raise *)
Lemma unfold_windows_empty_axis {A} (zero : A) (x : tensor A) batch (T w s : nat) drop_last :
  shape x = batch ++ [T] -> length batch <= 2 -> In 0 batch -> 0 < w -> 0 < s ->
  unfold_windows zero x (Z.of_nat w) (Z.of_nat s) drop_last = Err RuntimeError.
Proof.
  intros Hs Hl H0 Hw Hs0.
  destruct (Nat.lt_ge_cases T w) as [HT|HT]; [eapply unfold_windows_short; eassumption|].
  unfold unfold_windows. rewrite (last_dim_app _ _ _ Hs). cbn [bind].
  replace (Z.of_nat s =? 0)%Z with false by lia.
  set (nw := ((Z.of_nat T - Z.of_nat w) / Z.of_nat s + 1)%Z).
  assert (Hn : (0 <= nw)%Z).
  { unfold nw. enough (0 <= (Z.of_nat T - Z.of_nat w) / Z.of_nat s)%Z by lia. apply Z.div_pos; lia. }
  assert (Hcore : forall y : tensor A, removelast (shape y) = batch -> shape y <> [] ->
    (let* u := unfold_1k nw (Z.of_nat s) (to4d y) in
     reshape (map Z.of_nat batch ++ [nw; (-1)%Z]) u) = Err RuntimeError).
  { intros y Hy Hne. unfold unfold_1k.
    destruct (shape (to4d y)) as [|n [|c [|h [|t [|? ?]]]]] eqn:E; try reflexivity.
    destruct (_ || _) eqn:G; [reflexivity|]. cbn [bind].
    unfold reshape, infer_dims.
    rewrite existsb_app, existsb_of_nat. cbn [existsb orb].
    replace (nw <? -1)%Z with false by lia. change (-1 <? -1)%Z with false. cbn [orb].
    rewrite !filter_app.
    rewrite (filter_all (fun d => negb (d =? -1)%Z) (map Z.of_nat batch)) by (intros a Ha; apply in_map_iff in Ha; destruct Ha as [b [E' _]]; subst; cbv beta; lia).
    rewrite (filter_none (fun d => (d =? -1)%Z) (map Z.of_nat batch)) by (intros a Ha; apply in_map_iff in Ha; destruct Ha as [b [E' _]]; subst; cbv beta; lia).
    cbn [filter]. replace (nw =? -1)%Z with false by lia. cbn [negb Z.eqb Pos.eqb app length].
    rewrite map_app, map_to_of_nat, prod_app.
    replace (prod batch) with 0; [reflexivity|].
    clear -H0. induction batch as [|b l IH]; cbn in *; [tauto|].
    destruct H0 as [->|H]; [reflexivity|]. rewrite <- IH by assumption. lia. }
  assert (Hx : removelast (shape x) = batch) by (rewrite Hs; apply removelast_app1).
  assert (Hne : shape x <> []) by (rewrite Hs; destruct batch; discriminate).
  destruct (_ =? 0)%Z; cbn [bind].
  - rewrite Hx. specialize (Hcore x Hx Hne).
    destruct (unfold_1k nw (Z.of_nat s) (to4d x)); cbn [bind] in *; [|congruence].
    rewrite Hcore. reflexivity.
  - unfold split2_last. destruct (shape x) as [|d sh] eqn:E; [congruence|].
    destruct (_ || _ || _); cbn [bind]; [reflexivity|].
    cbn [shape]. rewrite removelast_app1, Hx.
    match goal with |- context [to4d ?z] => specialize (Hcore z) end.
    cbn [shape] in Hcore. rewrite removelast_app1 in Hcore.
    specialize (Hcore eq_refl ltac:(destruct batch; discriminate)).
    destruct (unfold_1k _ _ _); cbn [bind] in *; [|congruence].
    rewrite Hcore. reflexivity.
Qed.
