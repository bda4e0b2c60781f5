(** Property theorems for InMemoryDataset (C06-C08). *)
From Coq Require Import Permutation.
From Verif Require Import Base Tensor Slicing_model Slicing_spec Slicing_proofs Slicing_proofs2 Data_spec Data_model Data_proofs.

(** C06, C07, C08 in coincident mode: the epoch is exactly the list [ks] of kernel numbers, each at
    most once; all of them when batches_per_epoch is None; in order when not shuffled; X and y
    windows of a row start at the same sample (epoch_of). *)
Theorem imd_coincident_epoch {A} (X : tensor A) (y : option (tensor A)) (C T k bs s : nat)
    (bpe : option nat) (shuffle : bool) (rng : list nat -> Z) (perm : list nat) d :
  shape X = [C; T] -> 0 < C -> 0 < k -> k <= T -> 0 < bs -> 0 < s ->
  (forall y', y = Some y' -> ndim y' = 1) ->
  let nk := (T - k) / s + 1 in
  Permutation perm (seq 0 nk) ->
  imd_create X (Z.of_nat k) y (Z.of_nat bs) (Z.of_nat s) (option_map Z.of_nat bpe) true shuffle = Ok d ->
  exists (ks : list nat) batches,
    imd_epoch d rng perm = Ok batches
    /\ Z.of_nat (length batches) = imd_len d
    /\ epoch_of X y C k s bs (length ks) (fun r _ => nth r ks 0) batches
    /\ NoDup ks /\ (forall x, In x ks -> x < nk /\ x * s + k <= T)
    /\ ks = (if shuffle then firstn (length ks) perm else seq 0 (length ks))
    /\ (exists idx, init_indices d rng perm = Ok idx /\ shape idx = [length ks] /\ forall r, r < length ks -> elt idx [r] = Z.of_nat (nth r ks 0))
    /\ match bpe with
       | None => Permutation ks (seq 0 nk) /\ length ks <= length batches * bs < length ks + bs
       | Some n => length ks = bs * n /\ length batches = n
       end.
Proof.
  intros HX HC Hk HkT Hbs Hs Hynd nk Hperm Hc.
  unfold imd_create in Hc. rewrite (last_dim_app X [C] T HX) in Hc. cbn [bind] in Hc.
  assert (Hy : forall y', y = Some y' -> shape y' = [T]).
  { intros y' ->. specialize (Hynd y' eq_refl). unfold ndim in Hynd.
    unfold last_dim in Hc. destruct (shape y') as [|t [|? ?]]; try discriminate.
    cbn [last bind negb] in Hc. destruct (Z.eqb_spec (Z.of_nat t) (Z.of_nat T)); [|discriminate].
    f_equal; lia. }
  assert (Hc2 : (match option_map Z.of_nat bpe with None => True | Some n => (Z.of_nat bs * n <= Z.of_nat nk)%Z end)
     /\ d = {| im_X := X; im_y := y; im_kernel := Z.of_nat k; im_batch := Z.of_nat bs; im_stride := Z.of_nat s;
        im_bpe := option_map Z.of_nat bpe; im_coincident := true; im_shuffle := shuffle |}).
  { destruct (match y with None => Ok tt | Some y => _ end) as [u|e]; cbn [bind negb andb] in Hc; [|discriminate].
    destruct bpe as [n|]; cbn [option_map] in *.
    - replace (Z.of_nat s =? 0)%Z with false in Hc by lia.
      unfold num_kernels in Hc. rewrite HX in Hc. cbn [last] in Hc.
      replace ((Z.of_nat T - Z.of_nat k) / Z.of_nat s + 1)%Z with (Z.of_nat nk) in Hc
        by (unfold nk; rewrite Nat2Z.inj_add, Nat2Z.inj_div, Nat2Z.inj_sub by lia; reflexivity).
      destruct (Z.ltb_spec (Z.of_nat nk) (Z.of_nat bs * Z.of_nat n)); cbn [bind] in Hc; [discriminate|].
      inversion Hc; split; [lia|reflexivity].
    - cbn [bind] in Hc. inversion Hc; split; [exact I|reflexivity]. }
  clear Hc. destruct Hc2 as [Hn Hd].
  set (N := match bpe with Some n => bs * n | None => nk end).
  assert (HNk : N <= nk) by (unfold N; destruct bpe; cbn in Hn; lia).
  set (ks := if shuffle then firstn N perm else seq 0 N).
  assert (Lp : length perm = nk) by (rewrite (Permutation_length Hperm); apply seq_length).
  assert (Lks : length ks = N).
  { unfold ks; destruct shuffle; [rewrite firstn_length; lia|apply seq_length]. }
  assert (Hnk0 : 0 < nk) by (unfold nk; lia).
  assert (Hin : forall x, In x ks -> x < nk).
  { intros x Hx. unfold ks in Hx. destruct shuffle.
    - assert (In x perm) as H1.
      { rewrite <- (firstn_skipn N perm). apply in_or_app; left; exact Hx. }
      apply (Permutation_in _ Hperm) in H1. apply in_seq in H1. lia.
    - apply in_seq in Hx. lia. }
  assert (Hnd : NoDup ks).
  { unfold ks; destruct shuffle; [|apply seq_NoDup].
    assert (NoDup perm) as H1 by (eapply Permutation_NoDup; [apply Permutation_sym; exact Hperm|apply seq_NoDup]).
    rewrite <- (firstn_skipn N perm) in H1. clear -H1.
    induction (firstn N perm) as [|a l IH]; [constructor|]. cbn in H1. inversion H1; subst.
    constructor; [intros H; apply H2; apply in_or_app; auto|auto]. }
  assert (Enk : num_kernels (im_X d) (im_kernel d) (im_stride d) = Z.of_nat nk)
    by (rewrite Hd; apply (num_kernels_nat {| im_X := X; im_y := y; im_kernel := Z.of_nat k; im_batch := Z.of_nat bs; im_stride := Z.of_nat s;
        im_bpe := option_map Z.of_nat bpe; im_coincident := true; im_shuffle := shuffle |} C T k s); auto).
  assert (EN : (match im_bpe d with Some b => im_batch d * b | None => Z.of_nat nk end)%Z = Z.of_nat N).
  { rewrite Hd; cbn. unfold N. destruct bpe; cbn; lia. }
  assert (Hind : exists indices, init_indices d rng perm = Ok indices /\ shape indices = [N]
     /\ forall r, r < N -> elt indices [r] = Z.of_nat (nth r ks 0)).
  { unfold init_indices. rewrite Enk, EN.
    unfold py_len. replace (shape (im_X d)) with [C; T] by (rewrite Hd; cbn; auto). cbn [bind].
    replace (im_coincident d) with true by (rewrite Hd; reflexivity).
    replace (im_shuffle d) with shuffle by (rewrite Hd; reflexivity). cbn [negb andb].
    unfold ks. destruct shuffle.
    - replace (Z.of_nat nk <? 0)%Z with false by lia.
      assert (E : pyslice None (Some (Z.of_nat N)) perm = firstn N perm).
      { unfold pyslice, slice_lo, slice_hi, py_clamp. cbn [Z.to_nat skipn].
        replace (Z.of_nat N <? 0)%Z with false by lia. rewrite Lp. cbn. f_equal. lia. }
      rewrite E. eexists; split; [reflexivity|]. cbn [shape elt].
      split; [f_equal; rewrite firstn_length; lia|]. intros r Hr. reflexivity.
    - unfold arange. replace (Z.of_nat N <? 0)%Z with false by lia.
      eexists; split; [reflexivity|]. cbn [shape elt nth]. rewrite Nat2Z.id. split; [reflexivity|].
      intros r Hr. rewrite seq_nth by assumption. reflexivity. }
  destruct Hind as [indices [Ei [Si Vi]]].
  set (L := match bpe with Some n => n | None => (nk - 1) / bs + 1 end).
  assert (EL : imd_len d = Z.of_nat L).
  { unfold imd_len. rewrite Enk. rewrite Hd; cbn [im_bpe im_coincident im_batch]. unfold L.
    destruct bpe as [n|]; cbn [option_map]; [reflexivity|].
    rewrite Nat2Z.inj_add, Nat2Z.inj_div, Nat2Z.inj_sub by lia. reflexivity. }
  destruct (imd_epoch_1 d C T k bs s ltac:(rewrite Hd; exact HX) HC Hk HkT Hbs Hs
     ltac:(rewrite Hd; reflexivity) ltac:(rewrite Hd; reflexivity) ltac:(rewrite Hd; reflexivity)
     ltac:(rewrite Hd; cbn; intros y' Hy'; apply Hy; exact Hy') indices N L EL Si) as [batches [E1 [E2 E3]]].
  { intros r Hr. rewrite Vi by assumption. fold nk.
    specialize (Hin (nth r ks 0) ltac:(apply nth_In; lia)). lia. }
  exists ks, batches. unfold imd_epoch. rewrite Ei. cbn [bind].
  split; [exact E1|]. split; [rewrite E2; symmetry; exact EL|].
  split.
  { intros i Hi. destruct (E3 i Hi) as [Xb [yb [m [F1 [F2 [F3 [F4 F5]]]]]]].
    rewrite Hd in F4, F5; cbn [im_X im_y] in F4, F5.
    exists Xb, yb, m. rewrite Lks. repeat (split; [assumption|]). split.
    - intros b c j Hb Hc' Hj. rewrite F4 by assumption. rewrite Vi by lia. rewrite Nat2Z.id. reflexivity.
    - destruct y as [y'|]; [|exact F5]. destruct F5 as [yk [G1 [G2 G3]]]. exists yk. repeat (split; [assumption|]).
      intros b j Hb Hj. rewrite G3 by assumption. rewrite Vi by lia. rewrite Nat2Z.id. reflexivity. }
  split; [exact Hnd|]. split.
  { intros x Hx. split; [apply Hin; exact Hx|]. apply (kern_fits C T k bs s); [assumption..|]. apply Hin; exact Hx. }
  split; [rewrite Lks; reflexivity|].
  split; [exists indices; rewrite Lks; repeat split; assumption|].
  destruct bpe as [n|].
  - split; [rewrite Lks; reflexivity|]. rewrite E2; reflexivity.
  - split.
    + unfold ks, N. destruct shuffle; [|apply Permutation_refl].
      rewrite firstn_all2 by lia. exact Hperm.
    + rewrite Lks, E2. unfold L, N.
      pose proof (Nat.div_mod (nk - 1) bs ltac:(lia)). pose proof (Nat.mod_upper_bound (nk - 1) bs ltac:(lia)).
      rewrite Nat.mul_add_distr_r. rewrite (Nat.mul_comm ((nk - 1) / bs)).
      generalize dependent ((nk - 1) mod bs). intros. lia.
Qed.

(** shared facts for the non-coincident modes *)
Lemma imd_create_noncoincident {A} (X : tensor A) y (C T k bs s n : nat) shuffle d :
  shape X = [C; T] -> k <= T -> 0 < s ->
  imd_create X (Z.of_nat k) y (Z.of_nat bs) (Z.of_nat s) (Some (Z.of_nat n)) false shuffle = Ok d ->
  y = None /\ bs * n <= (T - k) / s + 1 /\
  d = {| im_X := X; im_y := None; im_kernel := Z.of_nat k; im_batch := Z.of_nat bs; im_stride := Z.of_nat s;
         im_bpe := Some (Z.of_nat n); im_coincident := false; im_shuffle := shuffle |}.
Proof.
  intros HX HkT Hs Hc. unfold imd_create in Hc. rewrite (last_dim_app X [C] T HX) in Hc. cbn [bind] in Hc.
  destruct y as [y'|].
  { destruct (last_dim y'); cbn [bind] in Hc; [|discriminate]. destruct (negb _); cbn [negb bind] in Hc; discriminate. }
  cbn [bind negb andb] in Hc. replace (Z.of_nat s =? 0)%Z with false in Hc by lia.
  unfold num_kernels in Hc. rewrite HX in Hc. cbn [last] in Hc.
  replace ((Z.of_nat T - Z.of_nat k) / Z.of_nat s + 1)%Z with (Z.of_nat ((T - k) / s + 1)) in Hc
    by (rewrite Nat2Z.inj_add, Nat2Z.inj_div, Nat2Z.inj_sub by lia; reflexivity).
  destruct (Z.ltb_spec (Z.of_nat ((T - k) / s + 1)) (Z.of_nat bs * Z.of_nat n)); cbn [bind] in Hc; [discriminate|].
  inversion Hc; subst. repeat split; lia.
Qed.

(** C06, shuffled non-coincident mode: each row uses, per channel, an arbitrary in-range kernel *)
Theorem imd_noncoincident_shuffled_epoch {A} (X : tensor A) y (C T k bs s n : nat) rng perm d :
  shape X = [C; T] -> 0 < C -> 0 < k -> k <= T -> 0 < bs -> 0 < s ->
  imd_create X (Z.of_nat k) y (Z.of_nat bs) (Z.of_nat s) (Some (Z.of_nat n)) false true = Ok d ->
  let nk := (T - k) / s + 1 in
  exists kern batches,
    imd_epoch d rng perm = Ok batches /\ length batches = n
    /\ epoch_of X None C k s bs (bs * n) kern batches
    /\ (exists idx, init_indices d rng perm = Ok idx /\ shape idx = [bs * n; C] /\
          forall r c, r < bs * n -> c < C -> elt idx [r; c] = Z.of_nat (kern r c) /\ elt idx [r; c] = (rng [r; c] mod Z.of_nat nk)%Z)
    /\ forall r c, r < bs * n -> c < C -> kern r c < nk /\ kern r c * s + k <= T.
Proof.
  intros HX HC Hk HkT Hbs Hs Hc nk.
  destruct (imd_create_noncoincident X y C T k bs s n true d HX HkT Hs Hc) as [-> [Hn Hd]]. fold nk in Hn.
  assert (Enk : num_kernels (im_X d) (im_kernel d) (im_stride d) = Z.of_nat nk)
    by (rewrite Hd; unfold num_kernels; cbn; rewrite HX; cbn; unfold nk;
        rewrite Nat2Z.inj_add, Nat2Z.inj_div, Nat2Z.inj_sub by lia; reflexivity).
  assert (Hnk : 0 < nk) by (unfold nk; lia).
  destruct (randint_z_ok 0 (Z.of_nat nk) [bs * n; C] rng ltac:(lia)) as [idx [E [S V]]].
  assert (Ei : init_indices d rng perm = Ok idx).
  { unfold init_indices. rewrite Enk. unfold py_len. rewrite Hd; cbn [im_X im_coincident im_shuffle im_bpe im_batch].
    rewrite HX. cbn [bind negb andb]. rewrite <- E. cbn [map]. do 2 f_equal. lia. }
  destruct (imd_epoch_2 d C T k bs s ltac:(rewrite Hd; exact HX) HC Hk HkT Hbs Hs
     ltac:(rewrite Hd; reflexivity) ltac:(rewrite Hd; reflexivity) ltac:(rewrite Hd; reflexivity)
     ltac:(rewrite Hd; discriminate) idx (bs * n) n ltac:(rewrite Hd; reflexivity)
     ltac:(rewrite Hd; reflexivity) S) as [batches [E1 [E2 E3]]].
  { intros r c _ _. rewrite V. pose proof (Z.mod_pos_bound (rng [r; c]) (Z.of_nat nk - 0)). fold nk. lia. }
  exists (fun r c => Z.to_nat (elt idx [r; c])), batches.
  unfold imd_epoch. rewrite Ei. cbn [bind]. split; [exact E1|]. split; [exact E2|].
  rewrite Hd in E3. split; [exact E3|].
  split.
  { exists idx. split; [reflexivity|]. split; [exact S|]. intros r c Hr Hcc. pose proof (Z.mod_pos_bound (rng [r; c]) (Z.of_nat nk - 0)).
    rewrite V. split; [rewrite Z2Nat.id by lia; reflexivity|]. rewrite Z.sub_0_r. lia. }
  intros r c Hr Hcc. rewrite V. pose proof (Z.mod_pos_bound (rng [r; c]) (Z.of_nat nk - 0)).
  assert (Z.to_nat (0 + rng [r; c] mod (Z.of_nat nk - 0)) < nk) by lia. split; [assumption|].
  apply (kern_fits C T k bs s); assumption.
Qed.

Lemma imd_sequential_indices {A} (X : tensor A) y (C T k bs s n : nat) rng perm d :
  shape X = [C; T] -> 0 < C -> 0 < k -> k <= T -> 0 < bs -> 0 < s -> 0 < n ->
  imd_create X (Z.of_nat k) y (Z.of_nat bs) (Z.of_nat s) (Some (Z.of_nat n)) false false = Ok d ->
  exists idx, init_indices d rng perm = Ok idx /\ shape idx = [bs * n; C]
     /\ forall r c, r < bs * n -> c < C -> elt idx [r; c] = f32_round (Z.of_nat (if c =? C - 1 then r else 0)).
Proof.
  intros HX HC Hk HkT Hbs Hs Hn0 Hc.
  set (nk := (T - k) / s + 1).
  destruct (imd_create_noncoincident X y C T k bs s n false d HX HkT Hs Hc) as [-> [Hn Hd]]. fold nk in Hn.
  assert (Enk : num_kernels (im_X d) (im_kernel d) (im_stride d) = Z.of_nat nk)
    by (rewrite Hd; unfold num_kernels; cbn; rewrite HX; cbn; unfold nk;
        rewrite Nat2Z.inj_add, Nat2Z.inj_div, Nat2Z.inj_sub by lia; reflexivity).
  assert (Hnk : 0 < nk) by (unfold nk; lia).
  set (rows := firstn (bs * n) (all_idx (repeat nk C))).
  assert (Hpr : nk <= prod (repeat nk C)).
  { destruct C as [|C']; [lia|]. cbn [repeat prod].
    assert (prod (repeat nk C') <> 0) by (clear -Hnk; induction C'; cbn; nia). nia. }
  assert (Lr : length rows = bs * n) by (unfold rows; rewrite firstn_length, all_idx_length; lia).
  assert (Hrow : forall r, r < bs * n -> nth r rows [] = unravel (repeat nk C) r).
  { intros r Hr. rewrite <- (all_idx_nth (repeat nk C) r []) by lia. unfold rows.
    rewrite <- (firstn_skipn (bs * n) (all_idx (repeat nk C))) at 2. rewrite app_nth1; [reflexivity|].
    fold rows. lia. }
  unfold init_indices. rewrite Enk. unfold py_len. rewrite Hd; cbn [im_X im_coincident im_shuffle im_bpe im_batch].
  rewrite HX. cbn [bind negb andb].
  replace (Z.to_nat (Z.of_nat bs * Z.of_nat n)) with (bs * n) by lia. rewrite Nat2Z.id. fold rows.
  destruct rows as [|r0 rs] eqn:Er; [cbn in Lr; nia|]. rewrite <- Er in *. rewrite Lr.
  eexists; split; [reflexivity|]. cbn [shape elt nth]. split; [reflexivity|].
  intros r c Hr Hcc. rewrite Hrow by assumption. rewrite unravel_repeat_small by lia. reflexivity.
Qed.

(** C06, sequential non-coincident mode (at most 2^24 rows): row r is kernel r of the LAST channel
    and kernel 0 of every other channel, so the other channels never move. *)
Theorem imd_noncoincident_sequential_epoch {A} (X : tensor A) y (C T k bs s n : nat) rng perm d :
  shape X = [C; T] -> 0 < C -> 0 < k -> k <= T -> 0 < bs -> 0 < s -> 0 < n ->
  (Z.of_nat (bs * n) <= 2 ^ 24)%Z ->
  imd_create X (Z.of_nat k) y (Z.of_nat bs) (Z.of_nat s) (Some (Z.of_nat n)) false false = Ok d ->
  exists batches,
    imd_epoch d rng perm = Ok batches /\ length batches = n
    /\ epoch_of X None C k s bs (bs * n) (fun r c => if c =? C - 1 then r else 0) batches.
Proof.
  intros HX HC Hk HkT Hbs Hs Hn0 H24 Hc.
  destruct (imd_sequential_indices X y C T k bs s n rng perm d HX HC Hk HkT Hbs Hs Hn0 Hc) as [idx [Ei [S V0]]].
  set (nk := (T - k) / s + 1).
  destruct (imd_create_noncoincident X y C T k bs s n false d HX HkT Hs Hc) as [-> [Hn Hd]]. fold nk in Hn.
  assert (V : forall r c, r < bs * n -> c < C -> elt idx [r; c] = Z.of_nat (if c =? C - 1 then r else 0)).
  { intros r c Hr Hcc. rewrite V0 by assumption. apply f32_round_small. destruct (c =? C - 1); lia. }
  destruct (imd_epoch_2 d C T k bs s ltac:(rewrite Hd; exact HX) HC Hk HkT Hbs Hs
     ltac:(rewrite Hd; reflexivity) ltac:(rewrite Hd; reflexivity) ltac:(rewrite Hd; reflexivity)
     ltac:(rewrite Hd; discriminate) idx (bs * n) n ltac:(rewrite Hd; reflexivity)
     ltac:(rewrite Hd; reflexivity) S) as [batches [E1 [E2 E3]]].
  { intros r c Hr Hcc. rewrite V by assumption. fold nk. destruct (c =? C - 1); lia. }
  exists batches. unfold imd_epoch. rewrite Ei. cbn [bind]. split; [exact E1|]. split; [exact E2|].
  rewrite Hd in E3; cbn [im_X im_y] in E3.
  intros i Hi. destruct (E3 i Hi) as [Xb [yb [m [F1 [F2 [F3 [F4 F5]]]]]]].
  exists Xb, yb, m. repeat (split; [assumption|]). split; [|exact F5].
  intros b c j Hb Hcc Hj. rewrite F4 by assumption. rewrite V by (auto; lia). rewrite Nat2Z.id. reflexivity.
Qed.

(** past 2^24 rows the float32 round trip of torch.Tensor(tuple) corrupts the kernel numbers: row
    2^24+1 of the last channel is given kernel 2^24, the same as the row before it *)
Theorem imd_sequential_float32_refuted {A} (X : tensor A) y (C T k bs s n : nat) rng perm d :
  shape X = [C; T] -> 0 < C -> 0 < k -> k <= T -> 0 < bs -> 0 < s -> 0 < n ->
  (2 ^ 24 + 1 < Z.of_nat (bs * n))%Z ->
  imd_create X (Z.of_nat k) y (Z.of_nat bs) (Z.of_nat s) (Some (Z.of_nat n)) false false = Ok d ->
  exists idx, init_indices d rng perm = Ok idx
    /\ get idx [Z.to_nat (2 ^ 24 + 1); C - 1] = Some (2 ^ 24)%Z
    /\ get idx [Z.to_nat (2 ^ 24); C - 1] = Some (2 ^ 24)%Z.
Proof.
  intros HX HC Hk HkT Hbs Hs Hn0 H24 Hc.
  destruct (imd_sequential_indices X y C T k bs s n rng perm d HX HC Hk HkT Hbs Hs Hn0 Hc) as [idx [Ei [S V]]].
  exists idx. split; [exact Ei|].
  split; (rewrite get_inb; [|rewrite S; cbn [inb]; lia]); rewrite V by lia; rewrite Nat.eqb_refl, Z2Nat.id by lia; reflexivity.
Qed.

(** C06: constructor checks *)
Theorem imd_create_rejects {A} (X : tensor A) y (C T k bs s : nat) bpe co sh :
  shape X = [C; T] -> 0 < s -> k <= T ->
  (exists y', y = Some y' /\ exists b t, shape y' = b ++ [t] /\ t <> T) \/
  (exists y' b, y = Some y' /\ shape y' = b ++ [T] /\ co = false) \/
  (y = None /\ co = false /\ bpe = None) \/
  (y = None /\ exists n, bpe = Some n /\ (Z.of_nat ((T - k) / s + 1) < Z.of_nat bs * n)%Z) ->
  imd_create X (Z.of_nat k) y (Z.of_nat bs) (Z.of_nat s) bpe co sh = Err ValueError.
Proof.
  intros HX Hs HkT H. unfold imd_create. rewrite (last_dim_app X [C] T HX). cbn [bind].
  destruct H as [[y' [-> [b [t [E Ht]]]]] | [[y' [b [-> [E ->]]]] | [[-> [-> ->]] | [-> [n [-> Hn]]]]]].
  - rewrite (last_dim_app _ _ _ E). cbn [bind]. replace (Z.of_nat t =? Z.of_nat T)%Z with false by lia. reflexivity.
  - rewrite (last_dim_app _ _ _ E). cbn [bind]. rewrite Z.eqb_refl. reflexivity.
  - reflexivity.
  - cbn [bind]. destruct co; cbn [negb andb].
    all: replace (Z.of_nat s =? 0)%Z with false by lia;
    unfold num_kernels; rewrite HX; cbn [last];
    replace ((Z.of_nat T - Z.of_nat k) / Z.of_nat s + 1)%Z with (Z.of_nat ((T - k) / s + 1))
      by (rewrite Nat2Z.inj_add, Nat2Z.inj_div, Nat2Z.inj_sub by lia; reflexivity);
    replace (_ <? _)%Z with true by lia; reflexivity.
Qed.

Example imd_nonvacuous :
  let X := mk [2; 9] (fun i => Z.of_nat (10 * nth 0 i 0 + nth 1 i 0)) in
  let y := mk [9] (fun i => Z.of_nat (100 + nth 0 i 0)) in
  exists d b1 b2, imd_create X 3 (Some y) 2 2 None true true = Ok d
    /\ imd_epoch d (fun _ => 0%Z) [2; 0; 3; 1] = Ok [b1; b2] /\ Permutation [2; 0; 3; 1] (seq 0 4)
    /\ get (fst b1) [0; 1; 0] = Some 14%Z.
Proof.
  cbn zeta. do 3 eexists. split; [reflexivity|]. split; [vm_compute; reflexivity|]. split; [|reflexivity].
  change [2;0;3;1] with ([2;0] ++ [3;1]). cbn.
  apply Permutation_trans with [0;2;3;1]; [constructor|]. constructor.
  apply Permutation_trans with [2;1;3]; [repeat constructor|constructor].
Qed.
