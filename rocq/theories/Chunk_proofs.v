(** Lemmas about the chunked dataset. *)
From Verif Require Import Base Tensor Slicing_model Slicing_spec Slicing_proofs Slicing_proofs2 Data_spec Data_model Data_proofs.

Lemma chunk_base_idx_ok bs C k T : 0 < bs -> 0 < C -> 0 < k ->
  exists idx, chunk_base_idx bs C k T = Ok idx /\ shape idx = [bs; C; k]
    /\ forall b c j, b < bs -> c < C -> j < k -> elt idx [b; c; j] = Z.of_nat (c * T + j).
Proof.
  intros Hb HC Hk. unfold chunk_base_idx, arange.
  replace (Z.of_nat k <? 0)%Z with false by lia. replace (Z.of_nat C <? 0)%Z with false by lia. cbn [bind].
  rewrite !Nat2Z.id.
  change [1; 1; -1]%Z with (map Z.of_nat [1%nat; 1%nat] ++ (-1)%Z :: map Z.of_nat []).
  rewrite (reshape_hole_ok [1; 1] [] k) by (unfold numel; cbn; lia). cbn [bind app elt shape].
  change [1; -1; 1]%Z with (map Z.of_nat [1%nat] ++ (-1)%Z :: map Z.of_nat [1%nat]).
  rewrite (reshape_hole_ok [1] [1] C) by (unfold numel; cbn; lia). cbn [bind app elt shape].
  unfold bzip_inplace, bzip, bshape, repeat_t, tmap. cbn [shape zip_with rev app bshape_rev elt].
  rewrite !Nat.mul_1_l, !Nat.mul_1_r, !bdim_refl. cbn [bind rev app shape elt].
  destruct (list_eq_dec Nat.eq_dec [bs; C; k] [bs; C; k]) as [_|]; [|congruence].
  eexists; split; [reflexivity|]. split; [reflexivity|].
  intros b c j H1 H2 H3. unfold bidx. cbn.
  assert (E1 : (if k =? 1 then 0 else j) = j) by (destruct (Nat.eqb_spec k 1); lia).
  assert (E2 : (if bs =? 1 then 0 else b) = b) by (destruct (Nat.eqb_spec bs 1); lia).
  assert (E3 : (if C =? 1 then 0 else c) = c) by (destruct (Nat.eqb_spec C 1); lia).
  rewrite E1, E2, E3, !mod_1, !Nat.div_1_r. rewrite (Nat.mod_small j), (Nat.mod_small c) by lia.
  rewrite ?Nat.mul_1_r, ?Nat.add_0_r, ?Nat.mul_0_l, ?Nat.add_0_l, ?Nat.add_0_r. lia.
Qed.

(** the position of the draw for batch element b and channel c in the sample tensor *)
Definition draw_pos (coincident : bool) (b c : nat) : list nat := if coincident then [b] else [b; c].

Lemma sample_reshape (bs C : nat) (co : bool) (t : tensor Z) : 0 < bs -> 0 < C ->
  shape t = (if co then [bs] else [bs; C]) ->
  exists r, reshape [Z.of_nat bs; -1; 1]%Z t = Ok r /\ shape r = [bs; (if co then 1 else C); 1]
    /\ forall b c, b < bs -> c < C -> elt r [b; (if co then 0 else c); 0] = elt t (draw_pos co b c).
Proof.
  intros Hb HC Hs.
  change [Z.of_nat bs; -1; 1]%Z with (map Z.of_nat [bs] ++ (-1)%Z :: map Z.of_nat [1%nat]).
  destruct co.
  - rewrite (reshape_hole_ok [bs] [1] 1) by (unfold numel; rewrite ?Hs; cbn; lia).
    eexists; split; [reflexivity|]. split; [reflexivity|]. intros b c H1 H2. cbn [elt]. rewrite Hs.
    replace (ravel ([bs] ++ [1; 1]) [b; 0; 0]) with (ravel [bs] [b]) by (cbn; lia).
    rewrite unravel_ravel by (cbn; lia). reflexivity.
  - rewrite (reshape_hole_ok [bs] [1] C) by (unfold numel; rewrite ?Hs; cbn; nia).
    eexists; split; [reflexivity|]. split; [reflexivity|]. intros b c H1 H2. cbn [elt]. rewrite Hs.
    replace (ravel ([bs] ++ [C; 1]) [b; c; 0]) with (ravel [bs; C] [b; c]) by (cbn; lia).
    rewrite unravel_ravel by (cbn; lia). reflexivity.
Qed.

(** one batch from a chunk of shape [n; C; T]; base index built for channel stride T0 *)
Lemma chunk_batch_indices {A} (bs k : nat) (co : bool) (chunk : tensor A) n C T T0 idx r1 r2 :
  shape chunk = [n; C; T] -> 0 < bs -> 0 < C -> 0 < k -> k < T -> 0 < n ->
  shape idx = [bs; C; k] ->
  (forall b c j, b < bs -> c < C -> j < k -> elt idx [b; c; j] = Z.of_nat (c * T0 + j)) ->
  exists K, chunk_batch bs k (if co then [bs] else [bs; C]) idx chunk n C T r1 r2 = take chunk K
    /\ shape K = [bs; C; k]
    /\ forall b c j, b < bs -> c < C -> j < k ->
       elt K [b; c; j] = ((r1 (draw_pos co b c) mod Z.of_nat n) * Z.of_nat (C * T)
          + Z.of_nat (c * T0 + j) + r2 (draw_pos co b c) mod (Z.of_nat T - Z.of_nat k))%Z.
Proof.
  intros Hc Hbs HC Hk HkT Hn Hidx Hie. unfold chunk_batch, randint.
  replace (Z.of_nat n <=? 0)%Z with false by lia. cbn [bind].
  set (ss := if co then [bs] else [bs; C]).
  set (c1 := tmap _ _).
  destruct (sample_reshape bs C co c1 Hbs HC eq_refl) as [q1 [Eq1 [Sq1 Vq1]]].
  rewrite Eq1. cbn [bind]. unfold bzip at 1. unfold bshape. rewrite Sq1, Hidx. cbn [rev app bshape_rev].
  rewrite bdim_1_l, bdim_refl.
  replace (bdim (if co then 1 else C) C) with (@Ok nat C) by (destruct co; [rewrite bdim_1_l|rewrite bdim_refl]; reflexivity).
  cbn [bind rev app].
  replace (Z.of_nat T - Z.of_nat k <=? 0)%Z with false by lia. cbn [bind].
  set (t1 := mk ss _).
  destruct (sample_reshape bs C co t1 Hbs HC eq_refl) as [q2 [Eq2 [Sq2 Vq2]]].
  rewrite Eq2. cbn [bind].
  unfold bzip_inplace, bzip, bshape. cbn [shape]. rewrite Sq2. cbn [rev app bshape_rev].
  rewrite bdim_1_r, bdim_refl.
  replace (bdim C (if co then 1 else C)) with (@Ok nat C) by (destruct co; [rewrite bdim_1_r|rewrite bdim_refl]; reflexivity).
  cbn [bind rev app shape].
  destruct (list_eq_dec Nat.eq_dec [bs; C; k] [bs; C; k]) as [_|]; [|congruence]. cbn [bind].
  eexists; split; [reflexivity|]. split; [reflexivity|].
  intros b c j H1 H2 H3. cbn [elt].
  assert (EB : (if bs =? 1 then 0 else b) = b) by (destruct (Nat.eqb_spec bs 1); lia).
  assert (EC : (if C =? 1 then 0 else c) = c) by (destruct (Nat.eqb_spec C 1); lia).
  assert (EK : (if k =? 1 then 0 else j) = j) by (destruct (Nat.eqb_spec k 1); lia).
  assert (EO : (if (if co then 1 else C) =? 1 then 0 else c) = (if co then 0 else c)) by (destruct co; [reflexivity|exact EC]).
  unfold bidx. cbn [length Nat.sub skipn zip_with]. rewrite !EB, !EC, !EK, !EO.
  rewrite ?EB. change (1 =? 1) with true. cbn iota.
  rewrite Vq1, Vq2 by assumption. rewrite Hie by assumption.
  unfold c1, t1, tmap. cbn [elt]. rewrite Z.sub_0_r. rewrite ?Z.add_0_l. rewrite Z.sub_0_r. lia.
Qed.

Lemma chunk_batch_ok {A} (bs k : nat) (co : bool) (chunk : tensor A) n C T idx r1 r2 :
  shape chunk = [n; C; T] -> 0 < bs -> 0 < C -> 0 < k -> k < T -> 0 < n ->
  shape idx = [bs; C; k] ->
  (forall b c j, b < bs -> c < C -> j < k -> elt idx [b; c; j] = Z.of_nat (c * T + j)) ->
  exists y, chunk_batch bs k (if co then [bs] else [bs; C]) idx chunk n C T r1 r2 = Ok y
    /\ shape y = [bs; C; k]
    /\ forall b c j, b < bs -> c < C -> j < k ->
       get y [b; c; j] = get chunk [Z.to_nat (r1 (draw_pos co b c) mod Z.of_nat n); c;
          Z.to_nat (r2 (draw_pos co b c) mod (Z.of_nat T - Z.of_nat k)) + j].
Proof.
  intros Hc Hbs HC Hk HkT Hn Hidx Hie.
  destruct (chunk_batch_indices bs k co chunk n C T T idx r1 r2 Hc Hbs HC Hk HkT Hn Hidx Hie) as [K [-> [SK VK]]].
  unfold take, numel. rewrite Hc, SK.
  assert (HB : forall b c, (0 <= r1 (draw_pos co b c) mod Z.of_nat n < Z.of_nat n)%Z /\
     (0 <= r2 (draw_pos co b c) mod (Z.of_nat T - Z.of_nat k) < Z.of_nat T - Z.of_nat k)%Z).
  { intros b c. split; apply Z.mod_pos_bound; lia. }
  assert (HV : forall b c j, b < bs -> c < C -> j < k -> exists e t, e < n /\ t + j < T
     /\ e = Z.to_nat (r1 (draw_pos co b c) mod Z.of_nat n)
     /\ t = Z.to_nat (r2 (draw_pos co b c) mod (Z.of_nat T - Z.of_nat k))
     /\ elt K [b; c; j] = Z.of_nat (ravel [n; C; T] [e; c; t + j])).
  { intros b c j H1 H2 H3. destruct (HB b c) as [B1 B2]. rewrite VK by assumption.
    generalize dependent (r1 (draw_pos co b c) mod Z.of_nat n)%Z. intros u Hu.
    generalize dependent (r2 (draw_pos co b c) mod (Z.of_nat T - Z.of_nat k))%Z. intros v Hv.
    exists (Z.to_nat u), (Z.to_nat v).
    split; [lia|]. split; [lia|]. split; [reflexivity|]. split; [reflexivity|]. cbn [ravel prod]. nia. }
  replace (forallb _ _) with true.
  - eexists; split; [reflexivity|]. cbn [shape]. split; [reflexivity|].
    intros b c j H1 H2 H3. destruct (HV b c j H1 H2 H3) as [e [t [He [Ht [Ee [Et EK]]]]]].
    rewrite <- Ee, <- Et.
    rewrite get_inb by (cbn; lia). rewrite get_inb by (rewrite Hc; cbn; lia).
    cbn [elt]. rewrite EK. destruct (Z.ltb_spec (Z.of_nat (ravel [n; C; T] [e; c; t + j])) 0); [lia|].
    rewrite Nat2Z.id. rewrite unravel_ravel by (cbn; lia). reflexivity.
  - symmetry. apply forallb_all_idx. intros i Hi.
    destruct i as [|b [|c [|j [|? ?]]]]; cbn [inb] in Hi; try tauto. destruct Hi as [H1 [H2 [H3 _]]].
    destruct (HV b c j H1 H2 H3) as [e [t [He [Ht [_ [_ EK]]]]]]. rewrite EK.
    assert (ravel [n; C; T] [e; c; t + j] < prod [n; C; T]) by (apply ravel_lt; cbn; lia). lia.
Qed.
