(** Broadcasting lemmas for tensors with arbitrary leading dimensions. *)
From Verif Require Import Base Tensor.
Local Open Scope nat_scope.
Lemma bidx_self i s : inb i s -> bidx s i = i.
Proof.
  unfold bidx. intros H. rewrite (inb_length _ _ H), Nat.sub_diag. cbn [skipn]. revert s H.
  induction i as [|x i IH]; intros [|d s] H; cbn in *; try tauto. destruct H as [H1 H2]. rewrite IH by assumption.
  destruct (Nat.eqb_spec d 1); [|reflexivity]. f_equal. lia.
Qed.
Lemma bidx_pre s p i : length i = length s -> bidx s (p ++ i) = bidx s i.
Proof.
  unfold bidx. intros H. rewrite app_length, H, Nat.add_sub, Nat.sub_diag. cbn [skipn]. rewrite skipn_app, skipn_all, Nat.sub_diag. reflexivity.
Qed.
Lemma bshape_rev_app : forall s t p, bshape_rev s t = Ok s -> length t <= length s -> bshape_rev (s ++ p) t = Ok (s ++ p).
Proof.
  induction s as [|x s IH]; intros [|y t] p H L; cbn in *; try lia; try reflexivity.
  - destruct p; reflexivity.
  - destruct (bdim x y) as [d|]; cbn in *; [|discriminate]. destruct (bshape_rev s t) as [r|] eqn:E; cbn in *; [|discriminate].
    injection H as -> ->. rewrite IH by (assumption || lia). reflexivity.
Qed.
Lemma bshape_rev_comm : forall s t, bshape_rev s t = bshape_rev t s.
Proof.
  induction s as [|x s IH]; intros [|y t]; cbn; try reflexivity. rewrite IH. unfold bdim.
  rewrite (Nat.eqb_sym y x). destruct (Nat.eqb_spec x y) as [->|N]; cbn; [reflexivity|].
  destruct (Nat.eqb_spec x 1), (Nat.eqb_spec y 1); try congruence; reflexivity.
Qed.
Lemma bshape_pre p s t : bshape s t = Ok s -> length t <= length s -> bshape (p ++ s) t = Ok (p ++ s).
Proof.
  unfold bshape. intros H L. rewrite rev_app_distr. destruct (bshape_rev (rev s) (rev t)) as [r|] eqn:E; [|discriminate]. cbn in H.
  assert (r = rev s) by (injection H as H; rewrite <- H; symmetry; apply rev_involutive). subst r.
  rewrite bshape_rev_app by (assumption || rewrite !rev_length; assumption). cbn. rewrite rev_app_distr, !rev_involutive. reflexivity.
Qed.
Lemma bshape_comm s t : bshape s t = bshape t s.
Proof. unfold bshape. rewrite bshape_rev_comm. reflexivity. Qed.
Lemma bshape_self s : bshape s s = Ok s.
Proof.
  unfold bshape. assert (H : bshape_rev (rev s) (rev s) = Ok (rev s)).
  { induction (rev s) as [|x l IH]; cbn; [reflexivity|]. rewrite bdim_refl. cbn. rewrite IH. reflexivity. }
  rewrite H. cbn. rewrite rev_involutive. reflexivity.
Qed.
Lemma bshape_app s n m : bdim n m = Ok n -> bshape (s ++ [n]) (s ++ [m]) = Ok (s ++ [n]).
Proof.
  intros H. unfold bshape. rewrite !rev_app_distr. cbn. rewrite H. cbn.
  assert (E : bshape_rev (rev s) (rev s) = Ok (rev s)).
  { induction (rev s) as [|x l IH]; cbn; [reflexivity|]. rewrite bdim_refl. cbn. rewrite IH. reflexivity. }
  rewrite E. cbn. rewrite rev_involutive. reflexivity.
Qed.
Lemma bshape_last1 s n : bshape (s ++ [n]) (s ++ [1]) = Ok (s ++ [n]).
Proof. apply bshape_app, bdim_1_r. Qed.
Lemma bidx_app s s' i i' : length i = length s -> length i' = length s' -> bidx (s ++ s') (i ++ i') = bidx s i ++ bidx s' i'.
Proof.
  intros H H'. unfold bidx. rewrite !app_length, H, H', !Nat.sub_diag. cbn [skipn].
  revert i H. induction s as [|d s IH]; intros [|x i] H; cbn in *; try discriminate; [reflexivity|]. f_equal. apply IH. lia.
Qed.
Lemma bidx_last1 s i t : inb i s -> bidx (s ++ [1]) (i ++ [t]) = i ++ [0].
Proof. intros H. rewrite bidx_app by (try reflexivity; apply inb_length, H). rewrite bidx_self by assumption. reflexivity. Qed.
