(** Property C19, continued: match_size on tensors of any number of axes. *)
From Verif Require Import Base Tensor Slicing_model Streaming_model Autoenc_model Autoenc_props.
Local Open Scope nat_scope.

(** [X[:, :, a:b]] of a tensor of at least three axes (utils.py 14): the third axis is sliced, whatever follows it *)
Definition slice_axis2 {A} (a b : option Z) (x : tensor A) : tensor A :=
  let n := Z.of_nat (nth 2 (shape x) 0) in
  let lo := slice_lo n a in let hi := slice_hi n b in
  mk (firstn 2 (shape x) ++ [Z.to_nat (hi - lo)] ++ skipn 3 (shape x))
     (fun i => elt x (firstn 2 i ++ [nth 2 i 0 + Z.to_nat lo] ++ skipn 3 i)).
(** nn/autoencoder/utils.py 5-15, [match_size] without restriction on the number of axes: the length compared with the target is that
    of the LAST axis, the axis sliced is the third *)
Definition match_size_nd {A} (zero : A) (x : tensor A) (target : Z) : res (tensor A) :=
  if ndim x =? 0 then Err IndexError else
  let diff := (target - Z.of_nat (last (shape x) 0%nat))%Z in       (* 6 *)
  let left := (diff / 2)%Z in                                       (* 7 *)
  let right := (diff - left)%Z in                                   (* 8 *)
  if (0 <? diff)%Z then Ok (pad_last zero (Z.to_nat left) (Z.to_nat right) x)     (* 10-11 *)
  else if (diff <? 0)%Z then                                        (* 12-14 *)
    if ndim x <? 3 then Err IndexError else
    let right := if (- right =? 0)%Z then None else Some (- right)%Z in
    Ok (slice_axis2 (Some (- left)%Z) right x)
  else Ok x.

(** up to three axes this is [match_size]: same errors, same shape, same entries *)
Theorem match_size_nd_3d {A} (zero : A) (x : tensor A) target : ndim x <= 3 ->
  match match_size_nd zero x target, match_size zero x target with
  | Ok y, Ok z => shape y = shape z /\ forall i, get y i = get z i
  | Err e, Err e' => e = e'
  | _, _ => False
  end.
Proof.
  intros H. unfold match_size_nd, match_size. destruct (ndim x =? 0); [reflexivity|]. destruct (0 <? _)%Z; [split; reflexivity|]. destruct (_ <? 0)%Z; [|split; reflexivity].
  destruct (Nat.ltb_spec (ndim x) 3) as [L|L]; [reflexivity|]. assert (N : ndim x = 3) by lia. unfold ndim in N.
  destruct (shape x) as [|b [|c [|n [|]]]] eqn:S; try discriminate. cbn zeta. unfold slice_axis2, slice_last. rewrite S. cbn [firstn skipn nth last removelast app]. split; [reflexivity|].
  intros i. unfold get. cbn [shape]. match goal with |- (if ?u then _ else _) = (if ?v then _ else _) => destruct u eqn:E; [|reflexivity] end.
  destruct i as [|p [|q [|r [|]]]]; cbn in E; rewrite ?andb_false_r in E; try discriminate. reflexivity.
Qed.
(** fewer than three axes: too long an input is rejected, whatever the excess; never cropped *)
Theorem match_size_few_axes {A} (zero : A) (x : tensor A) target : 0 < ndim x < 3 -> target < last (shape x) 0 -> match_size_nd zero x (Z.of_nat target) = Err IndexError.
Proof.
  intros H L. unfold match_size_nd. replace (ndim x =? 0) with false by lia. replace (0 <? Z.of_nat target - Z.of_nat (last (shape x) 0%nat))%Z with false by lia.
  replace (Z.of_nat target - Z.of_nat (last (shape x) 0%nat) <? 0)%Z with true by lia. replace (ndim x <? 3) with true by lia. reflexivity.
Qed.
(** padding works on any number of axes: the last axis reaches the target *)
Theorem match_size_nd_pad {A} (zero : A) (x : tensor A) pre n target : shape x = pre ++ [n] -> n <= target ->
  exists y, match_size_nd zero x (Z.of_nat target) = Ok y /\ shape y = pre ++ [target] /\
    forall i j, inb i pre -> j < target ->
      get y (i ++ [j]) = let l := (target - n) / 2 in if (l <=? j) && (j <? l + n) then get x (i ++ [j - l]) else Some zero.
Proof.
  intros Hs Hn. unfold match_size_nd, ndim. rewrite Hs, app_length, last_last. cbn [length]. replace (length pre + 1 =? 0) with false by lia.
  destruct (Z.ltb_spec 0 (Z.of_nat target - Z.of_nat n)) as [H|H].
  - eexists; split; [reflexivity|]. unfold pad_last. rewrite Hs, removelast_last, last_last. cbn [shape].
    set (l := Z.to_nat ((Z.of_nat target - Z.of_nat n) / 2)).
    assert (El : l = (target - n) / 2). { unfold l. rewrite <- Nat2Z.inj_sub by lia. change 2%Z with (Z.of_nat 2). rewrite <- Nat2Z.inj_div. apply Nat2Z.id. }
    assert (Hl : l <= target - n) by (rewrite El; apply Nat.div_le_upper_bound; lia).
    assert (Er : l + n + Z.to_nat (Z.of_nat target - Z.of_nat n - (Z.of_nat target - Z.of_nat n) / 2) = target) by (unfold l; lia).
    rewrite Er. split; [reflexivity|]. intros i j Hi Hj. cbn zeta. rewrite <- El.
    rewrite get_inb by (cbn [shape]; apply inb_app; [exact Hi|cbn; auto]). cbn [elt]. rewrite last_last, removelast_last.
    destruct ((l <=? j) && (j <? l + n)) eqn:E; [|reflexivity]. rewrite get_inb by (rewrite Hs; apply inb_app; [exact Hi|cbn; lia]). reflexivity.
  - assert (target = n) by lia. subst target. destruct (Z.ltb_spec (Z.of_nat n - Z.of_nat n) 0); [lia|].
    exists x. split; [reflexivity|]. split; [assumption|]. intros i j Hi Hj. cbn zeta. rewrite Nat.sub_diag. change (0 / 2) with 0.
    replace ((0 <=? j) && (j <? 0 + n)) with true by lia. rewrite Nat.sub_0_r. reflexivity.
Qed.
(** with four or more axes the last axis is never shortened: the call succeeds, and what it returns still has the length it had *)
Theorem match_size_many_axes_refuted {A} (zero : A) (x : tensor A) b c h rest n target : shape x = [b; c; h] ++ rest ++ [n] -> target < n ->
  exists y, match_size_nd zero x (Z.of_nat target) = Ok y /\ last (shape y) 0 = n /\ last (shape y) 0 <> target /\ ndim y = ndim x.
Proof.
  intros Hs L. assert (HL : last (shape x) 0 = n) by (rewrite Hs, app_assoc, last_last; reflexivity). unfold match_size_nd. assert (HN : 3 <= ndim x) by (unfold ndim; rewrite Hs; cbn; lia). rewrite HL.
  replace (ndim x =? 0) with false by lia. replace (0 <? Z.of_nat target - Z.of_nat n)%Z with false by lia.
  replace (Z.of_nat target - Z.of_nat n <? 0)%Z with true by lia. replace (ndim x <? 3) with false by lia. cbn zeta. eexists. split; [reflexivity|].
  unfold slice_axis2, ndim. cbn [shape]. rewrite Hs. cbn [firstn skipn app]. set (k := Z.to_nat _).
  assert (E : last (b :: c :: k :: rest ++ [n]) 0 = n) by (change (b :: c :: k :: rest ++ [n]) with ((b :: c :: k :: rest) ++ [n]); apply last_last).
  rewrite E. split; [reflexivity|]. split; [lia|]. cbn. reflexivity.
Qed.
Example many_axes_ex : exists y, match_size_nd 0 (mk [1; 1; 4; 5] (fun i => last i 0)) 3 = Ok y /\ shape y = [1; 1; 0; 5].
Proof. eexists. split; [vm_compute; reflexivity|reflexivity]. Qed.
