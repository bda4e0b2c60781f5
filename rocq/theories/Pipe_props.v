(** C80: a streaming pipeline: Snapshotter, a model applied to the batch of snapshots, OnlineAverager. *)
From Verif Require Import Base Tensor Slicing_model Slicing_proofs Slicing_proofs2 Slicing_props Rutil Streaming_model Snap_props Oavg_props.
Local Open Scope nat_scope.

(** one call of each per update, the states of both going to the next round (the use documented in snapshotter.py 40-53 and
    online_average.py 22-31) *)
Fixpoint pipe_run {A} (zero : A) (s : snap) (F : tensor A -> tensor R) (m : oavg) (us : list (tensor A)) (s1 : option (tensor A)) (s2 : option (tensor R))
  : res (list (tensor R) * (option (tensor A) * option (tensor R))) :=
  match us with
  | [] => Ok ([], (s1, s2))
  | u :: us' =>
    let* (o, s1') := snap_forward zero s u s1 in
    match o with
    | [x] =>
      let* (y, s2') := oa_forward m (F x) s2 in
      let* (ys, st) := pipe_run zero s F m us' (Some s1') (Some s2') in
      Ok (y :: ys, st)
    | _ => Err TypeError
    end
  end.
(** a model that treats the snapshots of a batch independently: snapshot k (C channels, [size] samples) gives c channels of L samples *)
Definition windowwise {A} (b C size c L : nat) (F : tensor A -> tensor R) (f : (nat -> nat -> A) -> nat -> nat -> R) : Prop :=
  forall x, shape x = [b; C; size] -> shape (F x) = [b; c; L] /\
    forall k l j w, k < b -> l < c -> j < L -> (forall ch r, ch < C -> r < size -> w ch r = elt x [k; ch; r]) -> elt (F x) [k; l; j] = f w l j.

Lemma pipe_split {A} (zero : A) s F m : forall us xs s1 s2 st1 ys st2,
  snap_run zero s us s1 = Ok (map (fun x => [x]) xs, st1) -> oa_run m (map F xs) s2 = Ok (ys, st2) ->
  pipe_run zero s F m us s1 s2 = Ok (ys, (st1, st2)).
Proof.
  induction us as [|u us IH]; intros xs s1 s2 st1 ys st2 H1 H2; cbn [snap_run pipe_run] in *.
  - destruct xs; [|discriminate]. injection H1 as <-. cbn in H2. injection H2 as <- <-. reflexivity.
  - destruct (snap_forward zero s u s1) as [[o s1']|e]; [|discriminate]. cbn [bind] in *.
    destruct (snap_run zero s us (Some s1')) as [[os st']|e] eqn:E; [|discriminate]. cbn [bind] in *. destruct xs as [|x xs]; [discriminate|]. cbn [map] in H1. injection H1 as -> -> ->.
    cbn [map oa_run] in H2. destruct (oa_forward m (F x) s2) as [[y s2']|e]; [|discriminate]. cbn [bind] in *.
    destruct (oa_run m (map F xs) (Some s2')) as [[zs st'']|e] eqn:E2; [|discriminate]. cbn [bind] in *. injection H2 as <- <-.
    rewrite (IH xs (Some s1') (Some s2') st1 zs st'' E E2). reflexivity.
Qed.
Lemma singletons {A} (os : list (list A)) : (forall o, In o os -> length o = 1) -> exists xs, os = map (fun x => [x]) xs.
Proof.
  induction os as [|o os IH]; intros H; [exists []; reflexivity|]. destruct IH as [xs ->]; [intros o' Ho; apply H; right; exact Ho|].
  assert (L := H o (or_introl eq_refl)). destruct o as [|x [|? ?]]; try discriminate. exists (x :: xs). reflexivity.
Qed.
Lemma sum_firstn_const b i : forall k, list_sum (firstn i (repeat b k)) = Nat.min i k * b.
Proof. revert i. intros i k. revert i. induction k as [|k IH]; intros [|i]; try reflexivity. cbn [repeat firstn]. change (list_sum (b :: firstn i (repeat b k))) with (b + list_sum (firstn i (repeat b k))). rewrite IH. cbn. lia. Qed.

(** the pipeline over any history: output sample t is the average of the predictions that cover it, prediction p being the
    model's output on the [size] samples of the stream that start at p * stride *)
Theorem pipeline_stream {A} (zero : A) C size stride b n c L off s m F f us :
  snap_create C size stride b None = Ok s -> oa_create stride b n c off = Ok m ->
  0 < C -> 0 < stride -> 0 < b -> 0 < n -> 0 < c -> off <> Some 0 -> us <> [] ->
  let o := match off with Some k => k | None => 0 end in
  n * stride + o <= L -> windowwise b C size c L F f -> Forall (fun u => shape u = [C; b * stride]) us ->
  exists outs st, pipe_run zero s F m us None None = Ok (outs, st) /\ length outs = length us /\
    forall i out, nth_error outs i = Some out -> shape out = [c; b * stride] /\
      forall l t, l < c -> t < b * stride ->
        get out [l; t] = Some (average stride n (length us * b)
          (fun p l j => f (fun ch r => nth (p * stride + r) (stream zero (size - stride) ch us) zero) l (L - o - n * stride + j)) l (i * (b * stride) + t)).
Proof.
  intros Hs Hm HC Hst Hb Hn Hc Hoff Hne o HL HF Hus.
  assert (GU : Forall2 (good_update C stride b) (repeat b (length us)) us).
  { clear -Hus Hb. induction Hus as [|u us Hu _ IH]; cbn; constructor; [|exact IH]. unfold good_update. split; [exact Hu|lia]. }
  destruct (snapshotter_stream zero C size stride b None s _ us Hs HC Hst Hne GU) as [outs1 [st1 [E1 [L1 [W1 _]]]]].
  assert (NB : forall i, i < length us -> nth_error (repeat b (length us)) i = Some b) by (intros i Hi; apply nth_error_repeat; exact Hi).
  destruct (singletons outs1) as [xs Ex].
  { intros o' Ho. apply In_nth_error in Ho as [i Hi]. assert (i < length outs1) by (apply nth_error_Some; congruence). destruct (W1 i b o' (NB i ltac:(lia)) Hi) as [Q _]. exact Q. }
  subst outs1. rewrite map_length in L1.
  assert (WX : forall i x, nth_error xs i = Some x -> shape x = [b; C; size] /\ forall k ch r, k < b -> ch < C -> r < size -> elt x [k; ch; r] = nth ((i * b + k) * stride + r) (stream zero (size - stride) ch us) zero).
  { intros i x Hi. assert (i < length xs) by (apply nth_error_Some; congruence).
    destruct (W1 i b [x] (NB i ltac:(lia))) as [_ Q]; [rewrite nth_error_map, Hi; reflexivity|]. destruct (Q 0 0 C eq_refl) as [y [Y1 [Y2 Y3]]]. cbn in Y1. injection Y1 as <-. split; [exact Y2|].
    intros k ch r Hk Hch Hr. destruct (Y3 k ch r Hk Hch Hr) as [v [V1 V2]]. rewrite get_inb in V1 by (rewrite Y2; cbn; lia). injection V1 as ->.
    rewrite sum_firstn_const in V2. replace (Nat.min i (length us)) with i in V2 by lia. cbn [Nat.add] in V2. symmetry. apply nth_error_nth with (d := zero) in V2. exact V2. }
  assert (GB : Forall (good_batch stride b n c off) (map F xs)).
  { apply Forall_forall. intros y Hy. apply in_map_iff in Hy as [x [<- Hx]]. apply In_nth_error in Hx as [i Hi]. destruct (WX i x Hi) as [Sx _]. exists L. split; [apply HF, Sx|exact HL]. }
  destruct (online_averager_stream stride b n c off m (map F xs) Hm Hst Hb Hn Hc Hoff) as [outs [st [E [LO [V _]]]]].
  { intros Q. apply map_eq_nil in Q. subst xs. destruct us; [congruence|discriminate]. }
  { exact GB. }
  rewrite map_length in LO. exists outs, (Some st1, Some st). split; [apply (pipe_split zero s F m us xs None None _ _ _ E1 E)|]. split; [lia|].
  intros i out Hi. destruct (V i out Hi) as [So Vo]. split; [exact So|]. intros l t Hl Ht. rewrite (Vo l t Hl Ht). f_equal. rewrite map_length, L1. unfold average. f_equal. apply Rsum_ext. intros p Hp.
  destruct (covers stride n p (i * (b * stride) + t)) eqn:Ec; [|reflexivity]. set (j := i * (b * stride) + t - p * stride). assert (Hj : j < n * stride) by (unfold covers in Ec; unfold j; lia). clearbody j.
  unfold prediction. fold o. assert (HP : p / b < length xs) by (apply Nat.div_lt_upper_bound; lia).
  destruct (nth_error xs (p / b)) as [x|] eqn:Enx; [|apply nth_error_None in Enx; lia]. rewrite nth_error_map, Enx. cbn [option_map].
  destruct (WX (p / b) x Enx) as [Sx Vx]. destruct (HF x Sx) as [Sf Vf]. rewrite Sf. cbn [last].
  assert (MB : p mod b < b) by (apply Nat.mod_upper_bound; lia).
  apply Vf; [exact MB|exact Hl|lia|]. intros ch r Hch Hr. rewrite (Vx (p mod b) ch r MB Hch Hr). f_equal. f_equal. f_equal. pose proof (Nat.div_mod p b ltac:(lia)). lia.
Qed.

(** a model that returns its input: the pipeline is a pure delay of (num_updates - 1) * stride + offset samples, at every sample of
    every history, including the warm-up *)
Theorem pipeline_identity C size stride b n off s m us :
  snap_create C size stride b None = Ok s -> oa_create stride b n C off = Ok m ->
  0 < C -> 0 < stride -> 0 < b -> 0 < n -> off <> Some 0 -> us <> [] ->
  let o := match off with Some k => k | None => 0 end in
  n * stride + o <= size -> Forall (fun u => shape u = [C; b * stride]) us ->
  exists outs st, pipe_run 0%R s (fun x => x) m us None None = Ok (outs, st) /\ length outs = length us /\
    forall i out, nth_error outs i = Some out -> shape out = [C; b * stride] /\
      forall l t, l < C -> t < b * stride -> let T := i * (b * stride) + t in let D := (n - 1) * stride + o in
        get out [l; t] = Some (if T <? D then 0%R else nth (T - D) (flat_map (chan l) us) 0%R).
Proof.
  intros Hs Hm HC Hst Hb Hn Hoff Hne o HL Hus. destruct (snap_create_inv _ _ _ _ _ _ Hs) as [Hlt _].
  destruct (pipeline_stream 0%R C size stride b n C size off s m (fun x => x) (fun w l j => if l <? C then w l j else 0%R) us Hs Hm HC Hst Hb Hn HC Hoff Hne HL) as [outs [st [E [LO V]]]].
  { intros x Sx. split; [exact Sx|]. intros k l j w Hk Hl Hj Hw. replace (l <? C) with true by lia. symmetry. apply Hw; assumption. }
  { exact Hus. }
  exists outs, st. split; [exact E|]. split; [exact LO|]. intros i out Hi. destruct (V i out Hi) as [So Vo]. split; [exact So|]. intros l t Hl Ht T D. rewrite (Vo l t Hl Ht). f_equal. fold o T.
  assert (HT : T < length us * b * stride). { unfold T. assert (i < length us) by (rewrite <- LO; apply nth_error_Some; congruence). nia. }
  destruct (online_averager_constant stride n (length us * b) (fun p l0 j => if l0 <? C then nth (p * stride + (size - o - n * stride + j)) (stream 0%R (size - stride) l0 us) 0%R else 0%R) l T (nth (T + (size - o - n * stride)) (stream 0%R (size - stride) l us) 0%R) Hst Hn HT) as [A1 A2].
  { intros p Hp Ec. replace (l <? C) with true by lia. f_equal. unfold covers in Ec. lia. }
  destruct (Nat.le_gt_cases ((n - 1) * stride) T) as [K|K].
  - rewrite (A2 K). unfold stream. destruct (Nat.ltb_spec T D) as [K2|K2].
    + rewrite app_nth1 by (rewrite repeat_length; unfold D in K2; nia). apply nth_repeat.
    + rewrite app_nth2 by (rewrite repeat_length; unfold D in K2; nia). rewrite repeat_length. f_equal. unfold D in *. nia.
  - rewrite A1. replace (nth (T + (size - o - n * stride)) (stream 0%R (size - stride) l us) 0%R) with 0%R.
    + replace (T <? D) with true by (unfold D; lia). lra.
    + unfold stream. rewrite app_nth1 by (rewrite repeat_length; nia). symmetry. apply nth_repeat.
Qed.
(** one channel, snapshots of 8 samples every 2, batches of 2, averages over 3 updates, offset 1: two updates 1..4 and 5..8 come out
    delayed by 5 samples *)
Example pipeline_ex : exists s m outs st, snap_create 1 8 2 2 None = Ok s /\ oa_create 2 2 3 1 (Some 1) = Ok m /\
  pipe_run 0%R s (fun x => x) m [mk [1; 4] (fun i => INR (1 + last i 0)); mk [1; 4] (fun i => INR (5 + last i 0))] None None = Ok (outs, st) /\
  exists o1 o2, outs = [o1; o2] /\ map (fun t => get o1 [0; t]) [0; 1; 2; 3] = [Some 0; Some 0; Some 0; Some 0]%R /\ map (fun t => get o2 [0; t]) [0; 1; 2; 3] = [Some 0; Some (INR 1); Some (INR 2); Some (INR 3)]%R.
Proof.
  assert (E : exists m, oa_create 2 2 3 1 (Some 1) = Ok m) by (eexists; vm_compute; reflexivity). destruct E as [m Em].
  set (us := [_; _]).
  destruct (pipeline_identity 1 8 2 2 3 (Some 1) _ m us eq_refl Em) as [outs [st [E [LO V]]]]; try lia; try discriminate; try (cbn; lia).
  { repeat constructor. }
  eexists. exists m, outs, st. split; [reflexivity|]. split; [exact Em|]. split; [exact E|]. destruct outs as [|o1 [|o2 [|? ?]]]; try discriminate. exists o1, o2. split; [reflexivity|].
  destruct (V 0 o1 eq_refl) as [_ V1]. destruct (V 1 o2 eq_refl) as [_ V2]. cbn [map]. rewrite !V1, !V2 by (cbn; lia). split; reflexivity.
Qed.
