(** Functional tensors and the torch primitives used by the modelled code.
    A tensor is a shape and an element function on index lists; only the elements at
    in-bounds indices are meaningful, and [get] is [None] elsewhere.  dtype, device and
    memory layout are not modelled (reshape/view never fail for stride reasons). *)
From Verif Require Import Base.

Record tensor (A : Type) := mk { shape : list nat; elt : list nat -> A }.
Arguments mk {A} shape elt.
Arguments shape {A} t.
Arguments elt {A} t i.

(** index [i] is in bounds for shape [s] *)
Fixpoint inb (i s : list nat) : Prop :=
  match i, s with
  | [], [] => True
  | x :: i', d :: s' => x < d /\ inb i' s'
  | _, _ => False
  end.
Fixpoint inbb (i s : list nat) : bool :=
  match i, s with
  | [], [] => true
  | x :: i', d :: s' => (x <? d) && inbb i' s'
  | _, _ => false
  end.

Definition get {A} (t : tensor A) (i : list nat) : option A :=
  if inbb i (shape t) then Some (elt t i) else None.

Fixpoint prod (s : list nat) : nat := match s with [] => 1 | d :: s' => d * prod s' end.
Definition numel {A} (t : tensor A) : nat := prod (shape t).
Definition ndim {A} (t : tensor A) : nat := length (shape t).

(** extensional equality of tensors: same shape, same entries *)
Definition teq {A} (a b : tensor A) : Prop :=
  shape a = shape b /\ forall i, inb i (shape a) -> elt a i = elt b i.

(** row-major flattening of indices *)
Fixpoint ravel (s i : list nat) : nat :=
  match s, i with
  | d :: s', x :: i' => x * prod s' + ravel s' i'
  | _, _ => 0
  end.
Fixpoint unravel (s : list nat) (n : nat) : list nat :=
  match s with
  | [] => []
  | d :: s' => (n / prod s') :: unravel s' (n mod prod s')
  end.

(** all in-bounds indices of a shape, row-major *)
Fixpoint all_idx (s : list nat) : list (list nat) :=
  match s with
  | [] => [[]]
  | d :: s' => flat_map (fun x => map (cons x) (all_idx s')) (seq 0 d)
  end.

(** ** Basic lemmas *)
Lemma inbb_inb i s : inbb i s = true <-> inb i s.
Proof.
  revert s; induction i as [|x i IH]; intros [|d s]; cbn; try (split; [discriminate|tauto]).
  - split; auto.
  - rewrite andb_true_iff, IH, Nat.ltb_lt. tauto.
Qed.

Lemma get_inb {A} (t : tensor A) i : inb i (shape t) -> get t i = Some (elt t i).
Proof. intros H; unfold get. apply inbb_inb in H; rewrite H; reflexivity. Qed.

Lemma get_not_inb {A} (t : tensor A) i : ~ inb i (shape t) -> get t i = None.
Proof.
  intros H; unfold get. destruct (inbb i (shape t)) eqn:E; [|reflexivity].
  apply inbb_inb in E; tauto.
Qed.

Lemma get_some {A} (t : tensor A) i v : get t i = Some v <-> inb i (shape t) /\ elt t i = v.
Proof.
  unfold get. destruct (inbb i (shape t)) eqn:E.
  - apply inbb_inb in E. split; [intros H; inversion H; auto | intros [_ H]; subst; auto].
  - split; [discriminate|]. intros [H _]; apply inbb_inb in H; congruence.
Qed.

Lemma inb_length i s : inb i s -> length i = length s.
Proof. revert s; induction i as [|x i IH]; intros [|d s]; cbn; try tauto. intros [_ H]; f_equal; auto. Qed.

Lemma inb_app i1 s1 i2 s2 : inb i1 s1 -> inb i2 s2 -> inb (i1 ++ i2) (s1 ++ s2).
Proof. revert s1; induction i1 as [|x i IH]; intros [|d s]; cbn; try tauto. intros [H1 H2] H; auto. Qed.

Lemma inb_app_inv i1 s1 i2 s2 : length i1 = length s1 -> inb (i1 ++ i2) (s1 ++ s2) -> inb i1 s1 /\ inb i2 s2.
Proof.
  revert s1; induction i1 as [|x i IH]; intros [|d s]; cbn; intros L H; try discriminate; auto.
  destruct H as [H1 H2]. injection L as L. destruct (IH _ L H2); auto.
Qed.

Lemma prod_app s1 s2 : prod (s1 ++ s2) = prod s1 * prod s2.
Proof. induction s1 as [|d s IH]; cbn; [lia|]. rewrite IH; lia. Qed.

Lemma ravel_lt s i : inb i s -> ravel s i < prod s.
Proof.
  revert i; induction s as [|d s IH]; intros [|x i]; cbn; try tauto; try lia.
  intros [H1 H2]. apply IH in H2. nia.
Qed.

Lemma unravel_ravel s i : inb i s -> unravel s (ravel s i) = i.
Proof.
  revert i; induction s as [|d s IH]; intros [|x i]; cbn; try tauto.
  intros [H1 H2]. pose proof (ravel_lt _ _ H2).
  rewrite Nat.div_add_l, Nat.div_small by lia.
  rewrite (Nat.add_comm (x * prod s)), Nat.mod_add, Nat.mod_small by lia.
  rewrite IH by assumption. f_equal; lia.
Qed.

Lemma unravel_inb s n : n < prod s -> inb (unravel s n) s.
Proof.
  revert n; induction s as [|d s IH]; intros n; cbn; [auto|]. intros H.
  assert (prod s <> 0) by nia.
  split.
  - apply Nat.div_lt_upper_bound; lia.
  - apply IH. apply Nat.mod_upper_bound; assumption.
Qed.

Lemma ravel_unravel s n : n < prod s -> ravel s (unravel s n) = n.
Proof.
  revert n; induction s as [|d s IH]; intros n; cbn; [lia|]. intros H.
  assert (prod s <> 0) by nia.
  rewrite IH by (apply Nat.mod_upper_bound; assumption).
  rewrite (Nat.div_mod n (prod s)) at 3 by assumption. lia.
Qed.

Lemma ravel_inj s i j : inb i s -> inb j s -> ravel s i = ravel s j -> i = j.
Proof. intros Hi Hj E. rewrite <- (unravel_ravel s i Hi), E. apply unravel_ravel; assumption. Qed.

Lemma all_idx_spec s i : In i (all_idx s) <-> inb i s.
Proof.
  revert i; induction s as [|d s IH]; intros i; cbn.
  - destruct i; cbn; split; intros H; auto; try tauto. destruct H; [discriminate|tauto].
  - rewrite in_flat_map. split.
    + intros [x [Hx Hi]]. apply in_map_iff in Hi. destruct Hi as [i' [E Hi]]; subst.
      apply in_seq in Hx. apply IH in Hi. cbn; split; [lia|assumption].
    + destruct i as [|x i]; cbn; [tauto|]. intros [Hx Hi].
      exists x; split; [apply in_seq; lia|]. apply in_map, IH, Hi.
Qed.

(** ** torch primitives *)

(** torch.arange(n): RuntimeError when n is negative. *)
Definition arange (n : Z) : res (tensor Z) :=
  if (n <? 0)%Z then Err RuntimeError
  else Ok (mk [Z.to_nat n] (fun i => Z.of_nat (nth 0 i 0))).

(** t.reshape / t.view to a fully known shape *)
Definition reshape_to {A} (s : list nat) (t : tensor A) : res (tensor A) :=
  if prod s =? numel t
  then Ok (mk s (fun i => elt t (unravel (shape t) (ravel s i))))
  else Err RuntimeError.

(** resolve a target shape that may contain one -1 (ATen infer_size) *)
Definition infer_dims (dims : list Z) (n : nat) : res (list nat) :=
  let known := prod (map Z.to_nat (filter (fun d => negb (d =? -1)%Z) dims)) in
  let holes := length (filter (fun d => (d =? -1)%Z) dims) in
  if existsb (fun d => (d <? -1)%Z) dims then Err RuntimeError
  else match holes with
  | 0 => Ok (map Z.to_nat dims)
  | 1 => if known =? 0 then Err RuntimeError
         else if n mod known =? 0
         then Ok (map (fun d => if (d =? -1)%Z then n / known else Z.to_nat d) dims)
         else Err RuntimeError
  | _ => Err RuntimeError
  end.
Definition reshape {A} (dims : list Z) (t : tensor A) : res (tensor A) :=
  let* s := infer_dims dims (numel t) in reshape_to s t.

Lemma get_reshape_to {A} s (t r : tensor A) i j :
  reshape_to s t = Ok r -> inb i s -> inb j (shape t) ->
  ravel s i = ravel (shape t) j -> shape r = s /\ get r i = get t j.
Proof.
  unfold reshape_to. destruct (prod s =? numel t); [|discriminate].
  intros H Hi Hj E. inversion H; subst; cbn. split; [reflexivity|].
  rewrite !get_inb by (cbn; assumption). cbn. rewrite E, unravel_ravel by assumption. reflexivity.
Qed.

(** list update / swap *)
Fixpoint set_nth {A} (n : nat) (a : A) (l : list A) : list A :=
  match l, n with
  | [], _ => []
  | _ :: l', 0 => a :: l'
  | b :: l', S n' => b :: set_nth n' a l'
  end.
Definition swap_nth {A} (d : A) (i j : nat) (l : list A) : list A :=
  set_nth i (nth j l d) (set_nth j (nth i l d) l).

(** a torch dimension argument: negative counts from the end, IndexError out of range *)
Definition norm_dim (d : Z) (n : nat) : res nat :=
  let d' := if (d <? 0)%Z then (d + Z.of_nat n)%Z else d in
  if ((d' <? 0) || (Z.of_nat n <=? d'))%Z then Err IndexError else Ok (Z.to_nat d').

(** t.transpose(d0, d1) *)
Definition transpose {A} (d0 d1 : Z) (t : tensor A) : res (tensor A) :=
  let* i := norm_dim d0 (ndim t) in
  let* j := norm_dim d1 (ndim t) in
  Ok (mk (swap_nth 0 i j (shape t)) (fun x => elt t (swap_nth 0 i j x))).

(** t[None] *)
Definition unsqueeze0 {A} (t : tensor A) : tensor A :=
  mk (1 :: shape t) (fun i => elt t (tl i)).

(** t.repeat(reps) with as many repeats as dims *)
Fixpoint zip_with {A B C} (f : A -> B -> C) (l : list A) (m : list B) : list C :=
  match l, m with a :: l', b :: m' => f a b :: zip_with f l' m' | _, _ => [] end.
Definition repeat_t {A} (reps : list nat) (t : tensor A) : tensor A :=
  mk (zip_with Nat.mul (shape t) reps)
     (fun i => elt t (zip_with Nat.modulo i (shape t))).

(** broadcasting (right aligned; size-1 dims are expanded) *)
Definition bdim (a b : nat) : res nat :=
  if a =? b then Ok a else if a =? 1 then Ok b else if b =? 1 then Ok a else Err RuntimeError.
Fixpoint bshape_rev (a b : list nat) : res (list nat) :=
  match a, b with
  | [], _ => Ok b
  | _, [] => Ok a
  | x :: a', y :: b' => let* d := bdim x y in let* r := bshape_rev a' b' in Ok (d :: r)
  end.
Definition bshape (a b : list nat) : res (list nat) :=
  let* r := bshape_rev (rev a) (rev b) in Ok (rev r).
Definition bidx (s i : list nat) : list nat :=
  zip_with (fun d x => if d =? 1 then 0 else x) s (skipn (length i - length s) i).
Definition bzip {A B C} (f : A -> B -> C) (a : tensor A) (b : tensor B) : res (tensor C) :=
  let* s := bshape (shape a) (shape b) in
  Ok (mk s (fun i => f (elt a (bidx (shape a) i)) (elt b (bidx (shape b) i)))).
(** in-place  a += b : the broadcast shape must be a's *)
Definition bzip_inplace {A B} (f : A -> B -> A) (a : tensor A) (b : tensor B) : res (tensor A) :=
  let* r := bzip f a b in
  if list_eq_dec Nat.eq_dec (shape r) (shape a) then Ok r else Err RuntimeError.

Lemma bdim_refl a : bdim a a = Ok a.
Proof. unfold bdim; rewrite Nat.eqb_refl; reflexivity. Qed.
Lemma bdim_1_r a : bdim a 1 = Ok a.
Proof. unfold bdim. destruct (a =? 1) eqn:E; [|reflexivity]. apply Nat.eqb_eq in E; subst; reflexivity. Qed.
Lemma bdim_1_l a : bdim 1 a = Ok a.
Proof. unfold bdim. destruct (1 =? a) eqn:E; [|reflexivity]. apply Nat.eqb_eq in E; subst; reflexivity. Qed.

(** torch.take(x, idx) (flat index; negative wraps once; IndexError out of range) *)
Definition take {A} (x : tensor A) (idx : tensor Z) : res (tensor A) :=
  let n := Z.of_nat (numel x) in
  if forallb (fun i => let k := elt idx i in ((- n <=? k) && (k <? n))%Z) (all_idx (shape idx))
  then Ok (mk (shape idx) (fun i =>
         let k := elt idx i in
         let k := (if k <? 0 then k + n else k)%Z in
         elt x (unravel (shape x) (Z.to_nat k))))
  else Err IndexError.

(** torch.take_along_dim(x, idx, axis=-1), equal leading dims (no broadcasting needed):
    RuntimeError if an index is outside [0, size) *)
Definition take_along_last {A} (x : tensor A) (idx : tensor Z) : res (tensor A) :=
  if list_eq_dec Nat.eq_dec (removelast (shape x)) (removelast (shape idx)) then
    let n := Z.of_nat (last (shape x) 0) in
    if forallb (fun i => let k := elt idx i in ((0 <=? k) && (k <? n))%Z) (all_idx (shape idx))
    then Ok (mk (shape idx) (fun i => elt x (removelast i ++ [Z.to_nat (elt idx i)])))
    else Err RuntimeError
  else Err RuntimeError.

(** torch.split(x, [a, b], dim=-1) *)
Definition split2_last {A} (a b : Z) (x : tensor A) : res (tensor A * tensor A) :=
  match shape x with
  | [] => Err RuntimeError
  | _ =>
    if ((a <? 0) || (b <? 0) || negb (a + b =? Z.of_nat (last (shape x) 0%nat)))%Z then Err RuntimeError
    else Ok (mk (removelast (shape x) ++ [Z.to_nat a]) (elt x),
             mk (removelast (shape x) ++ [Z.to_nat b])
                (fun i => elt x (removelast i ++ [last i 0 + Z.to_nat a])))
  end.

(** torch.nn.functional.unfold(x, (1, k), dilation=(1, d)) on a 4D (N, C, H, W) input (padding 0,
    stride 1).  RuntimeError for a non-4D input (a 3D input, unbatched, is not reachable from the
    modelled callers), an empty C, H or W, a non-positive kernel or dilation, or if no block fits. *)
Definition unfold_1k {A} (k d : Z) (x : tensor A) : res (tensor A) :=
  match shape x with
  | [n; c; h; w] =>
    let lw := (Z.of_nat w - d * (k - 1))%Z in
    if ((k <=? 0) || (d <=? 0) || (lw <=? 0))%Z || (c =? 0) || (h =? 0) || (w =? 0) then Err RuntimeError
    else
      let kn := Z.to_nat k in let dn := Z.to_nat d in let lwn := Z.to_nat lw in
      Ok (mk [n; c * kn; h * lwn]
             (fun i => match i with
                       | [b; ck; l] =>
                         elt x [b; ck / kn; l / lwn; l mod lwn + dn * (ck mod kn)]
                       | _ => elt x i
                       end))
  | _ => Err RuntimeError
  end.

(** torch.randint(lo, hi, size): RuntimeError when lo >= hi.  [rng] is an arbitrary entropy source
    (one number per index): every tensor of values in [lo, hi) is the result for some [rng], and every
    result has values in [lo, hi). *)
Definition randint (lo hi : Z) (s : list nat) (rng : list nat -> Z) : res (tensor Z) :=
  if (hi <=? lo)%Z then Err RuntimeError
  else Ok (mk s (fun i => (lo + (rng i) mod (hi - lo))%Z)).

Lemma randint_range lo hi s rng r i : randint lo hi s rng = Ok r -> (lo <= elt r i < hi)%Z.
Proof.
  unfold randint. destruct (Z.leb_spec hi lo); [discriminate|].
  intros H1; inversion H1; subst; cbn.
  pose proof (Z.mod_pos_bound (rng i) (hi - lo)). lia.
Qed.

Lemma randint_onto lo hi s (f : list nat -> Z) :
  (lo < hi)%Z -> (forall i, lo <= f i < hi)%Z ->
  exists rng r, randint lo hi s rng = Ok r /\ shape r = s /\ forall i, elt r i = f i.
Proof.
  intros H Hf. exists (fun i => (f i - lo)%Z).
  unfold randint. destruct (Z.leb_spec hi lo); [lia|].
  eexists; split; [reflexivity|]; cbn; split; [reflexivity|]. intros i.
  rewrite Z.mod_small; [lia|]. specialize (Hf i); lia.
Qed.
