(** Common base: Python exceptions as values, Python integers and slices. *)
From Coq Require Export List Arith ZArith Bool Lia.
From Coq Require Export ZifyBool ZifyNat.
Export ListNotations.
Ltac Zify.zify_post_hook ::= Z.div_mod_to_equations.

Global Arguments Nat.ltb : simpl never.
Global Arguments Nat.leb : simpl never.
Global Arguments Nat.div : simpl never.
Global Arguments Nat.modulo : simpl never.
Global Arguments Z.of_nat : simpl never.
Global Arguments Z.to_nat : simpl never.
Global Arguments Z.add : simpl never.
Global Arguments Z.sub : simpl never.
Global Arguments Z.mul : simpl never.
Global Arguments Z.div : simpl never.
Global Arguments Z.modulo : simpl never.
Global Arguments Z.ltb : simpl never.
Global Arguments Z.leb : simpl never.

(** The exception classes that the modelled code (or the torch / numpy primitives it calls) raises. *)
Inductive exn :=
| ValueError | IndexError | RuntimeError | TypeError | KeyError | AssertionError
| NotImplementedError | UnboundLocalError | ZeroDivisionError | AttributeError.

(** Result of a Python call: a value or a raised exception. *)
Inductive res (A : Type) := Ok (a : A) | Err (e : exn).
Arguments Ok {A} a.
Arguments Err {A} e.

Definition bind {A B} (r : res A) (f : A -> res B) : res B :=
  match r with Ok a => f a | Err e => Err e end.
Notation "'let*' x := r 'in' k" := (bind r (fun x => k))
  (at level 200, x pattern, r at level 100, k at level 200, only parsing).
Definition rmap {A B} (f : A -> B) (r : res A) : res B :=
  match r with Ok a => Ok (f a) | Err e => Err e end.

Definition is_ok {A} (r : res A) : Prop := exists a, r = Ok a.
Definition is_err {A} (r : res A) : Prop := exists e, r = Err e.

(** Sequence a list of computations (Python: a loop or comprehension, first exception wins). *)
Fixpoint sequence {A} (l : list (res A)) : res (list A) :=
  match l with
  | [] => Ok []
  | r :: l' => let* a := r in let* rest := sequence l' in Ok (a :: rest)
  end.

Lemma bind_ok {A B} (r : res A) (f : A -> res B) b :
  bind r f = Ok b <-> exists a, r = Ok a /\ f a = Ok b.
Proof.
  destruct r as [a|e]; cbn; split; intros H.
  - exists a; auto.
  - destruct H as [a' [Ha Hb]]; inversion Ha; subst; auto.
  - discriminate.
  - destruct H as [a' [Ha _]]; discriminate.
Qed.

Lemma sequence_map_ok {A B} (f : A -> res B) (g : A -> B) l :
  (forall a, In a l -> f a = Ok (g a)) -> sequence (map f l) = Ok (map g l).
Proof.
  induction l as [|a l IH]; cbn; intros H; [reflexivity|].
  rewrite (H a (or_introl eq_refl)); cbn.
  rewrite IH; [reflexivity|]. intros b Hb; apply H; right; exact Hb.
Qed.

Lemma sequence_length {A} (l : list (res A)) r : sequence l = Ok r -> length r = length l.
Proof.
  revert r; induction l as [|a l IH]; cbn; intros r H.
  - inversion H; reflexivity.
  - destruct a as [a|e]; cbn in H; [|discriminate].
    destruct (sequence l) as [rest|e]; cbn in H; [|discriminate].
    inversion H; subst; cbn; f_equal; apply IH; reflexivity.
Qed.

(** ** Python slices [l[a:b]] with step 1.
    CPython's PySlice_AdjustIndices: a negative bound has the length added, then both
    are clamped to [0, len]; [None] means the respective end. *)
Definition py_clamp (len : Z) (i : Z) : Z :=
  let i := if (i <? 0)%Z then (i + len)%Z else i in Z.max 0 (Z.min i len).
Definition slice_lo (len : Z) (a : option Z) : Z :=
  match a with None => 0%Z | Some i => py_clamp len i end.
Definition slice_hi (len : Z) (b : option Z) : Z :=
  match b with None => len | Some i => py_clamp len i end.

Definition pyslice {A} (a b : option Z) (l : list A) : list A :=
  let n := Z.of_nat (length l) in
  let lo := slice_lo n a in let hi := slice_hi n b in
  firstn (Z.to_nat (hi - lo)) (skipn (Z.to_nat lo) l).

(** Python indexing [l[i]] of a list, negative indices count from the end. *)
Definition pyindex {A} (l : list A) (i : Z) : res A :=
  let n := Z.of_nat (length l) in
  let j := if (i <? 0)%Z then (i + n)%Z else i in
  if (j <? 0)%Z then Err IndexError else
  match nth_error l (Z.to_nat j) with Some a => Ok a | None => Err IndexError end.

Lemma pyslice_length {A} (a b : option Z) (l : list A) :
  length (pyslice a b l)
  = Z.to_nat (slice_hi (Z.of_nat (length l)) b - slice_lo (Z.of_nat (length l)) a).
Proof.
  unfold pyslice; rewrite firstn_length, skipn_length.
  assert (0 <= slice_lo (Z.of_nat (length l)) a <= Z.of_nat (length l))%Z
    by (destruct a; unfold slice_lo, py_clamp; cbn; lia).
  assert (slice_hi (Z.of_nat (length l)) b <= Z.of_nat (length l))%Z
    by (destruct b; unfold slice_hi, py_clamp; cbn; lia).
  lia.
Qed.

Lemma nth_error_firstn {A} (l : list A) n i :
  nth_error (firstn n l) i = if i <? n then nth_error l i else None.
Proof.
  revert n i; induction l as [|a l IH]; intros [|n] [|i]; cbn; auto.
  - destruct (S i <? S n)%nat; reflexivity.
  - rewrite IH. reflexivity.
Qed.

Lemma nth_error_skipn {A} (l : list A) n i : nth_error (skipn n l) i = nth_error l (n + i).
Proof. revert l; induction n as [|n IH]; intros [|a l]; cbn; auto. destruct i; reflexivity. Qed.

Lemma nth_error_pyslice {A} (a b : option Z) (l : list A) i :
  i < length (pyslice a b l) ->
  nth_error (pyslice a b l) i
  = nth_error l (Z.to_nat (slice_lo (Z.of_nat (length l)) a) + i).
Proof.
  intros H. rewrite pyslice_length in H. unfold pyslice.
  rewrite nth_error_firstn, nth_error_skipn.
  destruct (Nat.ltb_spec i (Z.to_nat (slice_hi (Z.of_nat (length l)) b - slice_lo (Z.of_nat (length l)) a)));
    [reflexivity|lia].
Qed.

Lemma nth_error_map' {A B} (f : A -> B) l i :
  nth_error (map f l) i = option_map f (nth_error l i).
Proof. revert i; induction l as [|a l IH]; intros [|i]; cbn; auto. Qed.

Lemma nth_error_seq s n i : i < n -> nth_error (seq s n) i = Some (s + i).
Proof.
  revert s i; induction n as [|n IH]; intros s [|i] H; cbn; try lia.
  - f_equal; lia.
  - rewrite IH by lia. f_equal; lia.
Qed.

Lemma list_eq_nth_error {A} (l1 l2 : list A) :
  (forall i, nth_error l1 i = nth_error l2 i) -> l1 = l2.
Proof.
  revert l2; induction l1 as [|a l1 IH]; intros [|b l2] H; auto.
  - specialize (H 0); discriminate.
  - specialize (H 0); discriminate.
  - pose proof (H 0) as H0; cbn in H0; inversion H0; subst.
    f_equal; apply IH; intros i; exact (H (S i)).
Qed.

Lemma sequence_map_spec {B D} (f : B -> res D) l :
  (forall b, In b l -> exists v, f b = Ok v) ->
  exists r, sequence (map f l) = Ok r /\ length r = length l /\
    forall i v, nth_error r i = Some v -> exists b, nth_error l i = Some b /\ f b = Ok v.
Proof.
  induction l as [|b l IH]; intros H.
  - exists []. split; [reflexivity|]. split; [reflexivity|]. intros [|i] v; discriminate.
  - destruct (H b (or_introl eq_refl)) as [v Ev].
    destruct IH as [r [E [L G]]]; [intros; apply H; right; assumption|].
    exists (v :: r). cbn. rewrite Ev. cbn. rewrite E. cbn. split; [reflexivity|]. split; [congruence|].
    intros [|i] v' Hv; cbn in *.
    + injection Hv as <-. eauto.
    + apply G, Hv.
Qed.

Lemma concat_blocks_length {B} (ll : list (list B)) n : (forall l, In l ll -> length l = n) -> length (concat ll) = length ll * n.
Proof.
  induction ll as [|l ll IH]; intros H; [reflexivity|]. cbn. rewrite app_length, IH, (H l); [reflexivity|now left|].
  intros; apply H; now right.
Qed.

Lemma nth_error_concat_blocks {B} (ll : list (list B)) n i : (forall l, In l ll -> length l = n) -> 0 < n ->
  nth_error (concat ll) i = match nth_error ll (i / n) with Some l => nth_error l (i mod n) | None => None end.
Proof.
  revert i; induction ll as [|l ll IH]; intros i H Hn.
  - cbn. destruct i, (_ / n); reflexivity.
  - cbn [concat]. assert (Hl : length l = n) by (apply H; now left).
    destruct (Nat.ltb_spec i n) as [Hi|Hi].
    + rewrite nth_error_app1 by lia. rewrite Nat.div_small, Nat.mod_small by lia. reflexivity.
    + rewrite nth_error_app2 by lia. rewrite Hl, IH by (try assumption; intros; apply H; now right).
      assert (E : i = (i - n) + 1 * n) by lia.
      assert (E1 : i / n = S ((i - n) / n)) by (rewrite E at 1; rewrite Nat.div_add by lia; lia).
      assert (E2 : i mod n = (i - n) mod n) by (rewrite E at 1; rewrite Nat.mod_add by lia; reflexivity).
      rewrite E1, E2. reflexivity.
Qed.
