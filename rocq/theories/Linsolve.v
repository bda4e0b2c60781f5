(** torch.linalg.solve for a square real system, as exact Gaussian elimination with row exchange: LU fails exactly on
    singular matrices. *)
From Verif Require Import Base Rutil.
Local Open Scope R_scope.

Definition mvec (n : nat) (A : nat -> nat -> R) (x : nat -> R) (i : nat) : R := Rsum n (fun j => A i j * x j).
(** the first of the n rows with a non-zero value *)
Fixpoint find_pivot (n : nat) (f : nat -> R) : option nat :=
  match n with
  | O => None
  | S m => match find_pivot m f with Some p => Some p | None => if Req_EM_T (f m) 0 then None else Some m end
  end.
Definition swap (p i : nat) : nat := if (i =? 0)%nat then p else if (i =? p)%nat then 0%nat else i.
Fixpoint gsolve (n : nat) (A : nat -> nat -> R) (b : nat -> R) : option (nat -> R) :=
  match n with
  | O => Some (fun _ => 0)
  | S m =>
    match find_pivot (S m) (fun i => A i 0%nat) with
    | None => None
    | Some p =>
      let A' := fun i => A (swap p i) in let b' := fun i => b (swap p i) in
      match gsolve m (fun i j => A' (S i) (S j) - A' (S i) 0%nat / A' 0%nat 0%nat * A' 0%nat (S j))
                     (fun i => b' (S i) - A' (S i) 0%nat / A' 0%nat 0%nat * b' 0%nat) with
      | None => None
      | Some y => Some (fun j => match j with O => (b' 0%nat - Rsum m (fun j => A' 0%nat (S j) * y j)) / A' 0%nat 0%nat | S j => y j end)
      end
    end
  end.

Lemma find_pivot_spec n f : match find_pivot n f with Some p => (p < n)%nat /\ f p <> 0 | None => forall i, (i < n)%nat -> f i = 0 end.
Proof.
  induction n as [|n IH]; cbn; [lia|]. destruct (find_pivot n f) as [p|]; [destruct IH; split; [lia|assumption]|].
  destruct (Req_EM_T (f n) 0) as [E|E]; [|split; [lia|assumption]]. intros i Hi. destruct (Nat.eq_dec i n) as [->|]; [assumption|apply IH; lia].
Qed.
Lemma swap_lt p i n : (p < n)%nat -> (i < n)%nat -> (swap p i < n)%nat.
Proof. unfold swap. destruct (i =? 0)%nat eqn:E; [lia|]. destruct (i =? p)%nat; lia. Qed.
Lemma swap_swap p i : swap p (swap p i) = i.
Proof. unfold swap. destruct (Nat.eqb_spec i 0) as [->|]; [destruct (Nat.eqb_spec p 0) as [->|]; [reflexivity|]; rewrite Nat.eqb_refl; reflexivity|].
  destruct (Nat.eqb_spec i p) as [->|]; [reflexivity|]. destruct (Nat.eqb_spec i 0); [lia|]. destruct (Nat.eqb_spec i p); lia. Qed.
Lemma swap_all p n (E : nat -> Prop) : (p < n)%nat -> ((forall i, (i < n)%nat -> E (swap p i)) <-> (forall i, (i < n)%nat -> E i)).
Proof. intros Hp. split; intros H i Hi; [|apply H, swap_lt; assumption]. rewrite <- (swap_swap p i). apply H, swap_lt; assumption. Qed.
(** eliminating the first unknown *)
Lemma eliminate m (A : nat -> nat -> R) b x : A 0%nat 0%nat <> 0 ->
  ((forall i, (i < S m)%nat -> mvec (S m) A x i = b i) <->
   x 0%nat = (b 0%nat - Rsum m (fun j => A 0%nat (S j) * x (S j))) / A 0%nat 0%nat /\
   forall i, (i < m)%nat -> mvec m (fun i j => A (S i) (S j) - A (S i) 0%nat / A 0%nat 0%nat * A 0%nat (S j)) (fun j => x (S j)) i
                        = b (S i) - A (S i) 0%nat / A 0%nat 0%nat * b 0%nat).
Proof.
  intros NZ. set (r := Rsum m (fun j => A 0%nat (S j) * x (S j))).
  assert (R0 : mvec (S m) A x 0%nat = A 0%nat 0%nat * x 0%nat + r) by (unfold mvec; rewrite Rsum_S_l; reflexivity).
  assert (RS : forall i, mvec (S m) A x (S i) = A (S i) 0%nat * x 0%nat + Rsum m (fun j => A (S i) (S j) * x (S j))) by (intros i; unfold mvec; rewrite Rsum_S_l; reflexivity).
  assert (RE : forall i, mvec m (fun i j => A (S i) (S j) - A (S i) 0%nat / A 0%nat 0%nat * A 0%nat (S j)) (fun j => x (S j)) i
     = Rsum m (fun j => A (S i) (S j) * x (S j)) - A (S i) 0%nat / A 0%nat 0%nat * r).
  { intros i. unfold mvec, r. rewrite <- Rsum_scal, <- Rsum_minus. apply Rsum_ext. intros j _. ring. }
  split.
  - intros H. pose proof (H 0%nat ltac:(lia)) as H0. rewrite R0 in H0.
    assert (X0 : x 0%nat = (b 0%nat - r) / A 0%nat 0%nat) by (rewrite <- H0; field; assumption). split; [exact X0|].
    intros i Hi. pose proof (H (S i) ltac:(lia)) as Hs. rewrite RS in Hs. rewrite RE, <- Hs, X0. field. assumption.
  - intros [X0 H] i Hi. destruct i as [|i].
    + rewrite R0, X0. field. assumption.
    + rewrite RS. specialize (H i ltac:(lia)). rewrite RE in H. rewrite X0.
      replace (Rsum m (fun j => A (S i) (S j) * x (S j))) with (b (S i) - A (S i) 0%nat / A 0%nat 0%nat * b 0%nat + A (S i) 0%nat / A 0%nat 0%nat * r) by lra. field. assumption.
Qed.
Lemma mvec_ext n A A' x x' i : (forall j, (j < n)%nat -> A i j = A' i j) -> (forall j, (j < n)%nat -> x j = x' j) -> mvec n A x i = mvec n A' x' i.
Proof. intros H1 H2. unfold mvec. apply Rsum_ext. intros j Hj. rewrite H1, H2 by assumption. reflexivity. Qed.
(** a returned vector solves the system *)
Theorem gsolve_sound n : forall A b x, gsolve n A b = Some x -> forall i, (i < n)%nat -> mvec n A x i = b i.
Proof.
  induction n as [|m IH]; intros A b x E; [lia|]. cbn [gsolve] in E. pose proof (find_pivot_spec (S m) (fun i => A i 0%nat)) as FP.
  destruct (find_pivot (S m) (fun i => A i 0%nat)) as [p|]; [|discriminate]. destruct FP as [Hp NZ]. cbv zeta in E.
  destruct (gsolve m _ _) as [y|] eqn:Ey; [|discriminate]. injection E as <-.
  apply (proj1 (swap_all p (S m) (fun i => mvec (S m) A _ i = b i) Hp)).
  assert (Q : forall i, (i < S m)%nat -> mvec (S m) (fun i => A (swap p i)) (fun j => match j with O => (b (swap p 0) - Rsum m (fun j => A (swap p 0) (S j) * y j)) / A (swap p 0) 0%nat | S j => y j end) i = b (swap p i)).
  { apply (eliminate m (fun i => A (swap p i)) (fun i => b (swap p i))); [exact NZ|]. split; [reflexivity|]. apply (IH _ _ _ Ey). }
  exact Q.
Qed.
(** and it is the only one *)
Theorem gsolve_unique n : forall A b x, gsolve n A b = Some x -> forall c y z, (forall i, (i < n)%nat -> mvec n A y i = c i) -> (forall i, (i < n)%nat -> mvec n A z i = c i) ->
  forall j, (j < n)%nat -> y j = z j.
Proof.
  induction n as [|m IH]; intros A b x E c y z Hy Hz j Hj; [lia|]. cbn [gsolve] in E. pose proof (find_pivot_spec (S m) (fun i => A i 0%nat)) as FP.
  destruct (find_pivot (S m) (fun i => A i 0%nat)) as [p|]; [|discriminate]. destruct FP as [Hp NZ]. cbv zeta in E.
  destruct (gsolve m _ _) as [s|] eqn:Ey; [|discriminate]. clear E.
  pose proof (proj2 (swap_all p (S m) (fun i => mvec (S m) A y i = c i) Hp) Hy) as Ky. pose proof (proj2 (swap_all p (S m) (fun i => mvec (S m) A z i = c i) Hp) Hz) as Kz.
  apply (eliminate m (fun i => A (swap p i)) (fun i => c (swap p i)) y) in Ky; [|exact NZ]. apply (eliminate m (fun i => A (swap p i)) (fun i => c (swap p i)) z) in Kz; [|exact NZ].
  destruct Ky as [Y0 Ky]. destruct Kz as [Z0 Kz].
  assert (T : forall j, (j < m)%nat -> y (S j) = z (S j)) by (intros j' Hj'; exact (IH _ _ _ Ey _ (fun j => y (S j)) (fun j => z (S j)) Ky Kz j' Hj')).
  destruct j as [|j]; [|apply T; lia]. rewrite Y0, Z0. do 2 f_equal. apply Rsum_ext. intros i Hi. rewrite T by assumption. reflexivity.
Qed.
(** failure means a non-trivial kernel *)
Theorem gsolve_none n : forall A b, gsolve n A b = None -> exists v, (exists j, (j < n)%nat /\ v j <> 0) /\ forall i, (i < n)%nat -> mvec n A v i = 0.
Proof.
  induction n as [|m IH]; intros A b E; [discriminate|]. cbn [gsolve] in E. pose proof (find_pivot_spec (S m) (fun i => A i 0%nat)) as FP.
  destruct (find_pivot (S m) (fun i => A i 0%nat)) as [p|].
  - destruct FP as [Hp NZ]. cbv zeta in E. destruct (gsolve m _ _) as [s|] eqn:Ey; [discriminate|]. clear E.
    destruct (IH _ _ Ey) as [v [[j [Hj Nj]] Hv]].
    exists (fun j => match j with O => (0 - Rsum m (fun j => A (swap p 0) (S j) * v j)) / A (swap p 0) 0%nat | S j => v j end). split; [exists (S j); split; [lia|assumption]|].
    apply (proj1 (swap_all p (S m) (fun i => mvec (S m) A _ i = 0) Hp)).
    pose proof (eliminate m (fun i => A (swap p i)) (fun _ => 0) (fun j => match j with O => (0 - Rsum m (fun j => A (swap p 0) (S j) * v j)) / A (swap p 0) 0%nat | S j => v j end) NZ) as [_ Q].
    apply Q. split; [reflexivity|]. intros i Hi. rewrite Rmult_0_r, Rminus_0_r. apply Hv. assumption.
  - exists (fun j => match j with O => 1 | S _ => 0 end). split; [exists 0%nat; split; [lia|lra]|]. intros i Hi. unfold mvec. rewrite Rsum_S_l. rewrite FP by assumption.
    rewrite Rsum_0; [ring|]. intros j Hj. ring.
Qed.
Lemma gsolve_zero n A b : (exists v, (exists j, (j < n)%nat /\ v j <> 0) /\ forall i, (i < n)%nat -> mvec n A v i = 0) -> gsolve n A b = None.
Proof.
  intros [v [[j [Hj Nj]] Hv]]. destruct (gsolve n A b) as [x|] eqn:E; [|reflexivity]. exfalso. apply Nj.
  apply (gsolve_unique n A b x E (fun _ => 0) v (fun _ => 0) Hv); [|assumption]. intros i Hi. unfold mvec. apply Rsum_0. intros; ring.
Qed.
(** specification: the matrix is non-singular *)
Definition injective (n : nat) (A : nat -> nat -> R) : Prop := forall v, (forall i, (i < n)%nat -> mvec n A v i = 0) -> forall j, (j < n)%nat -> v j = 0.
Theorem gsolve_some_iff n A b : (exists x, gsolve n A b = Some x) <-> injective n A.
Proof.
  split.
  - intros [x E] v Hv j Hj. apply (gsolve_unique n A b x E (fun _ => 0) v (fun _ => 0) Hv); [|assumption]. intros i Hi. unfold mvec. apply Rsum_0. intros; ring.
  - intros H. destruct (gsolve n A b) as [x|] eqn:E; [eauto|]. exfalso. destruct (gsolve_none n A b E) as [v [[j [Hj Nj]] Hv]]. apply Nj. apply H; assumption.
Qed.
Lemma injective_ext n A A' : (forall i j, (i < n)%nat -> (j < n)%nat -> A i j = A' i j) -> injective n A -> injective n A'.
Proof. intros E H v Hv. apply H. intros i Hi. rewrite <- (Hv i Hi). apply mvec_ext; [intros; apply E; assumption|reflexivity]. Qed.
