(** Finite probability distributions: lists of weighted outcomes. *)
From Coq Require Import Reals Lra Lia List Permutation.
Import ListNotations.
Local Open Scope R_scope.
Definition dist (A : Type) := list (R * A).
Definition ret {A} (a : A) : dist A := [(1, a)].
Definition dbind {A B} (d : dist A) (f : A -> dist B) : dist B := flat_map (fun wa => map (fun vb => (fst wa * fst vb, snd vb)) (f (snd wa))) d.
(** sum of a list of reals *)
Fixpoint lsum {A} (f : A -> R) (l : list A) : R := match l with [] => 0 | a :: l' => f a + lsum f l' end.
(** probability of an event *)
Definition pr {A} (d : dist A) (E : A -> bool) : R := lsum (fun wa => if E (snd wa) then fst wa else 0) d.
Definition mass {A} (d : dist A) : R := lsum fst d.
(** one of the listed values, with probability proportional to its weight *)
Definition categorical {A} (w : A -> R) (l : list A) : dist A := map (fun a => (w a / lsum w l, a)) l.
(** one of 0..n-1, all equally likely *)
Definition uniform_nat (n : nat) : dist nat := map (fun i => (/ INR n, i)) (seq 0 n).

Lemma lsum_app {A} (f : A -> R) l m : lsum f (l ++ m) = lsum f l + lsum f m.
Proof. induction l as [|a l IH]; cbn; [lra|]. rewrite IH. lra. Qed.
Lemma lsum_ext {A} (f g : A -> R) l : (forall a, In a l -> f a = g a) -> lsum f l = lsum g l.
Proof. induction l as [|a l IH]; intros H; cbn; [reflexivity|]. rewrite H by (left; reflexivity). rewrite IH; [reflexivity|]. intros b Hb. apply H. right. exact Hb. Qed.
Lemma lsum_map {A B} (h : A -> B) (f : B -> R) l : lsum f (map h l) = lsum (fun a => f (h a)) l.
Proof. induction l as [|a l IH]; cbn; [reflexivity|]. rewrite IH. reflexivity. Qed.
Lemma lsum_scal {A} c (f : A -> R) l : lsum (fun a => c * f a) l = c * lsum f l.
Proof. induction l as [|a l IH]; cbn; [lra|]. rewrite IH. lra. Qed.
Lemma lsum_perm {A} (f : A -> R) l m : Permutation l m -> lsum f l = lsum f m.
Proof. induction 1; cbn; lra. Qed.
Lemma lsum_pos {A} (f : A -> R) l : l <> [] -> (forall a, In a l -> 0 < f a) -> 0 < lsum f l.
Proof.
  intros Hn H. destruct l as [|a l]; [congruence|]. cbn. assert (0 < f a) by (apply H; left; reflexivity). assert (0 <= lsum f l); [|lra].
  assert (K : forall b, In b l -> 0 < f b) by (intros b Hb; apply H; right; exact Hb). clear -K. induction l as [|b l IH]; cbn; [lra|]. assert (0 < f b) by (apply K; left; reflexivity). assert (0 <= lsum f l) by (apply IH; intros c Hc; apply K; right; exact Hc). lra.
Qed.
Lemma pr_bind {A B} (d : dist A) (f : A -> dist B) E : pr (dbind d f) E = lsum (fun wa => fst wa * pr (f (snd wa)) E) d.
Proof.
  unfold pr, dbind. induction d as [|[w a] d IH]; cbn [flat_map lsum fst snd]; [reflexivity|]. rewrite lsum_app, IH. f_equal.
  rewrite lsum_map, <- lsum_scal. apply lsum_ext. intros [v b] _. cbn. destruct (E b); lra.
Qed.
Lemma mass_pr {A} (d : dist A) : mass d = pr d (fun _ => true). Proof. reflexivity. Qed.
(** the same conditional probability for every outcome of the first step *)
Lemma pr_bind_const {A B} (d : dist A) (f : A -> dist B) E c : (forall w a, In (w, a) d -> pr (f a) E = c) -> pr (dbind d f) E = mass d * c.
Proof. intros H. rewrite pr_bind. unfold mass. rewrite Rmult_comm, <- lsum_scal. apply lsum_ext. intros [w a] Hin. cbn [fst snd]. rewrite (H w a Hin). lra. Qed.
Lemma in_bind {A B} (d : dist A) (f : A -> dist B) v b : In (v, b) (dbind d f) -> exists w a u, In (w, a) d /\ In (u, b) (f a).
Proof. unfold dbind. intros H. apply in_flat_map in H as ([w a] & H1 & H2). apply in_map_iff in H2 as ([u b'] & E & H3). cbn in E. injection E as _ <-. exists w, a, u. split; assumption. Qed.
Lemma categorical_mass {A} (w : A -> R) l : lsum w l <> 0 -> mass (categorical w l) = 1.
Proof. intros H. unfold mass, categorical. rewrite lsum_map. cbn [fst]. unfold Rdiv. rewrite (lsum_ext _ (fun a => / lsum w l * w a)) by (intros; lra). rewrite lsum_scal. field. exact H. Qed.
Lemma pr_categorical {A} (w : A -> R) l E : pr (categorical w l) E = lsum (fun a => if E a then w a else 0) l / lsum w l.
Proof.
  unfold pr, categorical. rewrite lsum_map. cbn [fst snd]. unfold Rdiv. rewrite (lsum_ext _ (fun a => / lsum w l * (if E a then w a else 0))) by (intros a _; destruct (E a); lra). rewrite lsum_scal. lra.
Qed.
Lemma lsum_single {A} (f : A -> R) (E : A -> bool) l a : NoDup l -> In a l -> (forall b, In b l -> E b = true <-> b = a) -> lsum (fun b => if E b then f b else 0) l = f a.
Proof.
  intros ND Hin HE. induction l as [|b l IH]; [destruct Hin|]. cbn [lsum]. inversion ND as [|? ? Hb ND']; subst. destruct Hin as [->|Hin].
  - destruct (E a) eqn:Ea; [|assert (E a = true) by (apply HE; [left|]; reflexivity); congruence].
    rewrite (lsum_ext _ (fun _ => 0)). { clear. assert (lsum (fun _ : A => 0) l = 0) by (induction l; cbn; lra). lra. }
    intros c Hc. destruct (E c) eqn:Ec; [|reflexivity]. apply HE in Ec; [|right; exact Hc]. subst. contradiction.
  - destruct (E b) eqn:Eb. { apply HE in Eb; [|left; reflexivity]. subst. contradiction. } rewrite IH; [lra|exact ND'|exact Hin|]. intros c Hc. apply HE. right. exact Hc.
Qed.
Lemma lsum_zero {A} (f : A -> R) l : (forall a, In a l -> f a = 0) -> lsum f l = 0.
Proof. intros H. rewrite (lsum_ext _ (fun _ => 0)) by exact H. clear. induction l; cbn; lra. Qed.
Lemma lsum_const {A} c (l : list A) : lsum (fun _ => c) l = INR (length l) * c.
Proof. induction l as [|a l IH]; cbn [lsum length]; [cbn; lra|]. rewrite IH, S_INR. lra. Qed.
Lemma pr_uniform n E : pr (uniform_nat n) E = lsum (fun i => if E i then / INR n else 0) (seq 0 n).
Proof. unfold pr, uniform_nat. rewrite lsum_map. reflexivity. Qed.
Lemma uniform_mass n : (0 < n)%nat -> mass (uniform_nat n) = 1.
Proof. intros H. unfold mass, uniform_nat. rewrite lsum_map. cbn [fst]. rewrite lsum_const, seq_length. apply Rinv_r. apply not_0_INR. lia. Qed.
