(** A verified checker: a polynomial in two variables is non-negative on [0,1] x [0,1] if its Bernstein coefficients are.
    Not part of the model: a proof tool used for the ranges of the fits. *)
From Coq Require Import Reals Lra Lia QArith Qreals List Bool.
Import ListNotations.
Local Open Scope R_scope.

(** polynomial expressions in two variables *)
Inductive pex := Cst (n : Z) (d : positive) | Xu | Xw | Add (a b : pex) | Sub (a b : pex) | Mul (a b : pex) | Opp (a : pex).
Fixpoint pev (e : pex) (u w : R) : R :=
  match e with
  | Cst n d => IZR n / IZR (Zpos d) | Xu => u | Xw => w
  | Add a b => pev a u w + pev b u w | Sub a b => pev a u w - pev b u w | Mul a b => pev a u w * pev b u w | Opp a => - pev a u w
  end.
(** dense polynomials in w, then in u *)
Definition p1 := list Q.
Fixpoint e1 (p : p1) (w : R) : R := match p with [] => 0 | c :: p => Q2R c + w * e1 p w end.
Fixpoint add1 (a b : p1) : p1 := match a, b with [], b => b | a, [] => a | x :: a, y :: b => Qred (x + y)%Q :: add1 a b end.
Definition scale1 (c : Q) (a : p1) : p1 := map (fun x => Qred (c * x)%Q) a.
Fixpoint mul1 (a b : p1) : p1 := match a with [] => [] | x :: a => add1 (scale1 x b) (0%Q :: mul1 a b) end.
Definition p2 := list p1.
Fixpoint e2 (p : p2) (u w : R) : R := match p with [] => 0 | c :: p => e1 c w + u * e2 p u w end.
Fixpoint add2 (a b : p2) : p2 := match a, b with [], b => b | a, [] => a | x :: a, y :: b => add1 x y :: add2 a b end.
Definition mulc (c : p1) (a : p2) : p2 := map (mul1 c) a.
Fixpoint mul2 (a b : p2) : p2 := match a with [] => [] | x :: a => add2 (mulc x b) ([] :: mul2 a b) end.
Lemma Q2R_red q : Q2R (Qred q) = Q2R q. Proof. apply Qeq_eqR, Qred_correct. Qed.
Lemma e1_add a b w : e1 (add1 a b) w = e1 a w + e1 b w.
Proof. revert b. induction a as [|x a IH]; intros [|y b]; cbn [add1 e1]; try ring. rewrite IH, Q2R_red, Q2R_plus. ring. Qed.
Lemma e1_scale c a w : e1 (scale1 c a) w = Q2R c * e1 a w.
Proof. unfold scale1. induction a as [|x a IH]; cbn [map e1]; [ring|]. rewrite IH, Q2R_red, Q2R_mult. ring. Qed.
Lemma Q2R_0 : Q2R 0 = 0. Proof. unfold Q2R. cbn. lra. Qed.
Lemma e1_mul a b w : e1 (mul1 a b) w = e1 a w * e1 b w.
Proof. induction a as [|x a IH]; cbn [mul1 e1]; [ring|]. rewrite e1_add, e1_scale. cbn [e1]. rewrite IH, Q2R_0. ring. Qed.
Lemma e2_add a b u w : e2 (add2 a b) u w = e2 a u w + e2 b u w.
Proof. revert b. induction a as [|x a IH]; intros [|y b]; cbn [add2 e2]; try ring. rewrite IH, e1_add. ring. Qed.
Lemma e2_mulc c a u w : e2 (mulc c a) u w = e1 c w * e2 a u w.
Proof. unfold mulc. induction a as [|x a IH]; cbn [map e2]; [ring|]. rewrite IH, e1_mul. ring. Qed.
Lemma e2_mul a b u w : e2 (mul2 a b) u w = e2 a u w * e2 b u w.
Proof. induction a as [|x a IH]; cbn [mul2 e2]; [ring|]. rewrite e2_add, e2_mulc. cbn [e2 e1]. rewrite IH. ring. Qed.
Fixpoint norm (e : pex) : p2 :=
  match e with
  | Cst n d => [[Qred (n # d)]] | Xu => [[]; [1%Q]] | Xw => [[0%Q; 1%Q]]
  | Add a b => add2 (norm a) (norm b) | Sub a b => add2 (norm a) (mulc [(-1)%Q] (norm b)) | Mul a b => mul2 (norm a) (norm b) | Opp a => mulc [(-1)%Q] (norm a)
  end.
Lemma Q2R_m1 : Q2R (-1) = - 1. Proof. unfold Q2R. cbn. lra. Qed.
Lemma Q2R_1 : Q2R 1 = 1. Proof. unfold Q2R. cbn. lra. Qed.
Lemma norm_spec e u w : e2 (norm e) u w = pev e u w.
Proof.
  induction e as [n d| | |a IHa b IHb|a IHa b IHb|a IHa b IHb|a IHa]; cbn [norm pev]; rewrite ?e2_add, ?e2_mulc, ?e2_mul, ?IHa, ?IHb; cbn [e2 e1]; rewrite ?Q2R_red, ?Q2R_m1, ?Q2R_1, ?Q2R_0; try ring.
  unfold Q2R. cbn [Qnum Qden]. unfold Rdiv. ring.
Qed.
(** homogeneous form in (x, y), x + y = 1 *)
Section H1.
Variables x y : R.
Fixpoint h1 (c : p1) : R := match c with [] => 0 | a :: c => Q2R a * y ^ (List.length c) + x * h1 c end.
Lemma h1_app c : h1 (c ++ [0%Q]) = y * h1 c.
Proof. induction c as [|a c IH]; cbn [app h1]; [rewrite Q2R_0; cbn; ring|]. rewrite IH, app_length. cbn [List.length]. rewrite Nat.add_1_r. cbn [pow]. ring. Qed.
Lemma h1_add a b : List.length a = List.length b -> h1 (add1 a b) = h1 a + h1 b /\ List.length (add1 a b) = List.length a.
Proof.
  revert b. induction a as [|p a IH]; intros [|q b] L; try discriminate; cbn [add1 h1]; [split; [ring|reflexivity]|]. injection L as L. destruct (IH b L) as [E1 E2]. cbn [List.length]. rewrite E1, E2, Q2R_red, Q2R_plus, <- L. split; [ring|reflexivity].
Qed.
Lemma h1_scale q c : h1 (scale1 q c) = Q2R q * h1 c.
Proof. unfold scale1. induction c as [|a c IH]; cbn [map h1]; [ring|]. rewrite IH, Q2R_red, Q2R_mult, map_length. ring. Qed.
Definition up (c : p1) : p1 := add1 (0%Q :: c) (c ++ [0%Q]).
Lemma up_spec c : h1 (up c) = (x + y) * h1 c /\ List.length (up c) = S (List.length c).
Proof.
  unfold up. assert (L : List.length (0%Q :: c) = List.length (c ++ [0%Q])) by (rewrite app_length; cbn; lia). destruct (h1_add _ _ L) as [E1 E2]. rewrite E1, E2, h1_app. cbn [h1 List.length]. rewrite Q2R_0. split; [ring|reflexivity].
Qed.
Fixpoint binrow (n : nat) : p1 := match n with O => [1%Q] | S n => up (binrow n) end.
Lemma binrow_spec n : x + y = 1 -> h1 (binrow n) = 1 /\ List.length (binrow n) = S n.
Proof. intros E. induction n as [|n [I1 I2]]; cbn [binrow]; [cbn; rewrite Q2R_1; split; [ring|reflexivity]|]. destruct (up_spec (binrow n)) as [A B]. rewrite A, B, I1, I2, E. split; [ring|reflexivity]. Qed.
End H1.
Fixpoint hom1 (p : p1) : p1 := match p with [] => [] | c :: p => add1 (scale1 c (binrow (List.length p))) (0%Q :: hom1 p) end.
Lemma hom1_spec p w : h1 w (1 - w) (hom1 p) = e1 p w /\ List.length (hom1 p) = List.length p.
Proof.
  induction p as [|c p [I1 I2]]; cbn [hom1 e1 List.length]; [split; reflexivity|]. destruct (binrow_spec w (1 - w) (List.length p) ltac:(ring)) as [B1 B2].
  assert (L : List.length (scale1 c (binrow (List.length p))) = List.length (0%Q :: hom1 p)) by (unfold scale1; rewrite map_length, B2; cbn; rewrite I2; reflexivity).
  destruct (h1_add w (1 - w) _ _ L) as [A1 A2]. rewrite A1, A2, h1_scale, B1. cbn [h1]. rewrite I1, Q2R_0. unfold scale1. rewrite map_length, B2. split; [ring|reflexivity].
Qed.
Definition nn1 (p : p1) : bool := forallb (fun c => Qle_bool 0 c) (hom1 p).
Lemma nn1_spec p w : nn1 p = true -> 0 <= w <= 1 -> 0 <= e1 p w.
Proof.
  intros H Hw. rewrite <- (proj1 (hom1_spec p w)). unfold nn1 in H. induction (hom1 p) as [|c l IH]; cbn [h1]; [lra|]. cbn [forallb] in H. apply andb_prop in H as [H1 H2]. apply Qle_bool_iff, Qle_Rle in H1. rewrite Q2R_0 in H1.
  assert (0 <= (1 - w) ^ List.length l) by (apply pow_le; lra). specialize (IH H2). apply Rplus_le_le_0_compat; apply Rmult_le_pos; lra.
Qed.
(** the same one level up: coefficients are polynomials in w *)
Section H2.
Variables x y w : R.
Fixpoint h2 (c : p2) : R := match c with [] => 0 | a :: c => e1 a w * y ^ (List.length c) + x * h2 c end.
Lemma h2_add a b : List.length a = List.length b -> h2 (add2 a b) = h2 a + h2 b /\ List.length (add2 a b) = List.length a.
Proof.
  revert b. induction a as [|p a IH]; intros [|q b] L; try discriminate; cbn [add2 h2]; [split; [ring|reflexivity]|]. injection L as L. destruct (IH b L) as [E1 E2]. cbn [List.length]. rewrite E1, E2, e1_add, <- L. split; [ring|reflexivity].
Qed.
Lemma h2_const c r : h2 (map (fun q => scale1 q c) r) = e1 c w * h1 x y r.
Proof. induction r as [|q r IH]; cbn [map h1 h2]; [ring|]. rewrite IH, e1_scale, map_length. ring. Qed.
End H2.
Fixpoint hom2 (p : p2) : p2 := match p with [] => [] | c :: p => add2 (map (fun q => scale1 q c) (binrow (List.length p))) ([] :: hom2 p) end.
Lemma hom2_spec p u w : h2 u (1 - u) w (hom2 p) = e2 p u w /\ List.length (hom2 p) = List.length p.
Proof.
  induction p as [|c p [I1 I2]]; cbn [hom2 e2 List.length]; [split; reflexivity|]. destruct (binrow_spec u (1 - u) (List.length p) ltac:(ring)) as [B1 B2].
  assert (L : List.length (map (fun q => scale1 q c) (binrow (List.length p))) = List.length ([] :: hom2 p)) by (rewrite map_length, B2; exact (f_equal S (eq_sym I2))).
  destruct (h2_add u (1 - u) w _ _ L) as [A1 A2]. rewrite A1, A2, h2_const, B1. cbn [h2 e1]. rewrite I1, map_length, B2. split; [ring|reflexivity].
Qed.
Definition nn2 (p : p2) : bool := forallb nn1 (hom2 p).
Lemma nn2_spec p u w : nn2 p = true -> 0 <= u <= 1 -> 0 <= w <= 1 -> 0 <= e2 p u w.
Proof.
  intros H Hu Hw. rewrite <- (proj1 (hom2_spec p u w)). unfold nn2 in H. induction (hom2 p) as [|c l IH]; cbn [h2]; [lra|]. cbn [forallb] in H. apply andb_prop in H as [H1 H2].
  pose proof (nn1_spec c w H1 Hw). assert (0 <= (1 - u) ^ List.length l) by (apply pow_le; lra). specialize (IH H2). apply Rplus_le_le_0_compat; apply Rmult_le_pos; lra.
Qed.
(** subdivision: the variables range over [u0, u1] x [w0, w1] *)
Fixpoint psubst (e a b : pex) : pex :=
  match e with
  | Cst n d => Cst n d | Xu => a | Xw => b
  | Add p q => Add (psubst p a b) (psubst q a b) | Sub p q => Sub (psubst p a b) (psubst q a b) | Mul p q => Mul (psubst p a b) (psubst q a b) | Opp p => Opp (psubst p a b)
  end.
Lemma psubst_spec e a b u w : pev (psubst e a b) u w = pev e (pev a u w) (pev b u w).
Proof. induction e as [n d| | |a1 IHa b1 IHb|a1 IHa b1 IHb|a1 IHa b1 IHb|a1 IHa]; cbn [psubst pev]; rewrite ?IHa, ?IHb; reflexivity. Qed.
Theorem bern_nonneg e : nn2 (norm e) = true -> forall u w, 0 <= u <= 1 -> 0 <= w <= 1 -> 0 <= pev e u w.
Proof. intros H u w Hu Hw. rewrite <- norm_spec. apply nn2_spec; assumption. Qed.
(** a dyadic box: u in [i/2^k, (i+1)/2^k], w in [j/2^l, (j+1)/2^l] *)
Definition box (n : Z) (d : positive) (v : pex) : pex := Mul (Cst 1 d) (Add (Cst n 1) v).
Theorem bern_box e (i : Z) (k : positive) (j : Z) (l : positive) : nn2 (norm (psubst e (box i k Xu) (box j l Xw))) = true ->
  forall u w, IZR i <= IZR (Zpos k) * u <= IZR i + 1 -> IZR j <= IZR (Zpos l) * w <= IZR j + 1 -> 0 <= pev e u w.
Proof.
  intros H u w Hu Hw. assert (Pk : 0 < IZR (Zpos k)) by (apply IZR_lt; reflexivity). assert (Pl : 0 < IZR (Zpos l)) by (apply IZR_lt; reflexivity).
  pose proof (bern_nonneg _ H (IZR (Zpos k) * u - IZR i) (IZR (Zpos l) * w - IZR j) ltac:(lra) ltac:(lra)) as B. rewrite psubst_spec in B. unfold box in B. cbn [pev] in B.
  replace (1 / IZR (Zpos k) * (IZR i / 1 + (IZR (Zpos k) * u - IZR i))) with u in B by (field; lra). replace (1 / IZR (Zpos l) * (IZR j / 1 + (IZR (Zpos l) * w - IZR j))) with w in B by (field; lra). exact B.
Qed.
