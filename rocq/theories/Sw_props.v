(** Property C51, part 5: the collocation matrix of the interpolator is nonsingular for every degree (Schoenberg-Whitney), so
    the unregularised fit always succeeds on strictly increasing coordinates. *)
From Coq Require Import Sorted Classical.
From Verif Require Import Base Tensor Rutil Slicing_model Norm_model Gw_model Linsolve Spline_model Spline_props Spline2_props.
Local Open Scope R_scope.

(** ** one-dimensional analysis *)
Lemma deriv_ext_loc f g x l r : 0 < r -> (forall y, Rabs (y - x) < r -> f y = g y) -> derivable_pt_lim g x l -> derivable_pt_lim f x l.
Proof.
  intros Hr E D eps He. destruct (D eps He) as [del Hd]. assert (P : 0 < Rmin del r) by (apply Rmin_glb_lt; [apply cond_pos|assumption]).
  exists (mkposreal _ P). intros h Hh Hl. cbn in Hl. rewrite !E.
  - apply Hd; [assumption|]. eapply Rlt_le_trans; [exact Hl|apply Rmin_l].
  - rewrite Rminus_eq_0, Rabs_R0. assumption.
  - replace (x + h - x) with h by ring. eapply Rlt_le_trans; [exact Hl|apply Rmin_r].
Qed.
Lemma cont_lipschitz f x r K : 0 < r -> 0 <= K -> (forall y, Rabs (y - x) < r -> Rabs (f y - f x) <= K * Rabs (y - x)) -> continuity_pt f x.
Proof.
  intros Hr HK L eps He. assert (P : 0 < eps / (K + 1)) by (apply Rdiv_lt_0_compat; lra).
  exists (Rmin r (eps / (K + 1))). split; [apply Rmin_glb_lt; assumption|]. intros y [_ Hy]. cbn in *. unfold R_dist in *.
  assert (Hy1 : Rabs (y - x) < r) by (eapply Rlt_le_trans; [exact Hy|apply Rmin_l]).
  assert (Hy2 : Rabs (y - x) < eps / (K + 1)) by (eapply Rlt_le_trans; [exact Hy|apply Rmin_r]).
  eapply Rle_lt_trans; [apply L; assumption|]. apply (Rmult_lt_compat_r (K + 1)) in Hy2; [|lra].
  unfold Rdiv in Hy2. rewrite Rmult_assoc, Rinv_l, Rmult_1_r in Hy2 by lra. pose proof (Rabs_pos (y - x)). nra.
Qed.
(** a continuous function, differentiable off finitely many points, that increases has a positive derivative somewhere *)
Lemma increase_deriv f g l : (forall x, continuity_pt f x) -> forall a b, a < b ->
  (forall x, a < x < b -> ~ In x l -> derivable_pt_lim f x (g x)) -> f a < f b -> exists y, a < y < b /\ ~ In y l /\ 0 < g y.
Proof.
  intros Hc. induction l as [|tau l IH]; intros a b Hab Hd Hf.
  - assert (pr : forall c, a < c < b -> derivable_pt f c) by (intros c Hc'; exists (g c); apply Hd; [assumption|intros []]).
    destruct (MVT f id a b pr (fun c _ => derivable_pt_id c) Hab) as [c [P E]].
    { intros; apply Hc. }
    { intros; apply derivable_continuous_pt, derivable_pt_id. }
    rewrite derive_pt_id in E. unfold id in E.
    assert (E2 : derive_pt f c (pr c P) = g c) by (apply derive_pt_eq_0, Hd; [assumption|intros []]).
    rewrite E2 in E. exists c. split; [assumption|]. split; [intros []|]. nra.
  - destruct (Rlt_dec a tau) as [La|La].
    + destruct (Rlt_dec tau b) as [Lb|Lb].
      * destruct (Rlt_dec (f a) (f tau)) as [F|F].
        -- destruct (IH a tau La) as [y [Y1 [Y2 Y3]]]; [|assumption|].
           ++ intros x Hx Nx. apply Hd; [lra|]. intros [->|]; [lra|contradiction].
           ++ exists y. split; [lra|]. split; [|assumption]. intros [->|]; [lra|contradiction].
        -- destruct (IH tau b Lb) as [y [Y1 [Y2 Y3]]]; [|lra|].
           ++ intros x Hx Nx. apply Hd; [lra|]. intros [->|]; [lra|contradiction].
           ++ exists y. split; [lra|]. split; [|assumption]. intros [->|]; [lra|contradiction].
      * destruct (IH a b Hab) as [y [Y1 [Y2 Y3]]]; [|assumption|].
        -- intros x Hx Nx. apply Hd; [lra|]. intros [->|]; [lra|contradiction].
        -- exists y. split; [lra|]. split; [|assumption]. intros [->|]; [lra|contradiction].
    + destruct (IH a b Hab) as [y [Y1 [Y2 Y3]]]; [|assumption|].
      * intros x Hx Nx. apply Hd; [lra|]. intros [->|]; [lra|contradiction].
      * exists y. split; [lra|]. split; [|assumption]. intros [->|]; [lra|contradiction].
Qed.
Lemma sum_deriv n (f g : nat -> R -> R) x : (forall j, (j < n)%nat -> derivable_pt_lim (f j) x (g j x)) ->
  derivable_pt_lim (fun y => Rsum n (fun j => f j y)) x (Rsum n (fun j => g j x)).
Proof.
  induction n as [|n IH]; intros H; cbn [Rsum]; [apply derivable_pt_lim_const|].
  apply (derivable_pt_lim_plus (fun y => Rsum n (fun j => f j y)) (f n)); [apply IH; intros; apply H; lia|apply H; lia].
Qed.
Lemma sum_cont n (f : nat -> R -> R) x : (forall j, (j < n)%nat -> continuity_pt (f j) x) -> continuity_pt (fun y => Rsum n (fun j => f j y)) x.
Proof.
  induction n as [|n IH]; intros H; cbn [Rsum]; [apply continuity_pt_const; intros ? ?; reflexivity|].
  apply (continuity_pt_plus (fun y => Rsum n (fun j => f j y)) (f n)); [apply IH; intros; apply H; lia|apply H; lia].
Qed.

(** ** splines on clamped knots with simple interior knots, the end pieces continued outside *)
Section Sw.
Variables (t : nat -> R) (n k : nat).
Hypothesis (Hk : (1 <= k)%nat) (Hn : (k + 2 <= n)%nat).
Hypothesis MONO : forall i j, (i <= j)%nat -> (j <= n + k)%nat -> t i <= t j.
Hypothesis FIRST : forall j, (j <= k)%nat -> t j = t 0%nat.
Hypothesis LAST : forall j, (n <= j <= n + k)%nat -> t j = t n.
Hypothesis STRICT : forall i j, (k <= i)%nat -> (i < j)%nat -> (j <= n)%nat -> t i < t j.

Definition piece (i : nat) (x : R) : Prop := (k <= i < n)%nat /\ (i = k \/ t i <= x) /\ (i = (n - 1)%nat \/ x < t (i + 1)%nat).
Definition ind (j : nat) (x : R) : R :=
  if ((k <=? j) && (j <? n))%nat then
    if (if (j =? k)%nat then true else if Rle_dec (t j) x then true else false) then
      if (if (j =? n - 1)%nat then true else if Rlt_dec x (t (j + 1)%nat) then true else false) then 1 else 0 else 0 else 0.
Lemma piece_le i j x y : piece i x -> piece j y -> x <= y -> (i <= j)%nat.
Proof.
  intros [A [B C]] [A' [B' C']] L. destruct (Nat.le_gt_cases i j) as [|G]; [assumption|exfalso].
  destruct B as [->|B]; [lia|]. destruct C' as [->|C']; [lia|].
  assert (t (j + 1)%nat <= t i) by (apply MONO; lia). lra.
Qed.
Lemma ind_at i x : piece i x -> forall j, ind j x = if (j =? i)%nat then 1 else 0.
Proof.
  intros P j. unfold ind. destruct (Nat.eqb_spec j i) as [->|N].
  - destruct P as [A [B C]]. replace (k <=? i)%nat with true by (symmetry; apply Nat.leb_le; lia). replace (i <? n)%nat with true by (symmetry; apply Nat.ltb_lt; lia). cbn [andb].
    destruct (Nat.eqb_spec i k) as [E|E]; [|destruct (Rle_dec (t i) x); [|destruct B; [lia|lra]]];
      (destruct (Nat.eqb_spec i (n - 1)) as [F|F]; [reflexivity|destruct (Rlt_dec x (t (i + 1)%nat)); [reflexivity|destruct C; [lia|lra]]]).
  - destruct (Nat.leb_spec k j) as [H1|]; [|reflexivity]. destruct (Nat.ltb_spec j n) as [H2|]; [|reflexivity]. cbn [andb].
    destruct (if (j =? k)%nat then true else if Rle_dec (t j) x then true else false) eqn:E1; [|reflexivity].
    destruct (if (j =? n - 1)%nat then true else if Rlt_dec x (t (j + 1)%nat) then true else false) eqn:E2; [|reflexivity].
    assert (Q : piece j x).
    { split; [lia|]. split.
      - destruct (Nat.eqb_spec j k); [auto|]. destruct (Rle_dec (t j) x); [auto|discriminate].
      - destruct (Nat.eqb_spec j (n - 1)); [auto|]. destruct (Rlt_dec x (t (j + 1)%nat)); [auto|discriminate]. }
    pose proof (piece_le i j x x P Q ltac:(lra)). pose proof (piece_le j i x x Q P ltac:(lra)). lia.
Qed.
Lemma piece_find x : exists i, piece i x.
Proof.
  assert (G : forall m, (k < m < n)%nat -> t m <= x \/ exists i, (i < m)%nat /\ piece i x).
  { induction m as [|m IH]; intros Hm; [lia|]. destruct (Rle_dec (t (S m)) x) as [L|L]; [auto|right].
    destruct (Nat.eq_dec m k) as [->|N].
    - exists k. split; [lia|]. split; [lia|]. split; [auto|]. right. rewrite Nat.add_1_r. lra.
    - destruct IH as [L'|[i [Hi P]]]; [lia| |exists i; split; [lia|assumption]].
      exists m. split; [lia|]. split; [lia|]. split; [auto|]. right. rewrite Nat.add_1_r. lra. }
  destruct (G (n - 1)%nat ltac:(lia)) as [L|[i [_ P]]]; [|eauto]. exists (n - 1)%nat. split; [lia|]. auto.
Qed.
Lemma piece_knot i : (k <= i < n)%nat -> piece i (t i).
Proof. intros H. split; [lia|]. split; [right; lra|]. right. apply STRICT; lia. Qed.
(** off the interior knots the piece is locally constant *)
Definition knot (x : R) : Prop := exists i, (k < i < n)%nat /\ x = t i.
Lemma piece_open i x : piece i x -> ~ knot x -> exists r, 0 < r /\ forall y, Rabs (y - x) < r -> piece i y.
Proof.
  intros [A [B C]] NK.
  assert (HB : exists r, 0 < r /\ forall y, Rabs (y - x) < r -> i = k \/ t i <= y).
  { destruct (Nat.eq_dec i k) as [E|E]; [exists 1; split; [lra|auto]|]. destruct B as [B|B]; [lia|].
    assert (t i <> x) by (intros K; apply NK; exists i; split; [lia|auto]).
    exists (x - t i). split; [lra|]. intros y Hy. right. apply Rabs_def2 in Hy. lra. }
  assert (HC : exists r, 0 < r /\ forall y, Rabs (y - x) < r -> i = (n - 1)%nat \/ y < t (i + 1)%nat).
  { destruct (Nat.eq_dec i (n - 1)) as [E|E]; [exists 1; split; [lra|auto]|]. destruct C as [C|C]; [lia|].
    exists (t (i + 1)%nat - x). split; [lra|]. intros y Hy. right. apply Rabs_def2 in Hy. lra. }
  destruct HB as [r1 [P1 Q1]], HC as [r2 [P2 Q2]]. exists (Rmin r1 r2). split; [apply Rmin_glb_lt; assumption|]. intros y Hy. split; [lia|]. split.
  - apply Q1. eapply Rlt_le_trans; [exact Hy|apply Rmin_l].
  - apply Q2. eapply Rlt_le_trans; [exact Hy|apply Rmin_r].
Qed.
Definition qi (y : R) : R := if Req_EM_T y 0 then 0 else / y.
Lemma qi_r y : y <> 0 -> y * qi y = 1.
Proof. intros H. unfold qi. destruct (Req_EM_T y 0); [contradiction|field; assumption]. Qed.
Lemma qi_0 : qi 0 = 0. Proof. unfold qi. destruct (Req_EM_T 0 0); congruence. Qed.
Fixpoint nb (d j : nat) (x : R) : R :=
  match d with
  | O => ind j x
  | S d' => (x - t j) * (qi (t (j + d)%nat - t j) * nb d' j x) + (t (j + d + 1)%nat - x) * (qi (t (j + d + 1)%nat - t (j + 1)%nat) * nb d' (j + 1) x)
  end.
Lemma nb_piece i x : piece i x -> forall d j, nb d j x <> 0 -> (j <= i <= j + d)%nat.
Proof.
  intros P. induction d as [|d IH]; intros j N; cbn [nb] in N.
  - rewrite (ind_at i x P) in N. destruct (Nat.eqb_spec j i); [lia|congruence].
  - destruct (Req_EM_T (nb d j x) 0) as [E|E]; [|apply IH in E; lia]. rewrite E in N.
    assert (E2 : nb d (j + 1) x <> 0) by (intros K; apply N; rewrite K; ring). apply IH in E2. lia.
Qed.
Lemma nb_high d j x : (n <= j)%nat -> nb d j x = 0.
Proof. intros H. destruct (piece_find x) as [i P]. destruct (Req_EM_T (nb d j x) 0) as [|N]; [assumption|]. apply (nb_piece i x P) in N. destruct P. lia. Qed.
Lemma nb_knot d i : (k <= i < n)%nat -> nb (S d) i (t i) = 0.
Proof.
  intros H. cbn [nb]. pose proof (piece_knot i H) as P. destruct (Req_EM_T (nb d (i + 1) (t i)) 0) as [E|E]; [rewrite E; ring|]. apply (nb_piece i _ P) in E. lia.
Qed.
Lemma basis_nb x d : t 0%nat <= x <= t n -> (d <= k)%nat -> forall j, (j < n)%nat -> basis t n k x d j = nb d j x.
Proof.
  intros Hx. assert (C : clamped t n k).
  { constructor; try assumption; try lia. apply STRICT; lia. }
  induction d as [|d IH]; intros Hd j Hj.
  - cbn [basis nb]. rewrite (zeroth_cases t n k x j C Hx Hj). unfold ind. replace (j <? n)%nat with true by (symmetry; apply Nat.ltb_lt; lia).
    destruct (Nat.leb_spec k j) as [L|L]; cbn [andb].
    + destruct (Nat.eqb_spec j k) as [->|N].
      * destruct (Rle_dec (t k) x) as [_|K]; [|rewrite (FIRST k) in K by lia; lra].
        destruct (Rlt_dec x (t (k + 1)%nat)), (k =? n - 1)%nat; reflexivity.
      * destruct (Rle_dec (t j) x); [|reflexivity]. destruct (Rlt_dec x (t (j + 1)%nat)), (j =? n - 1)%nat; reflexivity.
    + rewrite (FIRST j), (FIRST (j + 1)) by lia. destruct (Rle_dec _ _); [|reflexivity]. destruct (Rlt_dec _ _); [lra|]. destruct (Nat.eqb_spec j (n - 1)); [lia|reflexivity].
  - cbn [basis nb]. rewrite (IH ltac:(lia) j Hj).
    assert (E : (if (j + 1 <? n)%nat then basis t n k x d (j + 1) else 0) = nb d (j + 1) x).
    { destruct (Nat.ltb_spec (j + 1) n); [apply IH; lia|]. rewrite nb_high by lia. reflexivity. }
    rewrite E. unfold coefL, coefR, qdiv, qi. destruct (Req_EM_T _ 0), (Req_EM_T _ 0); unfold Rdiv; ring.
Qed.
(** scaled basis function *)
Definition M (d j : nat) (x : R) : R := qi (t (j + d + 1)%nat - t j) * nb d j x.
Lemma nb_deriv x : ~ knot x -> forall d, (S d <= k)%nat -> forall j, derivable_pt_lim (nb (S d) j) x (INR (S d) * (M d j x - M d (j + 1) x)).
Proof.
  intros NK. destruct (piece_find x) as [i P]. destruct (piece_open i x P NK) as [r [Hr Q]].
  assert (D0 : forall j, derivable_pt_lim (nb 0 j) x 0).
  { intros j. apply (deriv_ext_loc _ (fct_cte (nb 0 j x)) x 0 r Hr); [|apply derivable_pt_lim_const].
    intros y Hy. unfold fct_cte. cbn [nb]. rewrite (ind_at i y (Q y Hy)), (ind_at i x P). reflexivity. }
  assert (ST : forall d j l1 l2, derivable_pt_lim (nb d j) x l1 -> derivable_pt_lim (nb d (j + 1)) x l2 ->
     derivable_pt_lim (nb (S d) j) x ((1 - 0) * (qi (t (j + S d)%nat - t j) * nb d j x) + (x - t j) * (qi (t (j + S d)%nat - t j) * l1)
        + ((0 - 1) * (qi (t (j + S d + 1)%nat - t (j + 1)%nat) * nb d (j + 1) x) + (t (j + S d + 1)%nat - x) * (qi (t (j + S d + 1)%nat - t (j + 1)%nat) * l2)))).
  { intros d j l1 l2 H1 H2. cbn [nb].
    apply (derivable_pt_lim_plus (mult_fct (id - fct_cte (t j))%F (mult_real_fct (qi (t (j + S d)%nat - t j)) (nb d j)))
       (mult_fct (fct_cte (t (j + S d + 1)%nat) - id)%F (mult_real_fct (qi (t (j + S d + 1)%nat - t (j + 1)%nat)) (nb d (j + 1))))).
    - apply (derivable_pt_lim_mult (id - fct_cte (t j))%F (mult_real_fct (qi (t (j + S d)%nat - t j)) (nb d j))).
      + apply derivable_pt_lim_minus; [apply derivable_pt_lim_id|apply derivable_pt_lim_const].
      + apply derivable_pt_lim_scal. assumption.
    - apply (derivable_pt_lim_mult (fct_cte (t (j + S d + 1)%nat) - id)%F (mult_real_fct (qi (t (j + S d + 1)%nat - t (j + 1)%nat)) (nb d (j + 1)))).
      + apply derivable_pt_lim_minus; [apply derivable_pt_lim_const|apply derivable_pt_lim_id].
      + apply derivable_pt_lim_scal. assumption. }
  induction d as [|d IH]; intros Hd j.
  - pose proof (ST 0%nat j 0 0 (D0 j) (D0 (j + 1)%nat)) as H. match type of H with derivable_pt_lim _ _ ?a => replace (INR 1 * (M 0 j x - M 0 (j + 1) x)) with a; [exact H|] end.
    unfold M. cbn [INR]. replace (j + 0 + 1)%nat with (j + 1)%nat by lia. replace (j + 1 + 0 + 1)%nat with (j + 1 + 1)%nat by lia. ring.
  - pose proof (ST (S d) j _ _ (IH ltac:(lia) j) (IH ltac:(lia) (j + 1)%nat)) as H.
    match type of H with derivable_pt_lim _ _ ?a => replace (INR (S (S d)) * (M (S d) j x - M (S d) (j + 1) x)) with a; [exact H|] end.
    assert (R1 : nb (S d) j x = (x - t j) * M d j x + (t (j + S d + 1)%nat - x) * M d (j + 1) x).
    { cbn [nb]. unfold M. replace (j + S d)%nat with (j + d + 1)%nat by lia. replace (j + 1 + d + 1)%nat with (j + d + 1 + 1)%nat by lia. reflexivity. }
    assert (R2 : nb (S d) (j + 1) x = (x - t (j + 1)%nat) * M d (j + 1) x + (t (j + 1 + S d + 1)%nat - x) * M d (j + 1 + 1) x).
    { cbn [nb]. unfold M. replace (j + 1 + S d)%nat with (j + 1 + d + 1)%nat by lia. replace (j + 1 + 1 + d + 1)%nat with (j + 1 + d + 1 + 1)%nat by lia. reflexivity. }
    unfold M at 5 6. rewrite R1, R2.
    replace (j + S (S d))%nat with (j + S d + 1)%nat by lia. replace (j + S d + 1 + 1)%nat with (j + 1 + S d + 1)%nat by lia.
    set (q1 := qi (t (j + S d + 1)%nat - t j)) in *. set (q2 := qi (t (j + 1 + S d + 1)%nat - t (j + 1)%nat)) in *.
    rewrite (S_INR (S d)). set (m := INR (S d)).
    assert (K : M d (j + 1) x * (q1 * (t (j + S d + 1)%nat - t j)) = M d (j + 1) x * (q2 * (t (j + 1 + S d + 1)%nat - t (j + 1)%nat))).
    { destruct (Req_EM_T (M d (j + 1) x) 0) as [E|E]; [rewrite E; ring|]. unfold M in E.
      assert (E1 : nb d (j + 1) x <> 0) by (intros Z; apply E; rewrite Z; ring). apply (nb_piece i x P) in E1. destruct P as [A _].
      assert (E2 : t (j + 1 + d + 1)%nat - t (j + 1)%nat <> 0) by (intros Z; apply E; rewrite Z, qi_0; ring).
      assert (t (j + 1)%nat <= t (j + 1 + d + 1)%nat) by (apply MONO; lia). assert (t j <= t (j + 1)%nat) by (apply MONO; lia).
      assert (t (j + 1 + d + 1)%nat <= t (j + 1 + S d + 1)%nat) by (apply MONO; lia).
      assert (EE : t (j + S d + 1)%nat = t (j + 1 + d + 1)%nat) by (f_equal; lia).
      unfold q1, q2. rewrite (Rmult_comm (qi _)), (Rmult_comm (qi (t (j + 1 + S d + 1)%nat - _))), !qi_r by lra. reflexivity. }
    clearbody q1 q2 m. set (a := M d j x) in *. set (b := M d (j + 1) x) in *. set (c := M d (j + 1 + 1) x) in *. clearbody a b c.
    set (T1 := t (j + S d + 1)%nat) in *. set (T2 := t (j + 1 + S d + 1)%nat) in *. set (U := t j) in *. set (V := t (j + 1)%nat) in *. clearbody T1 T2 U V. clear -K.
    assert (E : forall L R, L = R + m * (b * (q2 * (T2 - V)) - b * (q1 * (T1 - U))) -> L = R) by (intros L R ->; rewrite K; ring).
    apply E. ring.
Qed.
Lemma nb_cont d j x : (S d <= k)%nat -> continuity_pt (nb (S d) j) x.
Proof.
  intros Hd. destruct (classic (knot x)) as [[q [Hq ->]]|NK].
  2:{ apply derivable_continuous_pt. eexists. apply nb_deriv; assumption. }
  revert j Hd. induction d as [|d IH]; intros j Hd.
  - assert (L1 : t (q - 1)%nat < t q) by (apply STRICT; lia). assert (L2 : t q < t (q + 1)%nat) by (apply STRICT; lia).
    set (r := Rmin (t q - t (q - 1)%nat) (t (q + 1)%nat - t q)). assert (Hr : 0 < r) by (apply Rmin_glb_lt; lra).
    set (K := / (t q - t (q - 1)%nat) + / (t (q + 1)%nat - t q)).
    assert (P1 : 0 < / (t q - t (q - 1)%nat)) by (apply Rinv_0_lt_compat; lra). assert (P2 : 0 < / (t (q + 1)%nat - t q)) by (apply Rinv_0_lt_compat; lra).
    apply (cont_lipschitz _ _ r K Hr); [unfold K; lra|]. intros y Hy.
    pose proof (Rmin_l (t q - t (q - 1)%nat) (t (q + 1)%nat - t q)) as M1. pose proof (Rmin_r (t q - t (q - 1)%nat) (t (q + 1)%nat - t q)) as M2. fold r in M1, M2.
    apply Rabs_def2 in Hy. destruct Hy as [Y1 Y2].
    pose proof (piece_knot q ltac:(lia)) as PQ.
    assert (G : forall s, nb 1 j y - nb 1 j (t q) = s * (y - t q) -> Rabs s <= K -> Rabs (nb 1 j y - nb 1 j (t q)) <= K * Rabs (y - t q)).
    { intros s -> Hs. rewrite Rabs_mult. apply Rmult_le_compat_r; [apply Rabs_pos|assumption]. }
    destruct (Rle_dec (t q) y) as [L|L].
    + assert (PY : piece q y) by (split; [lia|]; split; [auto|right; lra]).
      cbn [nb] in *. rewrite !(ind_at q y PY), !(ind_at q _ PQ) in *. destruct (Nat.eqb_spec j q) as [->|N1].
      * replace (q + 1 =? q)%nat with false in * by (symmetry; apply Nat.eqb_neq; lia). apply (G (/ (t (q + 1)%nat - t q))); [|unfold K; rewrite Rabs_right; lra].
        unfold qi. destruct (Req_EM_T (t (q + 1)%nat - t q) 0); [lra|]. ring.
      * destruct (Nat.eqb_spec (j + 1) q) as [E|N2]; [|apply (G 0); [ring|rewrite Rabs_R0; unfold K; lra]].
        replace (j + 1 + 1)%nat with (q + 1)%nat in * by lia. rewrite E in *. apply (G (- / (t (q + 1)%nat - t q))); [|unfold K; rewrite Rabs_Ropp, Rabs_right; lra].
        unfold qi. destruct (Req_EM_T (t (q + 1)%nat - t q) 0); [lra|]. ring.
    + assert (PY : piece (q - 1) y). { split; [lia|]. split; [right; lra|]. right. replace (q - 1 + 1)%nat with q by lia. lra. }
      cbn [nb] in *. rewrite !(ind_at _ y PY), !(ind_at q _ PQ) in *. destruct (Nat.eqb_spec j q) as [->|N1].
      * replace (q =? q - 1)%nat with false in * by (symmetry; apply Nat.eqb_neq; lia). replace (q + 1 =? q - 1)%nat with false in * by (symmetry; apply Nat.eqb_neq; lia).
        replace (q + 1 =? q)%nat with false in * by (symmetry; apply Nat.eqb_neq; lia). apply (G 0); [ring|rewrite Rabs_R0; unfold K; lra].
      * destruct (Nat.eqb_spec (j + 1) q) as [E|N2].
        -- replace (j =? q - 1)%nat with true in * by (symmetry; apply Nat.eqb_eq; lia). replace (j + 1 =? q - 1)%nat with false in * by (symmetry; apply Nat.eqb_neq; lia).
           replace (j + 1 + 1)%nat with (q + 1)%nat in * by lia. rewrite E in *. assert (EJ : j = (q - 1)%nat) by lia. rewrite EJ in *. apply (G (/ (t q - t (q - 1)%nat))); [|unfold K; rewrite Rabs_right; lra].
           unfold qi. destruct (Req_EM_T (t q - t (q - 1)%nat) 0); [lra|]. destruct (Req_EM_T (t (q + 1)%nat - t q) 0); [lra|]. field. lra.
        -- replace (j =? q - 1)%nat with false in * by (symmetry; apply Nat.eqb_neq; lia). destruct (Nat.eqb_spec (j + 1) (q - 1)) as [E|N3]; [|apply (G 0); [ring|rewrite Rabs_R0; unfold K; lra]].
           replace (j + 1 + 1)%nat with q in * by lia. rewrite E in *. apply (G (- / (t q - t (q - 1)%nat))); [|unfold K; rewrite Rabs_Ropp, Rabs_right; lra].
           unfold qi. destruct (Req_EM_T (t q - t (q - 1)%nat) 0); [lra|]. ring.
  - assert (C1 : continuity_pt (nb (S d) j) (t q)) by (apply IH; lia). assert (C2 : continuity_pt (nb (S d) (j + 1)) (t q)) by (apply IH; lia).
    change (nb (S (S d)) j) with (fun x => (x - t j) * (qi (t (j + S (S d))%nat - t j) * nb (S d) j x) + (t (j + S (S d) + 1)%nat - x) * (qi (t (j + S (S d) + 1)%nat - t (j + 1)%nat) * nb (S d) (j + 1) x)).
    apply (continuity_pt_plus (mult_fct (id - fct_cte (t j))%F (mult_real_fct (qi (t (j + S (S d))%nat - t j)) (nb (S d) j)))
       (mult_fct (fct_cte (t (j + S (S d) + 1)%nat) - id)%F (mult_real_fct (qi (t (j + S (S d) + 1)%nat - t (j + 1)%nat)) (nb (S d) (j + 1))))).
    + apply continuity_pt_mult; [|apply continuity_pt_scal; assumption].
      apply continuity_pt_minus; [apply derivable_continuous_pt, derivable_pt_id|apply continuity_pt_const; intros ? ?; reflexivity].
    + apply continuity_pt_mult; [|apply continuity_pt_scal; assumption].
      apply continuity_pt_minus; [apply continuity_pt_const; intros ? ?; reflexivity|apply derivable_continuous_pt, derivable_pt_id].
Qed.

(** ** splines, their derivatives, their sign changes *)
Definition sp (d : nat) (c : nat -> R) (x : R) : R := Rsum n (fun j => c j * nb d j x).
Definition dc (d : nat) (c : nat -> R) (j : nat) : R :=
  INR (S d) * ((c j - (if (j =? 0)%nat then 0 else c (j - 1)%nat)) * qi (t (j + d + 1)%nat - t j)).
Lemma sp_cont d c x : (S d <= k)%nat -> continuity_pt (sp (S d) c) x.
Proof.
  intros Hd. apply (sum_cont n (fun j y => c j * nb (S d) j y)). intros j Hj. apply continuity_pt_scal. apply nb_cont. assumption.
Qed.
Lemma by_parts m (c f : nat -> R) : Rsum m (fun j => c j * (f j - f (j + 1)%nat)) = Rsum m (fun j => (c j - (if (j =? 0)%nat then 0 else c (j - 1)%nat)) * f j) - (if (m =? 0)%nat then 0 else c (m - 1)%nat) * f m.
Proof.
  induction m as [|m IH]; [cbn; ring|]. cbn [Rsum]. rewrite IH. cbn [Nat.eqb]. replace (S m - 1)%nat with m by lia. rewrite Nat.add_1_r. ring.
Qed.
Lemma sp_deriv d c x : ~ knot x -> (S d <= k)%nat -> derivable_pt_lim (sp (S d) c) x (sp d (dc d c) x).
Proof.
  intros NK Hd. assert (E : sp d (dc d c) x = Rsum n (fun j => c j * (INR (S d) * (M d j x - M d (j + 1) x)))).
  { transitivity (INR (S d) * Rsum n (fun j => c j * (M d j x - M d (j + 1) x))).
    - rewrite by_parts. assert (Z : M d n x = 0) by (unfold M; rewrite nb_high by lia; ring). rewrite Z, Rmult_0_r, Rminus_0_r.
      rewrite <- Rsum_scal. apply Rsum_ext. intros j Hj. unfold dc, M. ring.
    - rewrite <- Rsum_scal. apply Rsum_ext. intros j Hj. ring. }
  rewrite E. apply (sum_deriv n (fun j y => c j * nb (S d) j y) (fun j y => c j * (INR (S d) * (M d j y - M d (j + 1) y)))).
  intros j Hj. apply (derivable_pt_lim_scal (nb (S d) j)). apply nb_deriv; assumption.
Qed.
Definition knots_in : list R := map t (seq (k + 1) (n - k - 1)).
Lemma knots_in_spec x : ~ In x knots_in -> ~ knot x.
Proof. intros N [i [Hi ->]]. apply N. apply in_map. apply in_seq. lia. Qed.
Lemma sp_mvt d c sg a b : (S d <= k)%nat -> a < b -> sg * sp (S d) c a < sg * sp (S d) c b -> exists y, a < y < b /\ 0 < sg * sp d (dc d c) y.
Proof.
  intros Hd Hab H. destruct (increase_deriv (mult_real_fct sg (sp (S d) c)) (fun y => sg * sp d (dc d c) y) knots_in) with (a := a) (b := b) as [y [Y1 [_ Y2]]]; try assumption; eauto.
  - intros x. apply continuity_pt_scal, sp_cont. assumption.
  - intros x _ Nx. apply derivable_pt_lim_scal, sp_deriv; [|assumption]. apply knots_in_spec. assumption.
Qed.
(** alternation: L points, increasing in (a, b), where f has alternating strict signs, starting with sg *)
Fixpoint alt (f : R -> R) (b : R) (L : nat) (sg a : R) : Prop :=
  match L with O => True | S L' => exists y, a < y < b /\ 0 < sg * f y /\ alt f b L' (- sg) y end.
Lemma alt_left f b L sg a a' : a' <= a -> alt f b L sg a -> alt f b L sg a'.
Proof. intros H. destruct L; cbn; [auto|]. intros [y [Y1 Y2]]. exists y. split; [lra|assumption]. Qed.
(** coefficients that make the spline of degree d vanish at knot w *)
Definition clear_at (d : nat) (c : nat -> R) (w : nat) : Prop := forall j, (w <= j + d)%nat -> (j < w)%nat -> c j = 0.
Lemma clear_zero d c w : (k < w < n)%nat -> clear_at (S d) c w -> sp (S d) c (t w) = 0.
Proof.
  intros Hw Z. unfold sp. apply Rsum_0. intros j Hj. destruct (Req_EM_T (nb (S d) j (t w)) 0) as [E|E]; [rewrite E; ring|].
  pose proof (nb_piece w (t w) (piece_knot w ltac:(lia)) (S d) j E) as [H1 H2]. destruct (Nat.eq_dec j w) as [->|N]; [rewrite nb_knot in E by lia; congruence|].
  rewrite Z by lia. ring.
Qed.
Lemma clear_deriv d c w : clear_at (S d) c w -> clear_at d (dc d c) w.
Proof.
  intros Z j H1 H2. unfold dc. rewrite (Z j) by lia. destruct (Nat.eqb_spec j 0); [ring|]. rewrite (Z (j - 1)%nat) by lia. ring.
Qed.
Lemma alt_tail d c b (br : bool) : (S d <= k)%nat -> (br = true -> sp (S d) c b = 0) -> forall L sg y0, y0 < b -> 0 < sg * sp (S d) c y0 ->
  alt (sp (S d) c) b L (- sg) y0 -> alt (sp d (dc d c)) b (L + Nat.b2n br) (- sg) y0.
Proof.
  intros Hd Hb. induction L as [|L IH]; intros sg y0 Hy H A.
  - destruct br; cbn; [|exact I]. destruct (sp_mvt d c (- sg) y0 b Hd Hy) as [y [Y1 Y2]]; [rewrite Hb by reflexivity; lra|]. exists y. auto.
  - cbn in A. destruct A as [y1 [Y1 [Y2 A]]]. destruct (sp_mvt d c (- sg) y0 y1 Hd ltac:(lra)) as [z [Z1 Z2]]; [lra|].
    cbn. exists z. split; [lra|]. split; [assumption|]. apply (alt_left _ _ _ _ y1); [lra|]. apply (IH (- sg) y1); [lra|assumption|assumption].
Qed.
Lemma piece_le_v v j y : (k <= v < n)%nat -> piece j y -> y < t (v + 1)%nat -> (j <= v)%nat.
Proof.
  intros Hv [A [B C]] L. destruct (Nat.le_gt_cases j v) as [|G]; [assumption|exfalso]. destruct B as [->|B]; [lia|].
  assert (t (v + 1)%nat <= t j) by (apply MONO; lia). lra.
Qed.
Lemma piece_ge_u u j y : (k <= u < n)%nat -> piece j y -> t u <= y -> (u <= j)%nat.
Proof.
  intros Hu [A [B C]] L. destruct (Nat.le_gt_cases u j) as [|G]; [assumption|exfalso]. destruct C as [->|C]; [lia|].
  assert (t (j + 1)%nat <= t u) by (apply MONO; lia). lra.
Qed.
Lemma sp0_at c i x : piece i x -> sp 0 c x = c i.
Proof.
  intros P. unfold sp. rewrite (Rsum_single n i).
  - cbn [nb]. rewrite (ind_at i x P), Nat.eqb_refl. ring.
  - destruct P. lia.
  - intros j Hj N. cbn [nb]. rewrite (ind_at i x P). replace (j =? i)%nat with false by (symmetry; apply Nat.eqb_neq; assumption). ring.
Qed.
Lemma alt_zero c v : (k <= v < n)%nat -> forall L sg a i, (forall y j, a < y -> 0 < sg * sp 0 c y -> piece j y -> (i <= j)%nat) -> (i <= v + 1)%nat ->
  alt (sp 0 c) (t (v + 1)%nat) L sg a -> (L <= v + 1 - i)%nat.
Proof.
  intros Hv. induction L as [|L IH]; intros sg a i H Hi A; [lia|]. cbn in A. destruct A as [y [Y1 [Y2 A]]]. destruct (piece_find y) as [j P].
  pose proof (H y j ltac:(lra) Y2 P) as Hj. pose proof (piece_le_v v j y Hv P ltac:(lra)) as Hj'.
  assert (L <= v + 1 - (j + 1))%nat; [|lia]. apply (IH (- sg) y); [|lia|assumption]. intros y' j' L' S' P'.
  pose proof (piece_le j j' y y' P P' ltac:(lra)). rewrite (sp0_at c j' y' P') in S'. rewrite (sp0_at c j y P) in Y2.
  destruct (Nat.eq_dec j' j) as [->|]; [lra|lia].
Qed.
(** a spline of degree d on the pieces u .. v has at most as many alternations as the dimension of its space, where each end at
    which it is required to vanish together with its derivatives costs d dimensions *)
Lemma alt_bound u v (bl br : bool) : (k <= u <= v)%nat -> (v < n)%nat -> (bl = true -> (k < u)%nat) -> (br = true -> (v + 1 < n)%nat) ->
  forall d c L sg, (d <= k)%nat -> (bl = true -> clear_at d c u) -> (br = true -> clear_at d c (v + 1)) -> (1 <= L)%nat ->
  alt (sp d c) (t (v + 1)%nat) L sg (t u) -> (L + d * (Nat.b2n bl + Nat.b2n br) <= v + 1 - u + d)%nat.
Proof.
  intros Huv Hv Hbl Hbr. induction d as [|d IH]; intros c L sg Hd Zl Zr HL A.
  - assert (L <= v + 1 - u)%nat; [|lia]. apply (alt_zero c v ltac:(lia) L sg (t u) u); [|lia|assumption].
    intros y j Hy _ P. apply (piece_ge_u u j y); [lia|assumption|lra].
  - destruct L as [|L]; [lia|]. cbn in A. destruct A as [y0 [Y1 [Y2 A]]].
    assert (T : alt (sp d (dc d c)) (t (v + 1)%nat) (L + Nat.b2n br) (- sg) y0).
    { apply alt_tail; try assumption; [|lra]. intros E. apply clear_zero; [specialize (Hbr E); lia|auto]. }
    assert (T2 : exists sg', alt (sp d (dc d c)) (t (v + 1)%nat) (L + Nat.b2n br + Nat.b2n bl) sg' (t u)).
    { destruct bl; cbn [Nat.b2n].
      - destruct (sp_mvt d c sg (t u) y0 Hd ltac:(lra)) as [z [Z1 Z2]]; [rewrite clear_zero by (auto; specialize (Hbl eq_refl); lia); lra|].
        exists sg. rewrite (Nat.add_1_r (L + Nat.b2n br)). cbn [alt]. exists z. split; [lra|]. split; [assumption|]. apply (alt_left _ _ _ _ y0); [lra|assumption].
      - exists (- sg). rewrite (Nat.add_0_r (L + Nat.b2n br)). apply (alt_left _ _ _ _ y0); [lra|assumption]. }
    destruct T2 as [sg' T2]. destruct (Nat.eq_dec (L + Nat.b2n br + Nat.b2n bl) 0) as [E|E].
    + destruct bl, br; cbn [Nat.b2n] in *; lia.
    + assert (K : (L + Nat.b2n br + Nat.b2n bl + d * (Nat.b2n bl + Nat.b2n br) <= v + 1 - u + d)%nat); [|lia].
      apply (IH (dc d c) _ sg'); try lia; try assumption; intros; apply clear_deriv; auto.
Qed.

(** ** local linear independence *)
Lemma sp_one d c i x : (d <= k)%nat -> piece i x -> t 0%nat <= x <= t n -> (forall j, (j <= i <= j + d)%nat -> c j = c i) -> sp d c x = c i.
Proof.
  intros Hd P Hx H. assert (C : clamped t n k) by (constructor; try assumption; try lia; apply STRICT; lia).
  pose proof (basis_partition t n k x C Hx d Hd) as B. rewrite (Rsum_ext n _ (fun j => nb d j x)) in B by (intros; apply basis_nb; assumption).
  unfold sp. rewrite (Rsum_ext n _ (fun j => c i * nb d j x)); [rewrite Rsum_scal, B; ring|].
  intros j Hj. destruct (Req_EM_T (nb d j x) 0) as [E|E]; [rewrite E; ring|]. rewrite (H j); [reflexivity|]. apply (nb_piece i x P). assumption.
Qed.
Lemma sp_independent i a b : (k <= i < n)%nat -> t i <= a -> a < b -> b <= t (i + 1)%nat -> forall d c, (d <= k)%nat ->
  (forall y, a < y < b -> sp d c y = 0) -> forall j, (j <= i <= j + d)%nat -> c j = 0.
Proof.
  intros Hi Ha Hab Hb. assert (PC : forall y, a < y < b -> piece i y) by (intros y Hy; split; [lia|]; split; right; lra).
  assert (NK : forall y, a < y < b -> ~ knot y).
  { intros y Hy [q [Hq ->]]. destruct (Nat.le_gt_cases q i) as [L|L].
    - assert (t q <= t i) by (apply MONO; lia). lra.
    - assert (t (i + 1)%nat <= t q) by (apply MONO; lia). lra. }
  assert (IN : forall y, a < y < b -> t 0%nat <= y <= t n).
  { intros y Hy. assert (t 0%nat <= t i) by (apply MONO; lia). assert (t (i + 1)%nat <= t n) by (apply MONO; lia). lra. }
  set (mid := (a + b) / 2). assert (Hm : a < mid < b) by (unfold mid; lra).
  induction d as [|d IH]; intros c Hd H j Hj.
  - assert (j = i) by lia. subst j. rewrite <- (sp0_at c i mid (PC mid Hm)). apply H. assumption.
  - assert (D : forall y, a < y < b -> sp d (dc d c) y = 0).
    { intros y Hy. apply (uniqueness_limite (sp (S d) c) y); [apply sp_deriv; [apply NK; assumption|assumption]|].
      apply (deriv_ext_loc _ (fct_cte 0) y 0 (Rmin (y - a) (b - y))); [apply Rmin_glb_lt; lra| |apply derivable_pt_lim_const].
      intros y' Hy'. unfold fct_cte. apply H. pose proof (Rmin_l (y - a) (b - y)). pose proof (Rmin_r (y - a) (b - y)). apply Rabs_def2 in Hy'. lra. }
    assert (ST : forall j, (j <= i <= j + d)%nat -> c j = c (j - 1)%nat).
    { intros j' Hj'. pose proof (IH (dc d c) ltac:(lia) D j' Hj') as Z. unfold dc in Z. replace (j' =? 0)%nat with false in Z by (symmetry; apply Nat.eqb_neq; lia).
      assert (L1 : t j' <= t i) by (apply MONO; lia). assert (L2 : t (i + 1)%nat <= t (j' + d + 1)%nat) by (apply MONO; lia).
      assert (Q : qi (t (j' + d + 1)%nat - t j') <> 0). { intros E. pose proof (qi_r (t (j' + d + 1)%nat - t j') ltac:(lra)) as K. rewrite E in K. lra. }
      apply Rmult_integral in Z. destruct Z as [Z|Z]; [exfalso; revert Z; apply not_0_INR; lia|]. apply Rmult_integral in Z. destruct Z; [lra|contradiction]. }
    assert (EQ : forall m j, (j + m = i)%nat -> (m <= S d)%nat -> c j = c i).
    { induction m as [|m IHm]; intros j' E L; [f_equal; lia|]. rewrite <- (IHm (j' + 1)%nat ltac:(lia) ltac:(lia)). rewrite (ST (j' + 1)%nat) by lia. f_equal. lia. }
    assert (CI : c i = 0). { rewrite <- (sp_one (S d) c i mid Hd (PC mid Hm) (IN mid Hm)); [apply H; assumption|]. intros j' Hj'. apply (EQ (i - j')%nat); lia. }
    rewrite (EQ (i - j)%nat j) by lia. assumption.
Qed.

(** ** the collocation matrix *)
Definition dead (c : nat -> R) (i : nat) : Prop := forall j, (j <= i <= j + k)%nat -> c j = 0.
Lemma run_left c i : (k <= i)%nat -> ~ dead c i -> exists u, (k <= u <= i)%nat /\ (forall m, (u <= m <= i)%nat -> ~ dead c m) /\ (u = k \/ (k < u)%nat /\ dead c (u - 1)).
Proof.
  intros Hi. replace i with (k + (i - k))%nat by lia. generalize (i - k)%nat. clear i Hi. intros m. induction m as [|m IH]; intros N.
  - exists k. split; [lia|]. split; [|auto]. intros m Hm. replace m with (k + 0)%nat by lia. assumption.
  - destruct (classic (dead c (k + m)%nat)) as [D|D].
    + exists (k + S m)%nat. split; [lia|]. split; [|right; split; [lia|]; replace (k + S m - 1)%nat with (k + m)%nat by lia; assumption].
      intros q Hq. replace q with (k + S m)%nat by lia. assumption.
    + destruct (IH D) as [u [U1 [U2 U3]]]. exists u. split; [lia|]. split; [|assumption]. intros q Hq.
      destruct (Nat.eq_dec q (k + S m)) as [->|]; [assumption|apply U2; lia].
Qed.
Lemma run_right c i : (i < n)%nat -> ~ dead c i -> exists v, (i <= v < n)%nat /\ (forall m, (i <= m <= v)%nat -> ~ dead c m) /\ (v = (n - 1)%nat \/ (v + 1 < n)%nat /\ dead c (v + 1)).
Proof.
  intros Hi. remember (n - 1 - i)%nat as g eqn:E. revert i Hi E. induction g as [|g IH]; intros i Hi E N.
  - exists i. split; [lia|]. split; [|left; lia]. intros m Hm. replace m with i by lia. assumption.
  - destruct (classic (dead c (i + 1)%nat)) as [D|D].
    + exists i. split; [lia|]. split; [|right; split; [lia|assumption]]. intros m Hm. replace m with i by lia. assumption.
    + destruct (IH (i + 1)%nat ltac:(lia) ltac:(lia) D) as [v [V1 [V2 V3]]]. exists v. split; [lia|]. split; [|assumption]. intros q Hq.
      destruct (Nat.eq_dec q i) as [->|]; [assumption|apply V2; lia].
Qed.
(** between two zeros over living pieces the derivative takes both signs *)
Lemma gap d c u v z z' : k = S d -> (k <= u <= v)%nat -> (v < n)%nat -> (forall m, (u <= m <= v)%nat -> ~ dead c m) ->
  t u <= z -> z < z' -> z' <= t (v + 1)%nat -> sp (S d) c z = 0 -> sp (S d) c z' = 0 ->
  exists sg y y', z < y /\ y < y' /\ y' < z' /\ 0 < sg * sp d (dc d c) y /\ 0 < - sg * sp d (dc d c) y'.
Proof.
  intros Ek Hu Hv AL L1 L2 L3 Z1 Z2. destruct (piece_find z) as [i P].
  pose proof (piece_ge_u u i z ltac:(lia) P L1) as I1. pose proof (piece_le_v v i z ltac:(lia) P ltac:(lra)) as I2.
  assert (B1 : t i <= z). { destruct P as [_ [[->|]_]]; [|assumption]. assert (t k <= t u) by (apply MONO; lia). lra. }
  assert (B2 : z < t (i + 1)%nat). { destruct P as [_ [_ [->|]]]; [|assumption]. assert (t (v + 1)%nat <= t (n - 1 + 1)%nat) by (apply MONO; lia). lra. }
  set (b := Rmin z' (t (i + 1)%nat)). assert (Hb : z < b) by (apply Rmin_glb_lt; assumption). pose proof (Rmin_l z' (t (i + 1)%nat)) as M1. pose proof (Rmin_r z' (t (i + 1)%nat)) as M2. fold b in M1, M2.
  assert (W : exists w, z < w < b /\ sp (S d) c w <> 0).
  { apply NNPP. intros N. apply (AL i ltac:(lia)). intros j Hj. apply (sp_independent i z b ltac:(lia) B1 Hb M2 (S d) c); [lia| |lia].
    intros y Hy. apply NNPP. intros Y. apply N. eauto. }
  destruct W as [w [Hw W]].
  assert (SG : exists sg, 0 < sg * sp (S d) c w).
  { destruct (Rtotal_order (sp (S d) c w) 0) as [G|[G|G]]; [exists (-1); lra|contradiction|exists 1; lra]. }
  destruct SG as [sg SG].
  destruct (sp_mvt d c sg z w ltac:(lia) ltac:(lra)) as [y [Y1 Y2]]; [rewrite Z1; lra|].
  destruct (sp_mvt d c (- sg) w z' ltac:(lia) ltac:(lra)) as [y' [Y1' Y2']]; [rewrite Z2; lra|].
  exists sg, y, y'. lra.
Qed.
Lemma alt_gap f b L z z' : (exists sg y y', z < y /\ y < y' /\ y' < z' /\ 0 < sg * f y /\ 0 < - sg * f y') -> z' <= b ->
  (L = 0%nat \/ exists sg, (sg = 1 \/ sg = -1) /\ alt f b (S L) sg z') -> exists sg, (sg = 1 \/ sg = -1) /\ alt f b (S (S L)) sg z.
Proof.
  intros [sg [y [y' [H1 [H2 [H3 [H4 H5]]]]]]] Hb H.
  assert (N : exists s, (s = 1 \/ s = -1) /\ 0 < s * f y /\ 0 < - s * f y').
  { destruct (Rtotal_order (f y) 0) as [G|[G|G]].
    - exists (-1). assert (sg < 0) by nra. split; [auto|]. split; [lra|nra].
    - rewrite G in H4. lra.
    - exists 1. assert (0 < sg) by nra. split; [auto|]. split; [lra|nra]. }
  clear sg H4 H5. destruct N as [s [S1 [S2 S3]]]. destruct H as [->|[sg [G A]]].
  - exists s. split; [assumption|]. cbn [alt]. exists y. split; [lra|]. split; [assumption|]. exists y'. split; [lra|]. auto.
  - destruct (Req_EM_T sg s) as [->|N].
    + exists (- s). split; [lra|]. change (exists y, z < y < b /\ 0 < - s * f y /\ alt f b (S L) (- - s) y). exists y'. split; [lra|]. split; [assumption|].
      rewrite Ropp_involutive. apply (alt_left _ _ _ _ z'); [lra|assumption].
    + exists s. split; [assumption|]. change (exists y, z < y < b /\ 0 < s * f y /\ alt f b (S L) (- s) y). exists y. split; [lra|]. split; [assumption|].
      replace (- s) with sg by lra. apply (alt_left _ _ _ _ z'); [lra|assumption].
Qed.
Theorem schoenberg_whitney_core (x : nat -> R) c :
  (forall i j, (i < j)%nat -> (j < n)%nat -> x i < x j) -> t 0%nat <= x 0%nat -> x (n - 1)%nat <= t n ->
  (forall i, (0 < i < n)%nat -> t i < x i) -> (forall i, (i + 1 < n)%nat -> x i < t (i + k + 1)%nat) ->
  (forall i, (i < n)%nat -> sp k c (x i) = 0) -> forall j, (j < n)%nat -> c j = 0.
Proof.
  intros INC X0 XN SW1 SW2 ZERO j0 Hj0. apply NNPP. intros NZ.
  assert (XM : forall i j, (i <= j)%nat -> (j < n)%nat -> x i <= x j).
  { intros i j Hij Hj. destruct (Nat.eq_dec i j) as [->|]; [lra|]. left. apply INC; lia. }
  assert (AL : ~ dead c (Nat.max k j0)) by (intros D; apply NZ, D; lia).
  destruct (run_left c _ (Nat.le_max_l k j0) AL) as [u [U1 [U2 U3]]]. destruct (run_right c (Nat.max k j0) ltac:(lia) AL) as [v [V1 [V2 V3]]].
  assert (LIVE : forall m, (u <= m <= v)%nat -> ~ dead c m).
  { intros m Hm. destruct (Nat.le_gt_cases m (Nat.max k j0)); [apply U2; lia|apply V2; lia]. }
  set (bl := negb (u =? k)%nat). set (br := negb (v =? n - 1)%nat).
  assert (Hbl : bl = true -> (k < u)%nat /\ dead c (u - 1)).
  { unfold bl. destruct (Nat.eqb_spec u k); cbn; [discriminate|]. destruct U3; [contradiction|auto]. }
  assert (Hbr : br = true -> (v + 1 < n)%nat /\ dead c (v + 1)).
  { unfold br. destruct (Nat.eqb_spec v (n - 1)); cbn; [discriminate|]. destruct V3; [contradiction|auto]. }
  assert (Ebl : bl = false -> u = k) by (unfold bl; destruct (Nat.eqb_spec u k); [auto|discriminate]).
  assert (Ebr : br = false -> v = (n - 1)%nat) by (unfold br; destruct (Nat.eqb_spec v (n - 1)); [auto|discriminate]).
  clearbody bl br. clear U2 V2 U3 V3 AL.
  set (p := if bl then u else 0%nat). set (e := if br then (v + 1 - k)%nat else n).
  assert (Hpe : (p < e)%nat /\ (e <= n)%nat).
  { unfold p, e. destruct bl; [|destruct br; lia]. destruct br; [|lia]. split; [|lia].
    destruct (Hbl eq_refl) as [K1 D1], (Hbr eq_refl) as [K2 D2]. destruct (Nat.lt_ge_cases u (v + 1 - k)) as [|G]; [assumption|exfalso].
    apply (LIVE u ltac:(lia)). intros j Hj. destruct (Nat.eq_dec j u) as [->|N]; [apply D2; lia|apply D1; lia]. }
  assert (ZL : t u <= x p /\ (bl = true -> t u < x p)).
  { unfold p. destruct bl.
    - destruct (Hbl eq_refl). assert (t u < x u) by (apply SW1; lia). split; [lra|auto].
    - rewrite (Ebl eq_refl), FIRST by lia. split; [assumption|discriminate]. }
  assert (ZR : x (e - 1)%nat <= t (v + 1)%nat /\ (br = true -> x (e - 1)%nat < t (v + 1)%nat)).
  { unfold e. destruct br.
    - destruct (Hbr eq_refl). assert (x (v + 1 - k - 1)%nat < t (v + 1)%nat) by (replace (v + 1)%nat with (v + 1 - k - 1 + k + 1)%nat at 2 by lia; apply SW2; lia). split; [lra|auto].
    - rewrite (Ebr eq_refl). replace (n - 1 + 1)%nat with n by lia. split; [assumption|discriminate]. }
  assert (ED : exists d, k = S d) by (exists (k - 1)%nat; lia). destruct ED as [d Ed].
  assert (ZERO' : forall i, (i < n)%nat -> sp (S d) c (x i) = 0) by (intros i Hi; rewrite <- Ed; auto). set (f := sp d (dc d c)).
  assert (CL : forall w, dead c w -> clear_at (S d) c w) by (intros w D j H1 H2; apply D; lia).
  assert (CH : forall g m, (m + g + 1 = e)%nat -> (p <= m)%nat ->
     (g + Nat.b2n br)%nat = 0%nat \/ exists sg, (sg = 1 \/ sg = -1) /\ alt f (t (v + 1)%nat) (S (g + Nat.b2n br)) sg (x m)).
  { induction g as [|g IH]; intros m Hm Hp.
    - destruct br; [right|left; reflexivity]. destruct (Hbr eq_refl) as [K2 D2].
      apply (alt_gap f _ 0 _ (t (v + 1)%nat)); [|lra|auto]. assert (x m < t (v + 1)%nat) by (replace m with (e - 1)%nat by lia; apply ZR; reflexivity).
      apply (gap d c u v); try lia; try lra; try assumption.
      + destruct ZL as [ZL _]. apply Rle_trans with (x p); [assumption|apply XM; lia].
      + apply ZERO'. lia.
      + apply clear_zero; [lia|]. apply CL. assumption.
    - right. apply (alt_gap f _ (g + Nat.b2n br) _ (x (m + 1)%nat)).
      + apply (gap d c u v); try lia; try assumption.
        * destruct ZL as [ZL _]. apply Rle_trans with (x p); [assumption|apply XM; lia].
        * apply INC; lia.
        * destruct ZR as [ZR _]. apply Rle_trans with (x (e - 1)%nat); [apply XM; lia|assumption].
        * apply ZERO'. lia.
        * apply ZERO'. lia.
      + destruct ZR as [ZR _]. apply Rle_trans with (x (e - 1)%nat); [apply XM; lia|assumption].
      + apply IH; lia. }
  assert (FIN : (e - p - 1 + Nat.b2n br + Nat.b2n bl)%nat = 0%nat \/ exists sg, alt f (t (v + 1)%nat) (S (e - p - 1 + Nat.b2n br + Nat.b2n bl)) sg (t u)).
  { specialize (CH (e - p - 1)%nat p ltac:(lia) ltac:(lia)). destruct bl eqn:Eb; cbn [Nat.b2n].
    - right. rewrite (Nat.add_1_r (e - p - 1 + Nat.b2n br)). destruct (alt_gap f (t (v + 1)%nat) (e - p - 1 + Nat.b2n br) (t u) (x p)) as [sg [_ A]]; [| |exact CH|exists sg; exact A].
      + destruct (Hbl eq_refl) as [K1 D1]. apply (gap d c u v); try lia; try assumption.
        * lra.
        * apply ZL. reflexivity.
        * destruct ZR as [ZR _]. apply Rle_trans with (x (e - 1)%nat); [apply XM; lia|assumption].
        * apply clear_zero; [lia|]. intros j H1 H2. apply D1. lia.
        * apply ZERO'. lia.
      + destruct ZR as [ZR _]. apply Rle_trans with (x (e - 1)%nat); [apply XM; lia|assumption].
    - rewrite (Nat.add_0_r (e - p - 1 + Nat.b2n br)). destruct CH as [CH|[sg [_ A]]]; [auto|right]. exists sg. apply (alt_left _ _ _ _ (x p)); [apply ZL|assumption]. }
  destruct FIN as [FIN|[sg A]].
  - clear - FIN Hn. unfold p, e in FIN. destruct bl, br; cbn [Nat.b2n] in FIN; lia.
  - assert (B : (S (e - p - 1 + Nat.b2n br + Nat.b2n bl) + d * (Nat.b2n bl + Nat.b2n br) <= v + 1 - u + d)%nat).
    { apply (alt_bound u v bl br) with (c := dc d c) (sg := sg); try lia; try assumption.
      + intros E. apply clear_deriv. destruct (Hbl E) as [K1 D1]. intros j H1 H2. apply D1. lia.
      + intros E. apply clear_deriv. destruct (Hbr E) as [K1 D1]. intros j H1 H2. apply D1. lia. }
    clear - B Hbl Hbr Ebl Ebr Hpe Ed U1 V1 Hn Hj0. unfold p, e in *. destruct bl, br; cbn [Nat.b2n] in B; try destruct (Hbl eq_refl) as [? _]; try destruct (Hbr eq_refl) as [? _];
        try specialize (Ebl eq_refl); try specialize (Ebr eq_refl); lia.
Qed.
End Sw.

(** the knots of the interpolator are strictly increasing inside *)
Lemma fit_knots_strict x k : (1 <= k)%nat -> (k + 2 <= List.length x)%nat -> increasing x ->
  forall i j, (k <= i)%nat -> (i < j)%nat -> (j <= List.length x)%nat -> at_ (fit_knots x k) i < at_ (fit_knots x k) j.
Proof.
  intros Hk Hn HI. destruct (fit_knots_spec x k Hn) as [K1 [K2 K3]]. set (t := at_ (fit_knots x k)) in *. set (n := List.length x) in *.
  assert (MID : forall j, (j < n - k - 1)%nat -> at_ x j < t (k + 1 + j)%nat < at_ x (j + k + 1)%nat).
  { intros j Hj. rewrite K2 by assumption. apply window_bounds; [assumption|]. intros i Hi. split; apply HI; fold n; lia. }
  assert (STEP : forall i, (k <= i < n)%nat -> t i < t (S i)).
  { intros i Hi. destruct (Nat.eq_dec i k) as [->|Nk].
    - rewrite (K1 k) by lia. pose proof (MID 0%nat ltac:(lia)) as M. replace (k + 1 + 0)%nat with (S k) in M by lia. lra.
    - destruct (Nat.eq_dec (S i) n) as [E|E].
      + rewrite (K3 (S i)) by lia. pose proof (MID (i - k - 1)%nat ltac:(lia)) as M. replace (k + 1 + (i - k - 1))%nat with i in M by lia. replace (i - k - 1 + k + 1)%nat with i in M by lia.
        replace (n - 1)%nat with i by lia. lra.
      + replace i with (k + 1 + (i - k - 1))%nat at 1 by lia. replace (S i) with (k + 1 + (i - k))%nat by lia. rewrite !K2 by lia.
        unfold Rdiv. apply Rmult_lt_compat_r; [apply Rinv_0_lt_compat, lt_0_INR; lia|].
        assert (P : 0 < Rsum k (fun m => at_ x (i - k + 1 + m) - at_ x (i - k - 1 + 1 + m))) by (apply Rsum_pos; [lia|]; intros m Hm; apply Rlt_Rminus, HI; fold n; lia).
        rewrite Rsum_minus in P. lra. }
  intros i j Hi Hij Hj. induction Hij as [|j Hij IH]; [apply STEP; lia|]. apply Rlt_trans with (t j); [apply IH; lia|apply STEP; lia].
Qed.
(** for strictly increasing coordinates the matrix of basis functions at the data is nonsingular, for every degree *)
Theorem schoenberg_whitney x k : (1 <= k)%nat -> (k + 2 <= List.length x)%nat -> increasing x -> injective (List.length x) (bmat (fit_knots x k) k x).
Proof.
  intros Hk Hn HI. destruct (fit_knots_clamped x k Hk Hn HI) as [C [T0 [TN SW]]]. set (n := List.length x) in *. set (t := at_ (fit_knots x k)) in *.
  intros c Hc j Hj. pose proof C as [_ _ Cmono Cf Cl _].
  apply (schoenberg_whitney_core t n k Hk Hn Cmono Cf Cl (fit_knots_strict x k Hk Hn HI) (at_ x) c); try assumption.
  - rewrite T0. lra.
  - rewrite TN. lra.
  - intros i Hi. destruct (Nat.eq_dec i (n - 1)) as [->|N]; [|apply SW; lia]. rewrite <- TN. destruct (Nat.le_gt_cases (n - 1) k) as [L|L]; [lia|]. apply (fit_knots_strict x k Hk Hn HI); fold n; lia.
  - intros i Hi. destruct (Nat.eq_dec i 0) as [->|N]; [|apply SW; lia]. rewrite <- T0, <- (Cf k) by lia. apply (fit_knots_strict x k Hk Hn HI); fold n; lia.
  - intros i Hi. rewrite <- (Hc i Hi). unfold sp, mvec, bmat. rewrite fit_knots_length by (fold n; lia). fold n. replace (n + k + 1 - k - 1)%nat with n by lia. fold t.
    apply Rsum_ext. intros l Hl. rewrite Rmult_comm. f_equal. symmetry. 
    apply basis_nb; try assumption; try lia; [apply (fit_knots_strict x k Hk Hn HI)|]. rewrite T0, TN. split; apply inc_le; try assumption; fold n; lia.
Qed.
(** hence the unregularised fit always succeeds: the interpolating spline exists, passes through the data and is unique *)
Theorem fit_exists x k z : (1 <= k)%nat -> (k + 2 <= List.length x)%nat -> increasing x ->
  exists c, fit1 x k 0 z = Some c /\ (forall i, (i < List.length x)%nat -> spline_at x k c (at_ x i) = z i) /\
    (forall c', (forall i, (i < List.length x)%nat -> spline_at x k c' (at_ x i) = z i) -> forall j, (j < List.length x)%nat -> c' j = c j).
Proof.
  intros Hk Hn HI. assert (E : exists c, fit1 x k 0 z = Some c).
  { unfold fit1. apply gsolve_some_iff. apply gram_injective. apply schoenberg_whitney; assumption. }
  destruct E as [c E]. exists c. split; [assumption|]. split; [apply (fit_interpolates x k z c); assumption|]. intros c' Hc'. apply (fit_unique x k z c c'); assumption.
Qed.
