(** C119: expectations under the samplers of distributions.py, as integrals against the stated densities.  No model of its own. *)
From Coq Require Import Reals Lra Lia List ZArith String.
From Coquelicot Require Import Coquelicot.
From Verif Require Import Base Rutil Dist_model Dist_props Skyavg_props Skysamp_props.
Local Open Scope R_scope.

Lemma sampler_expectation (s q d g : R -> R) (low high v : R) : low < high -> q low = 0 -> q high = 1 ->
  (forall x : R, low <= x <= high -> is_derive q x (d x) /\ continuous d x /\ s (q x) = x /\ continuous s (q x)) ->
  (forall u : R, 0 <= u <= 1 -> low <= s u <= high /\ q (s u) = u) ->
  (forall x : R, low <= x <= high -> continuous g x) ->
  is_RInt (fun x : R => d x * g x) low high v -> is_RInt (fun u : R => g (s u)) 0 1 v.
Proof.
  intros H Q0 Q1 D I C0 K. set (F := fun u : R => g (s u)).
  assert (CF : forall u : R, 0 <= u <= 1 -> continuous F u).
  { intros u Hu. destruct (I u Hu) as [B E]. destruct (D (s u) B) as (_ & _ & E2 & C1). rewrite E in C1.
    unfold F. apply (continuous_comp s g); [exact C1|apply C0, B]. }
  assert (E : is_RInt (fun x : R => d x * F (q x)) low high (RInt F (q low) (q high))).
  { apply (is_RInt_comp (V := R_CompleteNormedModule) F q d low high); rewrite Rmin_left, Rmax_right by lra; intros x Hx.
    - destruct (D x Hx) as (_ & _ & E & C1). apply (continuous_comp s g); [exact C1|]. rewrite E. apply C0, Hx.
    - split; [apply D, Hx|apply (D x Hx)]. }
  rewrite Q0, Q1 in E.
  assert (EV : RInt F 0 1 = v).
  { rewrite <- (is_RInt_unique _ _ _ _ K). symmetry. apply is_RInt_unique. eapply is_RInt_ext; [|exact E].
    intros x Hx. rewrite Rmin_left, Rmax_right in Hx by lra. unfold F. cbn beta. destruct (D x ltac:(lra)) as (_ & _ & -> & _). reflexivity. }
  rewrite <- EV. apply (RInt_correct (V := R_CompleteNormedModule)). apply (ex_RInt_continuous (V := R_CompleteNormedModule)).
  rewrite Rmin_left, Rmax_right by lra. exact CF.
Qed.

Theorem loguniform_expectation (low high : R) (g : R -> R) (v : R) : 0 < low -> low < high ->
  (forall x : R, low <= x <= high -> continuous g x) ->
  is_RInt (fun x : R => 1 / (x * (ln high - ln low)) * g x) low high v -> is_RInt (fun u : R => g (logu_rsample low high u)) 0 1 v.
Proof.
  intros Hl H C0. assert (L : ln low < ln high) by (apply ln_increasing; lra).
  apply (sampler_expectation (logu_rsample low high) (fun x => (ln x - ln low) / (ln high - ln low))); [exact H|field; lra|field; lra| | |exact C0].
  - intros x Hx. split; [auto_derive; [lra|field; lra]|]. split.
    { apply (ex_derive_continuous (V := R_NormedModule)). auto_derive. intros E. apply Rmult_integral in E. lra. }
    split.
    + unfold logu_rsample, uni_rsample. replace (ln low + (ln x - ln low) / (ln high - ln low) * (ln high - ln low)) with (ln x) by (field; lra). apply exp_ln. lra.
    + apply (ex_derive_continuous (V := R_NormedModule)). unfold logu_rsample, uni_rsample. auto_derive. exact Logic.I.
  - intros u Hu. exact (loguniform_rsample_spec low high u Hl H Hu).
Qed.

Lemma Rpower_inv x a : 0 < x -> a <> 0 -> Rpower (Rpower x a) (1 / a) = x.
Proof. intros H Ha. rewrite Rpower_mult. replace (a * (1 / a)) with 1 by (field; exact Ha). apply Rpower_1, H. Qed.
Theorem powerlaw_expectation (minimum maximum index : R) (g : R -> R) (v : R) : 0 < minimum -> minimum < maximum -> index <> 0 ->
  (forall x : R, minimum <= x <= maximum -> continuous g x) ->
  is_RInt (fun x : R => (if Req_EM_T index (-1) then 1 / (x * (ln maximum - ln minimum))
     else (index + 1) * Rpower x index / (Rpower maximum (index + 1) - Rpower minimum (index + 1))) * g x) minimum maximum v ->
  is_RInt (fun u : R => match pl_rsample minimum maximum index u with Ok x => g x | Err _ => 0 end) 0 1 v.
Proof.
  intros Hm H Hi C0. unfold pl_rsample. destruct (Req_EM_T index 0); [contradiction|]. destruct (Req_EM_T index (-1)) as [E|E].
  { apply (loguniform_expectation minimum maximum g v Hm H C0). }
  set (a := index + 1). assert (Ha : a <> 0) by (unfold a; lra).
  set (p := Rpower minimum a). set (q := Rpower maximum a).
  assert (TP : forall x, 0 < x -> forall y, tpow x y = Rpower x y) by (intros x Hx y; unfold tpow; destruct (Req_EM_T x 0); [lra|reflexivity]).
  assert (Pp : 0 < p) by apply exp_pos. assert (Pq : 0 < q) by apply exp_pos.
  assert (L : ln minimum < ln maximum) by (apply ln_increasing; lra).
  assert (PQ : q - p <> 0).
  { unfold p, q, Rpower. intros K. assert (K' : exp (a * ln maximum) = exp (a * ln minimum)) by lra. apply exp_inv in K'. nra. }
  intros K. apply (is_RInt_ext (fun u : R => g (Rpower (p + u * (q - p)) (1 / a)))).
  { intros u Hu. rewrite Rmin_left, Rmax_right in Hu by lra. unfold uni_rsample. rewrite (TP minimum), (TP maximum) by lra. fold p q.
    replace (0 + a * (p / a + u * (q / a - p / a))) with (p + u * (q - p)) by (field; exact Ha).
    rewrite TP by nra. reflexivity. }
  apply (sampler_expectation (fun u => Rpower (p + u * (q - p)) (1 / a)) (fun x => (Rpower x a - p) / (q - p))
    (fun x => (index + 1) * Rpower x index / (q - p)) g minimum maximum v H); [unfold p; field; exact PQ|unfold q; field; exact PQ| | |exact C0|exact K].
  - intros x Hx. assert (Px : 0 < Rpower x a) by apply exp_pos. split; [|split; [|split]].
    + unfold Rpower. auto_derive; [lra|]. fold a. replace (index * ln x) with (a * ln x - ln x) by (unfold a; ring).
      replace (exp (a * ln x - ln x)) with (exp (a * ln x) * / x) by (unfold Rminus; rewrite exp_plus, exp_Ropp, exp_ln by lra; reflexivity). field. split; [lra|exact PQ].
    + apply (ex_derive_continuous (V := R_NormedModule)). unfold Rpower. auto_derive. lra.
    + replace (p + (Rpower x a - p) / (q - p) * (q - p)) with (Rpower x a) by (field; exact PQ). apply Rpower_inv; [lra|exact Ha].
    + apply (ex_derive_continuous (V := R_NormedModule)). unfold Rpower at 1. auto_derive.
      replace (p + (Rpower x a - p) / (q - p) * (q - p)) with (Rpower x a) by (field; exact PQ). exact Px.
  - intros u Hu. assert (Pw : 0 < p + u * (q - p)) by nra.
    destruct (powerlaw_rsample_spec minimum maximum index u ltac:(lra) ltac:(lra) H Hu Hi) as (x & Ex & B & _ & Q).
    unfold pl_rsample in Ex. destruct (Req_EM_T index 0); [contradiction|]. destruct (Req_EM_T index (-1)); [contradiction|].
    unfold uni_rsample in Ex. fold a in Ex. rewrite (TP minimum), (TP maximum) in Ex by lra. fold p q in Ex.
    replace (0 + a * (p / a + u * (q / a - p / a))) with (p + u * (q - p)) in Ex by (field; exact Ha). rewrite TP in Ex by exact Pw.
    injection Ex as Ex. rewrite Ex. split; [exact B|]. specialize (Q E). fold a in Q. rewrite (TP x), (TP minimum), (TP maximum) in Q by lra. exact Q.
Qed.

(** means of the samplers *)
Example loguniform_mean low high : 0 < low -> low < high -> is_RInt (fun u : R => logu_rsample low high u) 0 1 ((high - low) / (ln high - ln low)).
Proof.
  intros Hl H. assert (L : ln low < ln high) by (apply ln_increasing; lra).
  apply (loguniform_expectation low high (fun x => x)); try assumption.
  - intros; apply continuous_id.
  - apply (is_RInt_ext (fun _ : R => 1 / (ln high - ln low))).
    { intros x Hx. rewrite Rmin_left, Rmax_right in Hx by lra. rfield. lra. }
    pose proof (is_RInt_const (V := R_NormedModule) low high (1 / (ln high - ln low))) as K. unfold scal in K. cbn in K. unfold mult in K. cbn in K.
    replace ((high - low) / (ln high - ln low)) with ((high - low) * (1 / (ln high - ln low))) by (field; lra). exact K.
Qed.
