(** C110: RateEvolution with a rate that vanishes on part of the range (a cut-off, a delayed onset, a gap). *)
From Coquelicot Require Import Coquelicot.
From Verif Require Import Base Rutil Dist_model Ucv_props.
Local Open Scope R_scope.

(** ** tables that may be flat *)
Definition mono (n : nat) (x : nat -> R) : Prop := forall i j, (i <= j < n)%nat -> x i <= x j.
Lemma bucketize_mono n x v : mono n x -> (forall i, (i < bucketize n x v)%nat -> x i <= v) /\ (forall i, (bucketize n x v <= i < n)%nat -> v < x i).
Proof.
  induction n as [|n IH]; intros Hs; [unfold bucketize; cbn; split; intros; lia|].
  assert (Hs' : mono n x) by (intros i j H; apply Hs; lia). destruct (IH Hs') as [A B].
  rewrite bucketize_S. destruct (Rle_dec (x n) v) as [L|L].
  - assert (E : bucketize n x v = n).
    { destruct (Nat.eq_dec (bucketize n x v) n) as [|N]; [assumption|]. pose proof (bucketize_le n x v).
      assert (v < x (n - 1)%nat) by (apply B; lia). assert (x (n - 1)%nat <= x n) by (apply Hs; lia). lra. }
    rewrite E in *. split; [|intros; lia]. intros i Hi. destruct (Nat.eq_dec i n) as [->|]; [exact L|apply A; lia].
  - rewrite Nat.add_0_r. split; [exact A|]. intros i Hi. destruct (Nat.eq_dec i n) as [->|]; [lra|]. apply B; lia.
Qed.
Lemma cumtrapz_mono n y x : strict n x -> (forall k, (k < n)%nat -> 0 <= y k) -> mono n (cumtrapz y x).
Proof.
  intros Hx H0 i j Hij. induction j as [|j IH]; [replace i with 0%nat by lia; lra|]. destruct (Nat.eq_dec i (S j)) as [->|N]; [lra|].
  rewrite cumtrapz_S. assert (x j < x (S j)) by (apply Hx; lia). assert (0 <= y j) by (apply H0; lia). assert (0 <= y (S j)) by (apply H0; lia).
  assert (cumtrapz y x i <= cumtrapz y x j) by (apply IH; lia). nra.
Qed.

(** ** C110 *)
Section Rate.
  Variables (h0 om zmax : R) (n : nat) (ty : dtype) (rate : R -> R) (minimum maximum : R) (s : ucv).
  (** a rate that is never negative and is positive at one grid point of the range other than the first *)
  Hypothesis (Hh : 0 < h0) (Hom : 0 <= om) (Hz : 0 < zmax) (Hrate : forall z, 0 <= z -> 0 <= rate z)
    (Hs : ucv_create h0 om zmax n ty minimum maximum = Ok s) (Hpos : exists k, (0 < k < u_n s)%nat /\ 0 < rate (u_z s k)).
  Let one : forall z, 0 <= z -> 0 < (fun _ : R => 1) z := fun z _ => Rlt_0_1.
  Local Notation pdf := (u_pdf h0 om zmax n rate s).
  Local Notation cdf := (u_cdf h0 om zmax n rate s).
  Local Notation lp := (u_log_prob h0 om zmax n rate s).
  Lemma r_ge2 : (2 <= u_n s)%nat.
  Proof using All. exact (un_ge2 h0 om zmax n ty (fun _ => 1) Hh Hom Hz one minimum maximum s Hs). Qed.
  Lemma r_strict : strict (u_n s) (u_d s).
  Proof using All. exact (ud_strict h0 om zmax n ty (fun _ => 1) Hh Hom Hz one minimum maximum s Hs). Qed.
  Lemma r_range k : (k < u_n s)%nat -> minimum <= u_d s k <= maximum.
  Proof using All. exact (ud_range h0 om zmax n ty (fun _ => 1) Hh Hom Hz one minimum maximum s Hs k). Qed.
  Lemma r_z k : 0 <= u_z s k.
  Proof using All.
    destruct (ucv_facts h0 om zmax n ty (fun _ => 1) Hh Hom Hz one minimum maximum s Hs) as [idx [_ [_ [_ [_ [_ [_ [_ [Ez _]]]]]]]]]. rewrite Ez.
    apply (zg_nonneg h0 om zmax n ty (fun _ => 1)); assumption.
  Qed.
  Lemma r_p k : u_p h0 om zmax n rate s k = u_p h0 om zmax n (fun _ => 1) s k * rate (u_z s k).
  Proof using All. unfold u_p. ring. Qed.
  Lemma r_p1 k : (k < u_n s)%nat -> 0 <= u_p h0 om zmax n (fun _ => 1) s k /\ ((0 < k)%nat -> 0 < u_p h0 om zmax n (fun _ => 1) s k).
  Proof using All. exact (up_nonneg h0 om zmax n ty (fun _ => 1) Hh Hom Hz one minimum maximum s Hs k). Qed.
  Lemma r_nonneg k : (k < u_n s)%nat -> 0 <= u_p h0 om zmax n rate s k.
  Proof using All. intros Hk. rewrite r_p. apply Rmult_le_pos; [apply r_p1, Hk|apply Hrate, r_z]. Qed.
  Lemma r_total : 0 < trapz (u_n s) (u_p h0 om zmax n rate s) (u_d s).
  Proof using All.
    destruct Hpos as [k [Hk Rk]]. set (p := u_p h0 om zmax n rate s). unfold trapz. assert (M := cumtrapz_mono (u_n s) p (u_d s) r_strict r_nonneg).
    assert (P : 0 < p k) by (unfold p; rewrite r_p; apply Rmult_lt_0_compat; [apply r_p1; lia|exact Rk]).
    assert (P0 : 0 <= p (k - 1)%nat) by (apply r_nonneg; lia). assert (D : u_d s (k - 1)%nat < u_d s k) by (apply r_strict; lia).
    assert (E := cumtrapz_S p (u_d s) (k - 1)). replace (S (k - 1)) with k in E by lia.
    assert (M0 : 0 <= cumtrapz p (u_d s) (k - 1)) by (apply (M 0%nat); lia). assert (M1 : cumtrapz p (u_d s) k <= cumtrapz p (u_d s) (u_n s - 1)) by (apply M; lia). nra.
  Qed.
  (** the tabulated density vanishes exactly where the rate does (and at zero distance) *)
  Theorem rate_pdf k : (k < u_n s)%nat -> 0 <= pdf k /\ (pdf k = 0 <-> rate (u_z s k) = 0 \/ u_com s k = 0).
  Proof using All.
    intros Hk. assert (T := r_total). assert (N := r_nonneg k Hk). unfold u_pdf. split; [apply Rmult_le_pos; [exact N|left; apply Rinv_0_lt_compat, T]|].
    assert (G : 0 < gradient (u_n s) (dz zmax n) (u_d s) k) by exact (gradient_pos h0 om zmax n ty (fun _ => 1) Hh Hom Hz one minimum maximum s Hs k Hk).
    assert (HP : 0 < hubble h0 om (u_z s k)) by (apply (hubble_pos h0 om zmax n ty (fun _ => 1) Hh Hom Hz one), r_z).
    set (T0 := trapz (u_n s) (u_p h0 om zmax n rate s) (u_d s)) in *. clearbody T0. clear N. unfold u_p.
    set (g := gradient (u_n s) (dz zmax n) (u_d s) k) in *. set (h := hubble h0 om (u_z s k)) in *. clearbody g h. split.
    - intros E. assert (E2 : (u_com s k) ^ 2 * rate (u_z s k) = 0).
      { apply (Rmult_eq_compat_r (h * g * T0)) in E. rewrite Rmult_0_l in E. rewrite <- E. field. lra. }
      destruct (Rmult_integral _ _ E2) as [E3|E3]; [|left; exact E3]. right. destruct (Req_dec (u_com s k) 0) as [|Q]; [assumption|]. exfalso. apply (pow_nonzero _ 2) in Q. contradiction.
    - intros [E|E]; rewrite E; unfold Rdiv; ring.
  Qed.
  (** the tabulated distribution function never decreases, starts at 0, ends at 1, and rises exactly in the cells where the density does not vanish at both ends *)
  Theorem rate_cdf : cdf 0%nat = 0 /\ cdf (u_n s - 1)%nat = 1 /\ (forall i j, (i <= j < u_n s)%nat -> cdf i <= cdf j) /\
    forall i, (0 < i < u_n s)%nat -> (cdf (i - 1)%nat < cdf i <-> 0 < pdf (i - 1)%nat \/ 0 < pdf i).
  Proof using All.
    split; [reflexivity|]. assert (T := r_total). split; [unfold u_cdf, u_pdf; rewrite cumtrapz_scal; unfold trapz in *; field; lra|]. split.
    - apply (cumtrapz_mono (u_n s)); [apply r_strict|]. intros k Hk. apply rate_pdf, Hk.
    - intros i Hi. unfold u_cdf. assert (E := cumtrapz_S pdf (u_d s) (i - 1)). replace (S (i - 1)) with i in E by lia. rewrite E.
      assert (D : u_d s (i - 1)%nat < u_d s i) by (apply r_strict; lia). destruct (rate_pdf i) as [A _]; [lia|]. destruct (rate_pdf (i - 1)) as [B _]; [lia|].
      set (a := pdf i) in *. set (b := pdf (i - 1)%nat) in *. split; [|intros [Q|Q]; nra].
      intros Q. destruct (Rlt_dec 0 b) as [|N1]; [left; assumption|]. destruct (Rlt_dec 0 a) as [|N2]; [right; assumption|]. exfalso. assert (a = 0) by lra. assert (b = 0) by lra. subst a b. rewrite H, H0 in Q. lra.
  Qed.
  (** sampling: every draw in [0, 1) falls in a cell in which the distribution function rises, so the sample is well defined, lies in that cell, its
      distribution function is the draw, and larger draws give larger samples *)
  Theorem rate_rsample u : 0 <= u < 1 -> exists i, (0 < i < u_n s)%nat /\ cdf (i - 1)%nat <= u < cdf i /\
    u_rsample h0 om zmax n rate s u = u_d s (i - 1)%nat + (u - cdf (i - 1)%nat) / (cdf i - cdf (i - 1)%nat) * (u_d s i - u_d s (i - 1)%nat) /\
    u_d s (i - 1)%nat <= u_rsample h0 om zmax n rate s u < u_d s i /\
    minimum <= u_rsample h0 om zmax n rate s u <= maximum /\ (0 < pdf (i - 1)%nat \/ 0 < pdf i).
  Proof using All.
    intros Hu. destruct rate_cdf as (C0 & C1 & M & Rise). assert (H2 := r_ge2). destruct (bucketize_mono (u_n s) cdf u M) as [A B]. assert (BL := bucketize_le (u_n s) cdf u).
    assert (K1 : (1 <= bucketize (u_n s) cdf u)%nat). { destruct (bucketize (u_n s) cdf u) eqn:E; [|lia]. specialize (B 0%nat ltac:(lia)). lra. }
    assert (K2 : (bucketize (u_n s) cdf u <= u_n s - 1)%nat). { destruct (Nat.le_gt_cases (bucketize (u_n s) cdf u) (u_n s - 1)) as [|N]; [assumption|]. specialize (A (u_n s - 1)%nat ltac:(lia)). lra. }
    assert (I : interp_idx (u_n s) cdf u = bucketize (u_n s) cdf u) by (unfold interp_idx; lia).
    exists (bucketize (u_n s) cdf u). set (i := bucketize (u_n s) cdf u) in *. split; [lia|]. assert (A1 : cdf (i - 1)%nat <= u) by (apply A; lia). assert (B1 : u < cdf i) by (apply B; lia).
    split; [split; assumption|].
    assert (E : u_rsample h0 om zmax n rate s u = u_d s (i - 1)%nat + (u - cdf (i - 1)%nat) / (cdf i - cdf (i - 1)%nat) * (u_d s i - u_d s (i - 1)%nat)) by (unfold u_rsample, interp; rewrite I; reflexivity).
    split; [exact E|]. assert (D : u_d s (i - 1)%nat < u_d s i) by (apply r_strict; lia).
    assert (T0 : 0 <= (u - cdf (i - 1)%nat) / (cdf i - cdf (i - 1)%nat)) by (apply Rmult_le_pos; [lra|left; apply Rinv_0_lt_compat; lra]).
    assert (T1 : (u - cdf (i - 1)%nat) / (cdf i - cdf (i - 1)%nat) < 1) by (apply Rlt_div_l; lra).
    assert (Q : u_d s (i - 1)%nat <= u_rsample h0 om zmax n rate s u < u_d s i) by (rewrite E; nra). split; [exact Q|].
    split. { assert (R1 := r_range (i - 1)%nat ltac:(lia)). assert (R2 := r_range i ltac:(lia)). lra. } apply Rise; [lia|lra].
  Qed.
  (** log_prob at a value v of the range, in its cell (the first and the last cell extend to the ends of the range) *)
  Theorem rate_log_prob v i : (0 < i < u_n s)%nat -> (i = 1%nat \/ u_d s (i - 1)%nat <= v) -> (i = (u_n s - 1)%nat \/ v < u_d s i) -> minimum <= v <= maximum ->
    let x := (v - u_d s (i - 1)%nat) / (u_d s i - u_d s (i - 1)%nat) in
    (0 < pdf (i - 1)%nat -> 0 < pdf i -> lp v = Some (Fin (ln (pdf (i - 1)%nat) + x * (ln (pdf i) - ln (pdf (i - 1)%nat))))) /\
    (0 < pdf (i - 1)%nat -> pdf i = 0 -> u_d s (i - 1)%nat < v -> lp v = Some MInf) /\
    (0 < pdf (i - 1)%nat -> pdf i = 0 -> v = u_d s (i - 1)%nat -> lp v = Some NaN) /\
    (0 < pdf (i - 1)%nat -> pdf i = 0 -> v < u_d s (i - 1)%nat -> lp v = None) /\
    (pdf (i - 1)%nat = 0 -> 0 < pdf i -> u_d s (i - 1)%nat <= v -> lp v = Some NaN) /\
    (pdf (i - 1)%nat = 0 -> 0 < pdf i -> v < u_d s (i - 1)%nat -> lp v = Some MInf) /\
    (pdf (i - 1)%nat = 0 -> pdf i = 0 -> lp v = Some NaN).
  Proof using All.
    intros Hi A1 A2 Hv x. destruct (ucv_facts h0 om zmax n ty (fun _ => 1) Hh Hom Hz one minimum maximum s Hs) as [idx [_ [_ [_ [Em [Ex _]]]]]].
    assert (D : u_d s (i - 1)%nat < u_d s i) by (apply r_strict; lia).
    assert (E : lp v = xadd (xlog (pdf (i - 1)%nat)) (xmul x (xsub (xlog (pdf i)) (xlog (pdf (i - 1)%nat))))).
    { unfold u_log_prob. rewrite Em, Ex. destruct (Rle_dec minimum v); [|lra]. destruct (Rle_dec v maximum); [|lra]. unfold xinterp.
      rewrite (idx_unique (u_n s) (u_d s) v i r_ge2 r_strict) by (try assumption; lia). reflexivity. }
    assert (L1 : forall q, 0 < q -> xlog q = Fin (ln q)) by (intros q Q; unfold xlog; destruct (Rlt_dec 0 q); [reflexivity|lra]).
    assert (L0 : forall q, q = 0 -> xlog q = MInf). { intros q Q. unfold xlog. destruct (Rlt_dec 0 q); [lra|]. destruct (Req_EM_T q 0); [reflexivity|lra]. }
    assert (Xp : u_d s (i - 1)%nat < v -> 0 < x) by (intros; apply Rdiv_lt_0_compat; lra).
    assert (X0 : v = u_d s (i - 1)%nat -> x = 0) by (intros Q; unfold x; rewrite Q; unfold Rdiv; ring).
    assert (Xn : v < u_d s (i - 1)%nat -> x < 0). { intros Q. unfold x, Rdiv. assert (0 < / (u_d s i - u_d s (i - 1)%nat)) by (apply Rinv_0_lt_compat; lra). nra. }
    rewrite E. clearbody x. repeat split.
    - intros P0 P1. rewrite (L1 _ P0), (L1 _ P1). reflexivity.
    - intros P0 P1 Q. rewrite (L1 _ P0), (L0 _ P1). specialize (Xp Q). cbn. destruct (Rlt_dec 0 x); [reflexivity|lra].
    - intros P0 P1 Q. rewrite (L1 _ P0), (L0 _ P1). specialize (X0 Q). cbn. destruct (Rlt_dec 0 x); [lra|]. destruct (Req_EM_T x 0); [reflexivity|lra].
    - intros P0 P1 Q. rewrite (L1 _ P0), (L0 _ P1). specialize (Xn Q). cbn. destruct (Rlt_dec 0 x); [lra|]. destruct (Req_EM_T x 0); [lra|reflexivity].
    - intros P0 P1 Q. rewrite (L0 _ P0), (L1 _ P1). cbn. destruct (Rlt_dec 0 x) as [|N]; [reflexivity|]. destruct (Req_EM_T x 0) as [|N2]; [reflexivity|].
      destruct Q as [Q|Q]; [specialize (Xp Q); lra|symmetry in Q; specialize (X0 Q); lra].
    - intros P0 P1 Q. rewrite (L0 _ P0), (L1 _ P1). specialize (Xn Q). cbn. destruct (Rlt_dec 0 x); [lra|]. destruct (Req_EM_T x 0); [lra|reflexivity].
    - intros P0 P1. rewrite (L0 _ P0), (L0 _ P1). reflexivity.
  Qed.
  (** a cut-off: with a rate that is zero at and beyond the redshift of grid point k, log_prob is NaN, not minus infinity, from that grid point on, and at
      the last grid point before it, where the density is positive *)
  Theorem rate_cutoff_refuted k v : (1 < k)%nat -> (k < u_n s)%nat -> (forall j, (k <= j < u_n s)%nat -> rate (u_z s j) = 0) -> 0 < rate (u_z s (k - 1)%nat) ->
    ((S k < u_n s)%nat -> u_d s k <= v <= maximum -> lp v = Some NaN) /\ (lp (u_d s (k - 1)%nat) = Some NaN /\ 0 < pdf (k - 1)%nat) /\
    (u_d s (k - 1)%nat < v < u_d s k -> lp v = Some MInf).
  Proof using All.
    intros Hk1 Hk Z P. assert (PZ : forall j, (k <= j < u_n s)%nat -> pdf j = 0) by (intros j Hj; apply rate_pdf; [lia|left; apply Z, Hj]).
    assert (PP : 0 < pdf (k - 1)%nat).
    { destruct (rate_pdf (k - 1)%nat) as [A B]; [lia|]. destruct A as [A|A]; [exact A|]. exfalso. symmetry in A. apply B in A. destruct A as [A|A]; [lra|].
      destruct (r_p1 (k - 1)%nat) as [_ Q]; [lia|]. specialize (Q ltac:(lia)). unfold u_p in Q. rewrite A in Q. unfold Rdiv in Q. rewrite pow_i, !Rmult_0_l in Q by lia. lra. }
    assert (D : u_d s (k - 1)%nat < u_d s k) by (apply r_strict; lia).
    assert (R1 := r_range (k - 1)%nat ltac:(lia)). assert (R2 := r_range k Hk). split; [|split; [split; [|exact PP]|]].
    - intros Hk2 Hv. destruct (idx_spec (u_n s) (u_d s) v r_ge2 r_strict) as (I1 & I2 & I3). set (i := interp_idx (u_n s) (u_d s) v) in *.
      assert (Ki : (k <= i - 1)%nat).
      { destruct (Nat.le_gt_cases k (i - 1)) as [|N]; [assumption|]. exfalso. destruct I3 as [I3|I3]; [lia|]. assert (u_d s i <= u_d s k) by (apply (strict_le (u_n s)); [apply r_strict|lia]). lra. }
      assert (RL := rate_log_prob v i ltac:(lia) I2 I3 ltac:(lra)). cbv zeta in RL. destruct RL as (_ & _ & _ & _ & _ & _ & L). apply L; apply PZ; lia.
    - assert (RL := rate_log_prob (u_d s (k - 1)%nat) k ltac:(lia) ltac:(right; lra) ltac:(right; lra) ltac:(lra)). cbv zeta in RL. destruct RL as (_ & _ & L & _). apply L; [exact PP|apply PZ; lia|reflexivity].
    - intros Hv. assert (RL := rate_log_prob v k ltac:(lia) ltac:(right; lra) ltac:(right; lra) ltac:(lra)). cbv zeta in RL. destruct RL as (_ & L & _). apply L; [exact PP|apply PZ; lia|lra].
  Qed.
End Rate.

(** ** a case: redshifts in [0, 2] on five grid points, sources only below z = 3/4.  Samples stay below z = 1; log_prob is NaN at z = 1/2, where the density is
    positive, -inf at z = 3/5 and NaN at z = 17/10 *)
Definition below (z : R) : R := if Rlt_dec z (3 / 4) then 1 else 0.
Example rate_ex : exists s, ucv_create 70 (1 / 3) 2 5 Redshift 0 2 = Ok s /\
  u_log_prob 70 (1 / 3) 2 5 below s (17 / 10) = Some NaN /\ u_log_prob 70 (1 / 3) 2 5 below s (1 / 2) = Some NaN /\ u_log_prob 70 (1 / 3) 2 5 below s (3 / 5) = Some MInf /\
  forall u, 0 <= u < 1 -> 0 <= u_rsample 70 (1 / 3) 2 5 below s u < 1.
Proof.
  assert (Z : forall k, (k < 5)%nat -> zg 2 5 k = INR k / 2) by (intros; unfold zg, linspace0; cbn [Nat.sub INR]; field).
  assert (Hst : strict 5 (zg 2 5)) by (intros i j H; rewrite !Z by lia; apply Rmult_lt_compat_r; [lra|apply lt_INR; lia]).
  assert (I0 : interp 5 (zg 2 5) (zg 2 5) 0 = 0).
  { replace 0 with (zg 2 5 0) at 1 by (rewrite Z by lia; cbn; field). rewrite interp_knot by (try assumption; lia). rewrite Z by lia. cbn. field. }
  assert (I1 : interp 5 (zg 2 5) (zg 2 5) 2 = 2).
  { assert (Z4 : zg 2 5 4 = 2) by (rewrite Z by lia; cbn; field). rewrite <- Z4 at 3. rewrite interp_knot by (try assumption; lia). exact Z4. }
  assert (E : ucv_idx 2 5 0 2 = [0; 1; 2; 3; 4]%nat).
  { unfold ucv_idx. cbn [seq filter]. rewrite !Z by lia. cbn [INR].
    repeat match goal with |- context [Rle_dec ?a ?b] => destruct (Rle_dec a b); try lra end. reflexivity. }
  assert (Q : exists s, ucv_create 70 (1 / 3) 2 5 Redshift 0 2 = Ok s /\ u_n s = 5%nat /\ forall k, (k < 5)%nat -> u_z s k = INR k / 2 /\ u_d s k = INR k / 2).
  { unfold ucv_create. change (5 <? 2)%nat with false. cbn iota. cbn [dist_grid]. rewrite I0, I1. destruct (Rlt_dec 2 2); [lra|]. rewrite E.
    change (length [0; 1; 2; 3; 4]%nat <? 2)%nat with false. cbn iota. eexists. split; [reflexivity|]. cbn [u_n u_z u_d]. split; [reflexivity|].
    intros k Hk. assert (N : nth k [0; 1; 2; 3; 4]%nat 0%nat = k) by (do 5 (destruct k as [|k]; [reflexivity|]); lia). rewrite N, Z by lia. split; reflexivity. }
  destruct Q as (s & Hs & En & V). exists s. split; [exact Hs|].
  assert (B : forall z, 0 <= z -> 0 <= below z) by (intros z _; unfold below; destruct (Rlt_dec z (3 / 4)); lra).
  assert (D : forall k, (k < 5)%nat -> u_d s k = INR k / 2) by (intros k Hk; apply V, Hk). assert (ZZ : forall k, (k < 5)%nat -> u_z s k = INR k / 2) by (intros k Hk; apply V, Hk).
  assert (P : exists k, (0 < k < u_n s)%nat /\ 0 < below (u_z s k)). { exists 1%nat. split; [lia|]. rewrite ZZ by lia. unfold below. cbn. destruct (Rlt_dec (1 / 2) (3 / 4)); lra. }
  assert (R0 : forall j, (2 <= j < u_n s)%nat -> below (u_z s j) = 0).
  { intros j Hj. rewrite ZZ by lia. unfold below. assert (2 <= INR j) by (apply (le_INR 2); lia). destruct (Rlt_dec (INR j / 2) (3 / 4)); lra. }
  assert (R1 : 0 < below (u_z s (2 - 1)%nat)). { rewrite ZZ by lia. unfold below. cbn. destruct (Rlt_dec (1 / 2) (3 / 4)); lra. }
  assert (CO := fun v => rate_cutoff_refuted 70 (1 / 3) 2 5 Redshift below 0 2 s ltac:(lra) ltac:(lra) ltac:(lra) B Hs P 2 v ltac:(lia) ltac:(lia) R0 R1).
  assert (D1 : u_d s 1%nat = 1 / 2) by (rewrite D by lia; reflexivity). assert (D2 : u_d s 2%nat = 1) by (rewrite D by lia; cbn; field).
  change (2 - 1)%nat with 1%nat in CO. rewrite D1, D2 in CO.
  split; [apply (CO (17 / 10)); [lia|lra]|]. split; [apply (CO 0)|]. split; [apply (CO (3 / 5)); lra|].
  intros u Hu. destruct (rate_rsample 70 (1 / 3) 2 5 Redshift below 0 2 s ltac:(lra) ltac:(lra) ltac:(lra) B Hs P u Hu) as (i & Hi & _ & _ & C1 & C2 & C3).
  split; [lra|]. destruct (Nat.le_gt_cases i 2) as [L|L]; [assert (u_d s i <= u_d s 2%nat) by (rewrite !D by lia; apply Rmult_le_compat_r; [lra|apply le_INR, L]); lra|]. exfalso.
  assert (PZ : forall j, (2 <= j < u_n s)%nat -> u_pdf 70 (1 / 3) 2 5 below s j = 0).
  { intros j Hj. apply (rate_pdf 70 (1 / 3) 2 5 Redshift below 0 2 s ltac:(lra) ltac:(lra) ltac:(lra) B Hs P j); [lia|]. left. apply R0, Hj. }
  rewrite !PZ in C3 by lia. lra.
Qed.
