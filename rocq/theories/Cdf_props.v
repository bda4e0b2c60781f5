(** C91: the distribution functions of the samplers of distributions.py, when torch.rand returns independent uniform
    multiples of 1/N. *)
From Coquelicot Require Import Coquelicot.
From Verif Require Import Base Tensor Rutil Dist_model Dist_props Ucv_props.
From Coq Require Import Reals Lra Lia List ZArith.
Import ListNotations.
From Verif Require Import Prob Law_model Law_lib.
Local Open Scope R_scope.

(** distribution.rsample(shape): one torch.rand value for each cell of [shape], transformed by [sample] *)
Definition rsample_law (N : nat) (sample : R -> R) (shape : list nat) : dist (tensor R) :=
  dbind (field_law (rand_law N) 0 (all_idx shape)) (fun u => ret (mk shape (fun i => sample (u i)))).
(** every cell i of the result lies in [a i, b i) *)
Definition inbox (shape : list nat) (a b : list nat -> R) (t : tensor R) : bool :=
  forallb (fun i => match get t i with Some v => if Rle_dec (a i) v then if Rlt_dec v (b i) then true else false else false | None => false end) (all_idx shape).
(** the samples are independent and all have distribution function F on [lo, hi), up to the resolution 1/N *)
Definition has_cdf (N : nat) (sample : R -> R) (lo hi : R) (F : R -> R) : Prop :=
  exists q : R -> R,
    (forall x, lo <= x <= hi -> F x <= q x < F x + / INR N /\ (forall k, F x = INR k / INR N -> q x = F x)) /\
    (q lo = 0 /\ q hi = 1) /\
    forall shape a b, (forall i, inb i shape -> lo <= a i <= b i /\ b i <= hi) ->
      pr (rsample_law N sample shape) (inbox shape a b) = lprod (fun i => q (b i) - q (a i)) (all_idx shape).

Lemma rand_support N w u : (0 < N)%nat -> In (w, u) (rand_law N) -> 0 <= u < 1.
Proof.
  intros HN H. unfold rand_law in H. apply in_map_iff in H as (k & E & Hk). injection E as _ <-. apply in_seq in Hk. assert (P : 0 < INR N) by (apply lt_0_INR; lia).
  assert (0 <= INR k) by apply pos_INR. assert (INR k < INR N) by (apply lt_INR; lia). split; [apply Rmult_le_pos; [lra|left; apply Rinv_0_lt_compat, P]|]. apply (Rmult_lt_reg_r (INR N)); [exact P|]. unfold Rdiv. rewrite Rmult_assoc, Rinv_l; lra.
Qed.
(** P(a <= U < b) *)
Lemma rand_between N a b : a <= b -> pr (rand_law N) (fun u => negb (below a u) && below b u)%bool = pr (rand_law N) (below b) - pr (rand_law N) (below a).
Proof.
  intros H. unfold pr. induction (rand_law N) as [|[w u] d IH]; cbn [lsum fst snd]; [lra|]. rewrite IH. unfold below. destruct (Rlt_dec u a), (Rlt_dec u b); cbn [negb andb]; lra.
Qed.
(** field_prob, for events that agree on the values that occur *)
Lemma field_support {A} (d : dist A) a0 cells w f : In (w, f) (field_law d a0 cells) -> forall i, In i cells -> exists w', In (w', f i) d.
Proof.
  revert w f. induction cells as [|c l IH]; intros w f H i Hi; [destruct Hi|]. cbn [field_law] in H. unfold dbind in H. apply in_flat_map in H as ([w1 a] & Ha & H).
  apply in_map_iff in H as ([w2 g] & E & H). cbn [fst snd] in *. apply in_flat_map in H as ([w3 g'] & Hg & H). cbn [ret map In fst snd] in H. destruct H as [H|[]]. injection E as _ <-. injection H as _ <-.
  destruct (list_eq_dec Nat.eq_dec i c) as [->|N]; [exists w1; exact Ha|]. destruct Hi as [->|Hi]; [contradiction|]. exact (IH _ _ Hg i Hi).
Qed.

(** a sampler that inverts F: strictly increasing F, F (sample u) = u *)
Lemma inverse_has_cdf N sample lo hi F : (0 < N)%nat -> F lo = 0 -> F hi = 1 ->
  (forall x y, lo <= x <= hi -> lo <= y <= hi -> x < y -> F x < F y) -> lo <= hi ->
  (forall u, 0 <= u < 1 -> lo <= sample u <= hi /\ F (sample u) = u) ->
  has_cdf N sample lo hi F.
Proof.
  intros HN F0 F1 Fm Hlh HS. exists (fun x => pr (rand_law N) (below (F x))).
  assert (FB : forall x, lo <= x <= hi -> 0 <= F x <= 1).
  { intros x Hx. split; [rewrite <- F0|rewrite <- F1].
    - destruct (Req_dec lo x) as [->|]; [lra|]. left. apply Fm; lra.
    - destruct (Req_dec x hi) as [->|]; [lra|]. left. apply Fm; lra. }
  assert (PN : 0 < INR N) by (apply lt_0_INR; lia).
  split; [|split].
  - intros x Hx. destruct (rand_below N (F x) HN (FB x Hx)) as (A & B & _). split; [exact A|exact B].
  - split; [rewrite F0|rewrite F1].
    + destruct (rand_below N 0 HN ltac:(lra)) as (_ & B & _). apply (B 0%nat). cbn. lra.
    + destruct (rand_below N 1 HN ltac:(lra)) as (_ & B & _). apply (B N). field. lra.
  - intros shape a b Hab. unfold rsample_law. rewrite pr_bind_ret.
    assert (LT : forall u x, 0 <= u < 1 -> lo <= x <= hi -> (sample u < x <-> u < F x)).
    { intros u x Hu Hx. destruct (HS u Hu) as [B E]. split; intros H.
      - rewrite <- E. apply Fm; assumption.
      - apply Rnot_le_lt. intros L. destruct L as [L| ->]; [|lra]. apply (Fm _ _ Hx B) in L. lra. }
    rewrite (pr_ext _ _ (fun u => forallb (fun i => (negb (below (F (a i)) (u i)) && below (F (b i)) (u i))%bool) (all_idx shape))).
    + rewrite (field_prob (rand_law N) 0 (all_idx shape) (fun i u => (negb (below (F (a i)) u) && below (F (b i)) u)%bool) (all_idx_NoDup shape)).
      apply lprod_ext. intros i Hi. apply all_idx_spec in Hi. destruct (Hab i Hi). apply rand_between. destruct (Req_dec (a i) (b i)) as [->|]; [lra|]. left. apply Fm; lra.
    + intros w u Hw. unfold inbox. apply Bool.eq_iff_eq_true. rewrite !forallb_forall. split; intros K i Hi; specialize (K i Hi).
      all: destruct (field_support _ _ _ _ _ Hw i Hi) as [w' HU]; apply (rand_support N w' _ HN) in HU; apply all_idx_spec in Hi; rewrite get_inb in * by exact Hi; cbn [elt] in *; destruct (Hab i Hi) as [[H1 H2] H3];
        assert (LA := LT (u i) (a i) HU ltac:(lra)); assert (LB := LT (u i) (b i) HU ltac:(lra)); unfold below in *;
        destruct (Rle_dec (a i) (sample (u i))), (Rlt_dec (sample (u i)) (b i)), (Rlt_dec (u i) (F (a i))), (Rlt_dec (u i) (F (b i))); cbn [negb andb] in *; try reflexivity; try discriminate; exfalso; (tauto || (apply n; apply Rnot_lt_le; tauto) || (rewrite <- LA in *; lra) || (rewrite <- LB in *; lra) || idtac).
Qed.

Lemma frac_mono a c x y : 0 < c -> x < y -> (x - a) / c < (y - a) / c.
Proof. intros Hc H. unfold Rdiv. apply Rmult_lt_compat_r; [apply Rinv_0_lt_compat, Hc|lra]. Qed.

(** ** C91 *)
Theorem uniform_cdf N low high : (0 < N)%nat -> low < high -> has_cdf N (uni_rsample low high) low high (fun x => (x - low) / (high - low)).
Proof.
  intros HN H. apply inverse_has_cdf; [exact HN|unfold Rdiv; ring|field; lra| |lra|].
  - intros x y _ _ L. apply frac_mono; lra.
  - intros u Hu. unfold uni_rsample. split; [nra|field; lra].
Qed.
Theorem cosine_cdf N low high : (0 < N)%nat -> - (PI / 2) <= low -> low < high -> high <= PI / 2 ->
  has_cdf N (cos_rsample low high) low high (fun x => (sin x - sin low) / (sin high - sin low)).
Proof.
  intros HN H1 H2 H3. assert (HS := sin_strict low high H1 H2 H3). apply inverse_has_cdf; [exact HN|unfold Rdiv; ring|field; lra| |lra|].
  - intros x y Hx Hy L. apply frac_mono; [lra|]. apply sin_strict; lra.
  - intros u Hu. apply cosine_rsample_spec; lra.
Qed.
Theorem sine_cdf N low high : (0 < N)%nat -> 0 <= low -> low < high -> high <= PI ->
  has_cdf N (sin_rsample low high) low high (fun x => (cos low - cos x) / (cos low - cos high)).
Proof.
  intros HN H1 H2 H3. assert (HS : cos high < cos low) by (apply cos_decreasing_1; lra). apply inverse_has_cdf; [exact HN|unfold Rdiv; ring|field; lra| |lra|].
  - intros x y Hx Hy L. assert (cos y < cos x) by (apply cos_decreasing_1; lra). unfold Rdiv. apply Rmult_lt_compat_r; [apply Rinv_0_lt_compat; lra|lra].
  - intros u Hu. apply sine_rsample_spec; lra.
Qed.
Theorem loguniform_cdf N low high : (0 < N)%nat -> 0 < low -> low < high ->
  has_cdf N (logu_rsample low high) low high (fun x => (ln x - ln low) / (ln high - ln low)).
Proof.
  intros HN H1 H2. assert (HS : ln low < ln high) by (apply ln_increasing; lra). apply inverse_has_cdf; [exact HN|unfold Rdiv; ring|field; lra| |lra|].
  - intros x y Hx Hy L. apply frac_mono; [lra|]. apply ln_increasing; lra.
  - intros u Hu. apply loguniform_rsample_spec; lra.
Qed.
(** the value of a sampler that does not raise *)
Definition value (r : res R) : R := match r with Ok x => x | Err _ => 0 end.
Theorem powerlaw_cdf N minimum maximum index : (0 < N)%nat -> 0 <= minimum -> (minimum = 0 -> -1 < index) -> minimum < maximum -> index <> 0 ->
  (forall u, 0 <= u < 1 -> is_ok (pl_rsample minimum maximum index u)) /\
  has_cdf N (fun u => value (pl_rsample minimum maximum index u)) minimum maximum
    (fun x => if Req_EM_T index (-1) then (ln x - ln minimum) / (ln maximum - ln minimum)
              else (tpow x (index + 1) - tpow minimum (index + 1)) / (tpow maximum (index + 1) - tpow minimum (index + 1))).
Proof.
  intros HN H0 Hz Hm Hi. split; [intros u Hu; destruct (powerlaw_rsample_spec minimum maximum index u H0 Hz Hm ltac:(lra) Hi) as (x & E & _); exists x; exact E|].
  assert (HM : 0 < minimum \/ -1 < index) by (destruct (Req_dec minimum 0) as [Z|Z]; [right; auto|left; lra]).
  destruct (Req_EM_T index (-1)) as [E|E].
  - assert (P : 0 < minimum) by lra. assert (HS : ln minimum < ln maximum) by (apply ln_increasing; lra). apply inverse_has_cdf; [exact HN|unfold Rdiv; ring|field; lra| |lra|].
    + intros x y Hx Hy L. apply frac_mono; [lra|]. apply ln_increasing; lra.
    + intros u Hu. destruct (powerlaw_rsample_spec minimum maximum index u H0 Hz Hm ltac:(lra) Hi) as (x & Ex & B & A & _). rewrite Ex. cbn [value]. split; [exact B|apply A, E].
  - set (a := index + 1) in *. assert (Ha : a <> 0) by (unfold a; lra).
    assert (D : forall x y, minimum <= x -> x < y -> (0 < a /\ tpow x a < tpow y a) \/ (a < 0 /\ tpow y a < tpow x a)).
    { intros x y Hx L. destruct (Rlt_dec 0 a); [left|right]; (split; [lra|]); [apply tpow_lt; lra|]. apply tpow_lt_neg; [|lra|lra]. destruct HM as [|HM]; [lra|unfold a in *; lra]. }
    assert (DM := D minimum maximum ltac:(lra) Hm).
    apply inverse_has_cdf; [exact HN|unfold Rdiv; ring|field; destruct DM as [[? ?]|[? ?]]; lra| |lra|].
    + intros x y Hx Hy L. assert (DX := D x y ltac:(lra) L). destruct DM as [[A1 A2]|[A1 A2]], DX as [[B1 B2]|[B1 B2]]; try lra.
      * apply frac_mono; lra.
      * replace ((tpow x a - tpow minimum a) / (tpow maximum a - tpow minimum a)) with ((- tpow x a - - tpow minimum a) / (tpow minimum a - tpow maximum a)) by (field; lra).
        replace ((tpow y a - tpow minimum a) / (tpow maximum a - tpow minimum a)) with ((- tpow y a - - tpow minimum a) / (tpow minimum a - tpow maximum a)) by (field; lra). apply frac_mono; lra.
    + intros u Hu. destruct (powerlaw_rsample_spec minimum maximum index u H0 Hz Hm ltac:(lra) Hi) as (x & Ex & B & _ & A). rewrite Ex. cbn [value]. split; [exact B|apply A, E].
Qed.
(** UniformComovingVolume and RateEvolution: samples follow the tabulated distribution function, interpolated linearly, between
    the first and the last grid distance of the requested range (which need not reach minimum and maximum) *)
Theorem ucv_cdf N h0 om zmax n ty (rate : R -> R) minimum maximum s : (0 < N)%nat ->
  0 < h0 -> 0 <= om -> 0 < zmax -> (forall z, 0 <= z -> 0 < rate z) -> ucv_create h0 om zmax n ty minimum maximum = Ok s ->
  (minimum <= u_d s 0 < u_d s (u_n s - 1) /\ u_d s (u_n s - 1) <= maximum) /\
  has_cdf N (u_rsample h0 om zmax n rate s) (u_d s 0) (u_d s (u_n s - 1)) (interp (u_n s) (u_d s) (u_cdf h0 om zmax n rate s)).
Proof.
  intros HN H1 H2 H3 H4 Hs.
  pose proof (ucv_cdf_spec h0 om zmax n ty rate H1 H2 H3 H4 minimum maximum s Hs) as (G2 & C0 & C1 & Cs).
  assert (Hd : strict (u_n s) (u_d s)) by exact (ud_strict h0 om zmax n ty rate H1 H2 H3 H4 minimum maximum s Hs).
  assert (L : u_d s 0 < u_d s (u_n s - 1)) by (apply Hd; lia).
  assert (R0 : minimum <= u_d s 0 <= maximum) by (apply (ud_range h0 om zmax n ty rate H1 H2 H3 H4 minimum maximum s Hs); lia).
  assert (R1 : minimum <= u_d s (u_n s - 1) <= maximum) by (apply (ud_range h0 om zmax n ty rate H1 H2 H3 H4 minimum maximum s Hs); lia).
  split; [lra|]. apply inverse_has_cdf; [exact HN| | | |lra|].
  - rewrite interp_knot by (try assumption; lia). exact C0.
  - rewrite interp_knot by (try assumption; lia). exact C1.
  - intros x y _ _ Lxy. apply interp_mono; try assumption.
  - intros u Hu. pose proof (ucv_rsample_spec h0 om zmax n ty rate H1 H2 H3 H4 minimum maximum s Hs u ltac:(lra)) as (_ & E & _). split; [|exact E].
    unfold u_rsample. apply interp_range; try assumption. rewrite C0, C1. lra.
Qed.
(** the law is not degenerate: with N = 4, two draws of Uniform(0, 1): both below 1/2 with probability 1/4 *)
Example uniform_two_draws : pr (rsample_law 4 (uni_rsample 0 1) [2]%nat) (inbox [2]%nat (fun _ => 0) (fun _ => 1 / 2)) = 1 / 4.
Proof.
  destruct (uniform_cdf 4 0 1 ltac:(lia) ltac:(lra)) as (q & Q & [Q0 _] & L). rewrite L by (intros; lra). cbn [all_idx seq flat_map map app lprod].
  destruct (Q (1 / 2) ltac:(lra)) as [_ E]. rewrite (E 2%nat) by (cbn [INR]; field). rewrite Q0. field.
Qed.
