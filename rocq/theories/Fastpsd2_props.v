(** Property C63: algebraic properties of the fast power / cross spectral density and its agreement with the exact one. *)
From Coq Require Import String Permutation Sorted.
From Verif Require Import Base Tensor Rutil Slicing_model Slicing_proofs Streaming_model Norm_model Norm_props Gw_model Gw_props Dft Snr_props Spectral_model Spectral_props Psd_props Fastpsd_props.
From Coquelicot Require Import Complex.
Local Open Scope R_scope.

(** ** aggregation is odd *)
Lemma rsort_opp l : rsort (map Ropp l) = rev (map Ropp (rsort l)).
Proof.
  apply sorted_perm_eq.
  - apply rsort_sorted.
  - pose proof (rsort_sorted l) as Hs. induction Hs as [|a l' Hs IH Hf]; [constructor|]. cbn [map rev].
    assert (A : forall m b, StronglySorted Rle m -> Forall (fun x => x <= b) m -> StronglySorted Rle (m ++ [b])).
    { intros m b Hm. induction Hm as [|c m Hm IHm Hfm]; intros Hb; cbn; [repeat constructor|]. inversion Hb; subst.
      constructor; [auto|]. apply Forall_app. split; [assumption|]. constructor; [assumption|constructor]. }
    apply A; [assumption|]. apply Forall_rev. apply Forall_map. eapply Forall_impl; [|exact Hf]. cbn. intros; lra.
  - rewrite <- rsort_perm. rewrite <- Permutation_rev. apply Permutation_map, rsort_perm.
Qed.
Lemma quantile_half_opp n f : (0 < n)%nat -> quantile_half n (fun i => - f i) = - quantile_half n f.
Proof.
  intros Hn. unfold quantile_half. rewrite <- (map_map f Ropp). rewrite rsort_opp.
  set (s := rsort (map f (seq 0 n))).
  assert (L : List.length s = n) by (unfold s; rewrite rsort_length, map_length, seq_length; reflexivity).
  assert (N : forall k, (k < n)%nat -> nth k (rev (map Ropp s)) 0 = - nth (n - 1 - k) s 0).
  { intros k Hk. rewrite rev_nth by (rewrite map_length; lia). rewrite map_length, L.
    rewrite (nth_indep _ 0 (- 0)) by (rewrite map_length; lia). rewrite map_nth. f_equal. f_equal. lia. }
  rewrite !N by (pose proof (Nat.div_lt n 2 ltac:(lia) ltac:(lia)); pose proof (Nat.div_le_mono (n-1) n 2 ltac:(lia) ltac:(lia)); lia).
  destruct (Nat.even n) eqn:E.
  - apply Nat.even_spec in E. destruct E as [m Em].
    replace (n - 1 - (n - 1) / 2)%nat with (n / 2)%nat. 2:{ clear - Hn Em; subst n. replace (2 * m - 1)%nat with ((m - 1) * 2 + 1)%nat by lia. rewrite Nat.div_add_l by lia. replace (2 * m)%nat with (m * 2)%nat by lia. rewrite Nat.div_mul by lia. cbn. lia. }
    replace (n - 1 - n / 2)%nat with ((n - 1) / 2)%nat. 2:{ clear - Hn Em; subst n. replace (2 * m - 1)%nat with ((m - 1) * 2 + 1)%nat by lia. rewrite Nat.div_add_l by lia. replace (2 * m)%nat with (m * 2)%nat by lia. rewrite Nat.div_mul by lia. cbn. lia. }
    lra.
  - assert (O : Nat.odd n = true) by (rewrite <- Nat.negb_even, E; reflexivity). apply Nat.odd_spec in O. destruct O as [m Em].
    replace (n - 1 - (n - 1) / 2)%nat with ((n - 1) / 2)%nat. 2:{ clear - Hn Em; subst n. replace (2 * m + 1 - 1)%nat with (m * 2)%nat by lia. rewrite Nat.div_mul by lia. lia. }
    lra.
Qed.
Lemma aggregate_opp a n f : (0 < n)%nat -> aggregate a n (fun i => - f i) = - aggregate a n f.
Proof.
  intros Hn. unfold aggregate. destruct (string_dec a "mean").
  - unfold mean. rewrite Rsum_opp. unfold Rdiv. ring.
  - unfold median. rewrite quantile_half_opp by assumption. unfold Rdiv. ring.
Qed.
Lemma aggregate_lin a c n f : (0 < n)%nat -> aggregate a n (fun i => c * f i) = c * aggregate a n f.
Proof.
  intros Hn. destruct (Rle_dec 0 c).
  - apply aggregate_scal; assumption.
  - rewrite (aggregate_ext a n _ (fun i => - ((- c) * f i))) by (intros; ring).
    rewrite aggregate_opp, aggregate_scal by (assumption || lra). ring.
Qed.
Lemma nseg_pos T n stride : (0 < nseg T n stride)%nat.
Proof. unfold nseg. rewrite Nat.add_1_r. apply Nat.lt_0_succ. Qed.

(** ** symmetry *)
Theorem fast_csd_swap average n stride T w scale x y f :
  fast_csd (aggregate average) n stride T w scale y x f = Cconj (fast_csd (aggregate average) n stride T w scale x y f).
Proof.
  unfold fast_csd, Cconj; cbn [fst snd]. f_equal.
  - apply aggregate_ext. intros s _. unfold Cmult, Cconj, RtoC, Re, Im; cbn. ring.
  - rewrite <- aggregate_opp by apply nseg_pos. apply aggregate_ext. intros s _. unfold Cmult, Cconj, RtoC, Re, Im; cbn. ring.
Qed.
Lemma fast_csd_self average n stride T w scale x f :
  fast_csd (aggregate average) n stride T w scale x x f =
  RtoC (aggregate average (nseg T n stride) (fun s => onesided n f * scale * Cmod (fast_seg n T w x (s * stride) f) ^ 2)).
Proof.
  unfold fast_csd, RtoC. f_equal.
  - apply aggregate_ext. intros s _. rewrite Cmod_sq. unfold Cmult, Cconj, RtoC, Re, Im; cbn. ring.
  - rewrite (aggregate_ext _ _ _ (fun _ => 0 * 0)).
    + rewrite aggregate_lin by apply nseg_pos. ring.
    + intros s _. unfold Cmult, Cconj, RtoC, Re, Im; cbn. ring.
Qed.
Theorem fast_csd_self_real_nonneg average n stride T w scale x f : 0 <= scale ->
  Im (fast_csd (aggregate average) n stride T w scale x x f) = 0 /\ 0 <= Re (fast_csd (aggregate average) n stride T w scale x x f).
Proof.
  intros Hs. rewrite fast_csd_self. unfold RtoC, Re, Im; cbn. split; [reflexivity|]. apply aggregate_nonneg. intros s _.
  apply Rmult_le_pos; [apply Rmult_le_pos; [pose proof (onesided_bounds n f); lra|assumption]|apply pow2_ge_0].
Qed.
(** ** scaling and offsets *)
Lemma fast_seg_affine n T w c d x off f : (0 < T)%nat ->
  fast_seg n T w (fun t => c * x t + d) off f = Cmult (RtoC c) (fast_seg n T w x off f).
Proof.
  intros HT. unfold fast_seg. rewrite <- rfft_scal. apply rfft_ext. intros t _.
  rewrite Rsum_plus, Rsum_scal, Rsum_const. pose proof (INR_pos T HT). field. lra.
Qed.
Theorem fast_csd_affine average n stride T w scale c d c' d' x y f : (0 < T)%nat ->
  fast_csd (aggregate average) n stride T w scale (fun t => c * x t + d) (fun t => c' * y t + d') f =
  Cmult (RtoC (c * c')) (fast_csd (aggregate average) n stride T w scale x y f).
Proof.
  intros HT. unfold fast_csd.
  set (zr := fun s => Re (Cmult (RtoC (onesided n f * scale)) (Cmult (Cconj (fast_seg n T w x (s * stride) f)) (fast_seg n T w y (s * stride) f)))).
  set (zi := fun s => Im (Cmult (RtoC (onesided n f * scale)) (Cmult (Cconj (fast_seg n T w x (s * stride) f)) (fast_seg n T w y (s * stride) f)))).
  transitivity (aggregate average (nseg T n stride) (fun s => (c * c') * zr s), aggregate average (nseg T n stride) (fun s => (c * c') * zi s)).
  - f_equal; apply aggregate_ext; intros s _; rewrite !fast_seg_affine by assumption; unfold zr, zi, Cmult, Cconj, RtoC, Re, Im; cbn; ring.
  - rewrite !aggregate_lin by apply nseg_pos. unfold Cmult, RtoC; cbn. f_equal; ring.
Qed.
(** ** Cauchy-Schwarz: the (mean) coherence is at most one *)
Lemma Rsum_CS n (a b : nat -> R) : (Rsum n (fun i => a i * b i)) ^ 2 <= Rsum n (fun i => a i ^ 2) * Rsum n (fun i => b i ^ 2).
Proof.
  induction n as [|n IH]; cbn [Rsum]; [lra|].
  set (s := Rsum n (fun i => a i * b i)) in *. set (p := Rsum n (fun i => a i ^ 2)) in *. set (q := Rsum n (fun i => b i ^ 2)) in *.
  assert (Hp : 0 <= p) by (apply Rsum_nonneg; intros; apply pow2_ge_0). assert (Hq : 0 <= q) by (apply Rsum_nonneg; intros; apply pow2_ge_0).
  set (u := a n). set (v := b n). clearbody s p q u v. clear a b.
  assert (A : 2 * s * (u * v) <= p * v ^ 2 + q * u ^ 2).
  { apply Rsqr_incr_0_var; [|pose proof (Rmult_le_pos _ _ Hp (pow2_ge_0 v)); pose proof (Rmult_le_pos _ _ Hq (pow2_ge_0 u)); lra]. unfold Rsqr.
    assert ((2 * s * (u * v)) * (2 * s * (u * v)) <= 4 * (p * q) * (u * v) ^ 2) by (pose proof (Rmult_le_compat_r (4 * (u * v) ^ 2) _ _ ltac:(pose proof (pow2_ge_0 (u * v)); lra) IH); lra).
    assert (4 * (p * q) * (u * v) ^ 2 <= (p * v ^ 2 + q * u ^ 2) * (p * v ^ 2 + q * u ^ 2)).
    { assert (0 <= (p * v ^ 2 - q * u ^ 2) ^ 2) by apply pow2_ge_0. nra. }
    lra. }
  nra.
Qed.
Lemma Csum_CS n (a b : nat -> C) : Cmod (Csum n (fun i => Cmult (Cconj (a i)) (b i))) ^ 2 <= Rsum n (fun i => Cmod (a i) ^ 2) * Rsum n (fun i => Cmod (b i) ^ 2).
Proof.
  assert (M : Cmod (Csum n (fun i => Cmult (Cconj (a i)) (b i))) <= Rsum n (fun i => Cmod (a i) * Cmod (b i))).
  { induction n as [|n IH]; cbn [Csum Rsum]; [rewrite Cmod_0; lra|]. eapply Rle_trans; [apply Cmod_triangle|].
    rewrite (Cmod_mult (Cconj (a n))), Cmod_conj. lra. }
  eapply Rle_trans; [|apply Rsum_CS]. apply pow_incr. split; [apply Cmod_ge_0|assumption].
Qed.
Theorem fast_csd_coherence n stride T w scale x y f : 0 <= scale ->
  Cmod (fast_csd (aggregate "mean") n stride T w scale x y f) ^ 2 <=
  Re (fast_csd (aggregate "mean") n stride T w scale x x f) * Re (fast_csd (aggregate "mean") n stride T w scale y y f).
Proof.
  intros Hs. rewrite !fast_csd_self. unfold RtoC at 1 2. unfold Re at 1 2. cbn [fst].
  set (N := nseg T n stride). set (k := onesided n f * scale).
  assert (Hk : 0 <= k) by (unfold k; pose proof (onesided_bounds n f); nra).
  set (a := fun s => fast_seg n T w x (s * stride) f). set (b := fun s => fast_seg n T w y (s * stride) f).
  assert (HN : 0 < INR N) by (apply INR_pos, nseg_pos).
  assert (E : fast_csd (aggregate "mean") n stride T w scale x y f = Cmult (RtoC (k / INR N)) (Csum N (fun s => Cmult (Cconj (a s)) (b s)))).
  { unfold fast_csd. fold N k. change (aggregate "mean") with mean. unfold mean.
    rewrite (surjective_pairing (Cmult (RtoC (k / INR N)) _)). f_equal.
    - transitivity (k * Rsum N (fun s => Re (Cmult (Cconj (a s)) (b s))) / INR N).
      + rewrite <- Rsum_scal. f_equal. apply Rsum_ext. intros s _. apply Re_scal.
      + change (fst ?z) with (Re z). rewrite Re_scal, Re_Csum. field. lra.
    - transitivity (k * Rsum N (fun s => Im (Cmult (Cconj (a s)) (b s))) / INR N).
      + rewrite <- Rsum_scal. f_equal. apply Rsum_ext. intros s _. apply Im_scal.
      + change (snd ?z) with (Im z). rewrite Im_scal, Im_Csum. field. lra. }
  rewrite E, Cmod_mult, Cmod_R, Rpow_mult_distr, pow2_abs. change (aggregate "mean") with mean. unfold mean.
  rewrite (Rsum_scal N k (fun s => Cmod (fast_seg n T w x (s * stride) f) ^ 2)), (Rsum_scal N k (fun s => Cmod (fast_seg n T w y (s * stride) f) ^ 2)).
  pose proof (Csum_CS N a b) as CS. unfold a, b in CS |- *.
  replace (k * Rsum N (fun s => Cmod (fast_seg n T w x (s * stride) f) ^ 2) / INR N * (k * Rsum N (fun s => Cmod (fast_seg n T w y (s * stride) f) ^ 2) / INR N))
    with ((k / INR N) ^ 2 * (Rsum N (fun s => Cmod (fast_seg n T w x (s * stride) f) ^ 2) * Rsum N (fun s => Cmod (fast_seg n T w y (s * stride) f) ^ 2))) by (field; lra).
  apply Rmult_le_compat_l; [apply pow2_ge_0|exact CS].
Qed.

(** ** agreement with the exact spectral density *)
Lemma seg_agree n T w x off f : rfft n w f = RtoC 0 ->
  fast_seg n T w x off f = rfft n (fun t => w t * (x (off + t)%nat - seg_mean n x off)) f.
Proof.
  intros H. unfold fast_seg.
  rewrite (rfft_ext n _ (fun t => w t * (x (off + t)%nat - seg_mean n x off) + (seg_mean n x off - Rsum T x / INR T) * w t)) by (intros; ring).
  rewrite rfft_plus, rfft_scal, H. ring.
Qed.
Theorem fast_agrees_where_window_vanishes average n stride T w scale x f : rfft n w f = RtoC 0 ->
  fast_csd (aggregate average) n stride T w scale x x f = RtoC (welch (aggregate average) n stride T w scale x f).
Proof.
  intros H. rewrite fast_csd_self. f_equal. unfold welch. apply aggregate_ext. intros s _.
  rewrite seg_agree by assumption. unfold seg_power. ring.
Qed.
Lemma rfft_boxcar n f : (0 < f < n)%nat -> rfft n (fun _ => 1) f = RtoC 0.
Proof.
  intros H. unfold rfft, dft.
  rewrite (Csum_ext _ _ (fun t => w n (Z.of_nat t * (- Z.of_nat f)))) by (intros t _; rewrite Cmult_1_l; f_equal; lia).
  rewrite w_orth by lia. destruct (Z.eqb_spec ((- Z.of_nat f) mod Z.of_nat n) 0) as [E|E]; [|reflexivity].
  apply Z.mod_divide in E; [|lia]. destruct E as [q E]. exfalso. assert (q = 0 \/ q <= -1 \/ 1 <= q)%Z by lia. nia.
Qed.
Lemma hann_cis n t : (0 < n)%nat -> RtoC (hann n t) =
  Cplus (RtoC (1 / 2)) (Cmult (RtoC (- (1 / 4))) (Cplus (w n (Z.of_nat t)) (w n (- Z.of_nat t)))).
Proof.
  intros Hn. rewrite w_opp. unfold hann, w, cis, Cplus, Cmult, Cconj, RtoC; cbn [fst snd]. rewrite <- INR_IZR_INZ.
  f_equal; lra.
Qed.
Lemma rfft_hann n f : (2 <= f)%nat -> (f + 2 <= n)%nat -> rfft n (hann n) f = RtoC 0.
Proof.
  intros H1 H2. unfold rfft, dft.
  rewrite (Csum_ext _ _ (fun t => Cplus (Cmult (RtoC (1 / 2)) (w n (Z.of_nat t * (- Z.of_nat f))))
     (Cplus (Cmult (RtoC (- (1 / 4))) (w n (Z.of_nat t * (1 - Z.of_nat f)))) (Cmult (RtoC (- (1 / 4))) (w n (Z.of_nat t * (- 1 - Z.of_nat f))))))).
  2:{ intros t _. rewrite hann_cis by lia.
      replace (Z.of_nat t * (1 - Z.of_nat f))%Z with (Z.of_nat t + - (Z.of_nat f * Z.of_nat t))%Z by lia.
      replace (Z.of_nat t * (- 1 - Z.of_nat f))%Z with (- Z.of_nat t + - (Z.of_nat f * Z.of_nat t))%Z by lia.
      replace (Z.of_nat t * (- Z.of_nat f))%Z with (- (Z.of_nat f * Z.of_nat t))%Z by lia.
      rewrite !w_plus. ring. }
  rewrite !Csum_plus, !Csum_scal, !w_orth by lia.
  assert (Q : forall a, (- Z.of_nat n < a < 0)%Z -> (a mod Z.of_nat n =? 0)%Z = false).
  { intros a Ha. apply Z.eqb_neq. intros E. apply Z.mod_divide in E; [|lia]. destruct E as [q E]. assert (q = 0 \/ q <= -1 \/ 1 <= q)%Z by lia. nia. }
  rewrite !Q by lia. ring.
Qed.
(** with the periodic Hann window used by the library every bin but the two lowest agrees with the exact density *)
Theorem fast_agrees_hann average n stride T scale x f : (2 <= f < rbins n)%nat ->
  fast_csd (aggregate average) n stride T (hann n) scale x x f = RtoC (welch (aggregate average) n stride T (hann n) scale x f).
Proof.
  intros H. apply fast_agrees_where_window_vanishes. unfold rbins in H.
  assert (n / 2 + 2 <= n)%nat. { pose proof (Nat.div_mod n 2 ltac:(lia)). pose proof (Nat.mod_upper_bound n 2 ltac:(lia)). lia. }
  apply rfft_hann; lia.
Qed.
(** with a rectangular window every bin but the lowest does *)
Theorem fast_agrees_boxcar average n stride T scale x f : (1 <= f < rbins n)%nat ->
  fast_csd (aggregate average) n stride T (fun _ => 1) scale x x f = RtoC (welch (aggregate average) n stride T (fun _ => 1) scale x f).
Proof.
  intros H. apply fast_agrees_where_window_vanishes. unfold rbins in H.
  assert (n / 2 + 1 <= n)%nat. { pose proof (Nat.div_mod n 2 ltac:(lia)). pose proof (Nat.mod_upper_bound n 2 ltac:(lia)). lia. }
  apply rfft_boxcar; lia.
Qed.
(** the two functions of the library, on tensors *)
Theorem fast_matches_exact x batch T n stride window scale average :
  shape x = batch ++ [T] -> (List.length batch <= 2)%nat -> Forall (fun b => (0 < b)%nat) batch ->
  (0 < n <= T)%nat -> (0 < stride)%nat -> shape window = [n] -> (forall t, (t < n)%nat -> elt window [t] = hann n t) ->
  exists r r', fast_spectral_density x n stride window scale average None = Ok r /\
    spectral_density x n stride window scale average = Ok r' /\ shape r = batch ++ [rbins n] /\ shape r' = batch ++ [rbins n] /\
    forall pre f, inb pre batch -> (2 <= f < rbins n)%nat -> exists v, get r' (pre ++ [f]) = Some v /\ get r (pre ++ [f]) = Some (RtoC v).
Proof.
  intros Sx Hl Hp Hn Hs Sw Hw.
  destruct (fast_spectral_density_spec x None batch T n stride window scale average Sx Hl Hp Hn Hs Sw I) as [r [Er [Sr Gr]]].
  destruct (spectral_density_spec x batch T n stride window scale average Sx Hl Hp Hn Hs Sw) as [r' [Er' [Sr' Gr']]].
  exists r, r'. repeat split; try assumption. intros pre f Hpre Hf.
  eexists. split; [apply Gr'; [assumption|lia]|]. rewrite Gr by (assumption || lia). f_equal.
  apply fast_agrees_where_window_vanishes. rewrite (rfft_ext n _ (hann n)) by exact Hw. apply rfft_hann; [lia|].
  unfold rbins in Hf. pose proof (Nat.div_mod n 2 ltac:(lia)). pose proof (Nat.mod_upper_bound n 2 ltac:(lia)). lia.
Qed.
(** the documentation's caveat is real: the lowest bin of the fast version differs *)
Theorem fast_differs_at_dc : exists x, fst (fast_csd (aggregate "mean") 1 1 2 (fun _ => 1) 1 x x 0) <> welch (aggregate "mean") 1 1 2 (fun _ => 1) 1 x 0.
Proof.
  exists (fun t => INR t). rewrite fast_csd_self. unfold RtoC. cbn [fst]. change (aggregate "mean") with mean. unfold mean, welch, mean.
  change (nseg 2 1 1) with 2%nat. cbn [Rsum]. change (onesided 1 0) with 1.
  assert (F : forall off, rfft 1 (fun t => 1 * (INR (off + t) - Rsum 2 (fun t => INR t) / INR 2)) 0 = RtoC (INR off - 1 / 2)).
  { intros off. unfold rfft, dft, Csum. cbn [Z.of_nat Z.mul Z.opp]. rewrite w_0, Nat.add_0_r. cbn [Rsum INR]. unfold RtoC, Cplus, Cmult; cbn [fst snd]. f_equal; lra. }
  assert (G : forall off, seg_power 1 (fun _ => 1) (fun t => INR t) off 0 = 0).
  { intros off. unfold seg_power, seg_mean, rfft, dft, Csum. cbn [Z.of_nat Z.mul Z.opp Rsum]. rewrite w_0, Nat.add_0_r.
    replace (1 * (INR off - (0 + INR off) / INR 1)) with 0 by (cbn; field). rewrite Cmult_0_l, Cplus_0_l, Cmod_0. ring. }
  rewrite !G. unfold fast_seg. rewrite !F, !Cmod_R, !pow2_abs. cbn. lra.
Qed.
Example C63_pair_example : documented_pair [3; 2; 8]%nat [3; 8]%nat /\ documented_pair [3; 2; 8]%nat [3; 2; 8]%nat /\ documented_pair [2; 8]%nat [8]%nat.
Proof. split; [right; right; exists 3%nat, 2%nat, 8%nat; split; reflexivity|]. split; [left; reflexivity|]. right; left; exists 2%nat, 8%nat; split; reflexivity. Qed.
