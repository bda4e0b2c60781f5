(** Property C34: power spectral densities (Welch's method). *)
From Coq Require Import String Permutation.
From Verif Require Import Base Tensor Rutil Slicing_model Slicing_proofs Streaming_model Norm_model Norm_props Gw_model Gw_props Dft Snr_props Spectral_model Spectral_props.
From Coquelicot Require Import Complex.
Local Open Scope R_scope.

(** ** specification *)
(** power of bin f of the detrended, windowed segment x[off .. off+n) *)
Definition seg_mean (n : nat) (x : nat -> R) (off : nat) : R := Rsum n (fun t => x (off + t)%nat) / INR n.
Definition seg_power (n : nat) (w x : nat -> R) (off f : nat) : R :=
  Cmod (rfft n (fun t => w t * (x (off + t)%nat - seg_mean n x off)) f) ^ 2.
(** one-sided spectra count every bin twice except the zero and the Nyquist frequency *)
Definition onesided (n f : nat) : R := if (f =? 0)%nat then 1 else if (2 * f =? n)%nat then 1 else 2.
Definition nseg (T n stride : nat) : nat := ((T - n) / stride + 1)%nat.
Definition welch (agg : nat -> (nat -> R) -> R) (n stride T : nat) (w : nat -> R) (scale : R) (x : nat -> R) (f : nat) : R :=
  agg (nseg T n stride) (fun s => onesided n f * seg_power n w x (s * stride)%nat f * scale).

Lemma double_onesided n f v : (f < rbins n)%nat ->
  (if ((1 <=? f) && (if Nat.odd n then f <? rbins n else f <? rbins n - 1))%nat then v * 2 else v) = onesided n f * v.
Proof.
  intros Hf. unfold onesided, rbins in *. destruct (Nat.eqb_spec f 0) as [->|H0]; [change (1 <=? 0)%nat with false; cbn [andb]; ring|].
  replace (1 <=? f)%nat with true by lia. cbn [andb].
  destruct (Nat.odd n) eqn:O.
  - replace (f <? n / 2 + 1)%nat with true by lia. apply Nat.odd_spec in O as [m ->].
    replace (2 * f =? 2 * m + 1)%nat with false by lia. ring.
  - assert (Ev : Nat.even n = true) by (rewrite <- Nat.negb_odd, O; reflexivity). apply Nat.even_spec in Ev as [m ->].
    rewrite (Nat.mul_comm 2 m), Nat.div_mul in * by lia.
    destruct (Nat.eqb_spec (2 * f) (m * 2)).
    + replace (f <? m + 1 - 1)%nat with false by lia. ring.
    + replace (f <? m + 1 - 1)%nat with true by lia. ring.
Qed.

(** the element-wise part of the pipeline, on a 3D tensor of segments *)
Lemma psd_pipeline (u : tensor R) window scale N m n : shape u = [N; m; n] -> shape window = [n] -> (0 < n)%nat ->
  exists v,
   (let* x := bzip Rminus u (mean_last true u) in
    let* x := bzip_inplace Rmult x window in
    let* fft := rfft_abs x in
    let fft := tmap (fun v => v ^ 2) fft in
    let fft := double_axis (fun v => v * 2) (ndim fft - 1) n fft in
    Ok (tmap (fun v => v * scale) fft)) = Ok v /\ shape v = [N; m; rbins n] /\
   forall a r f, (a < N)%nat -> (r < m)%nat -> (f < rbins n)%nat ->
     elt v [a; r; f] = onesided n f * seg_power n (fun t => elt window [t]) (fun t => elt u [a; r; t]) 0 f * scale.
Proof.
  intros Su Sw Hn. unfold bzip, mean_last. rewrite Su. cbn [shape removelast app last].
  assert (B1 : bshape [N; m; n] [N; m; 1%nat] = Ok [N; m; n]) by (unfold bshape; cbn; rewrite bdim_1_r, !bdim_refl; reflexivity).
  rewrite B1. cbn [bind]. unfold bzip_inplace, bzip. cbn [shape elt]. rewrite Sw.
  rewrite bshape_mask. cbn [bind shape]. destruct (list_eq_dec Nat.eq_dec [N; m; n] [N; m; n]); [|congruence]. cbn [bind].
  unfold rfft_abs, ndim. cbn [shape last List.length removelast app]. replace ((n =? 0) || (3 =? 0))%nat with false by lia. cbn [bind].
  eexists. split; [reflexivity|]. unfold tmap, double_axis; cbn [shape elt ndim]. split; [reflexivity|].
  intros a r f Ha Hr Hf. cbn [nth removelast last app shape List.length Nat.sub]. rewrite double_onesided by assumption.
  f_equal. f_equal. unfold seg_power. f_equal. f_equal. apply rfft_ext. intros t Ht. cbn [nth removelast last app].
  rewrite bidx_BCT, bidx_t by assumption. rewrite !bidx_BCT by assumption.
  assert (B2 : bidx [N; m; 1%nat] [a; r; t] = [a; r; 0%nat]) by (unfold bidx; cbn; rewrite !b1 by assumption; reflexivity).
  rewrite B2. cbn [removelast app]. unfold seg_mean. cbn [plus]. ring.
Qed.

Theorem spectral_density_spec x batch T n stride window scale average :
  shape x = batch ++ [T] -> (List.length batch <= 2)%nat -> Forall (fun b => (0 < b)%nat) batch ->
  (0 < n <= T)%nat -> (0 < stride)%nat -> shape window = [n] ->
  exists r, spectral_density x n stride window scale average = Ok r /\ shape r = batch ++ [rbins n] /\
   forall pre f, inb pre batch -> (f < rbins n)%nat ->
     get r (pre ++ [f]) = Some (welch (aggregate average) n stride T (fun t => elt window [t]) scale (fun t => elt x (pre ++ [t])) f).
Proof.
  intros Sx Hl Hp [Hn HT] Hs Sw. unfold spectral_density.
  assert (V : validate_shapes (shape x) n None = Ok tt).
  { unfold validate_shapes. rewrite Sx. destruct (batch ++ [T]) eqn:E; [destruct batch; discriminate|]. rewrite <- E.
    rewrite last_last. replace (T <? n)%nat with false by lia. rewrite app_length; cbn [List.length].
    replace (3 <? List.length batch + 1)%nat with false by lia. reflexivity. }
  rewrite V. cbn [bind]. rewrite Sx, last_last, removelast_last. replace (stride =? 0)%nat with false by lia.
  fold (nseg T n stride). set (k := nseg T n stride). assert (Hk : (0 < k)%nat) by (unfold k, nseg; rewrite Nat.add_1_r; apply Nat.lt_0_succ).
  set (stop := ((k - 1) * stride + n)%nat).
  assert (Hstop : (stop <= T)%nat).
  { unfold stop, k, nseg. rewrite Nat.add_sub.
    pose proof (Nat.mul_div_le (T - n) stride ltac:(lia)) as D. revert D. generalize ((T - n) / stride)%nat. intros; nia. }
  assert (U : exists N m, (N * m = prod batch)%nat /\ (0 < m)%nat /\ exists u, unfold_1k (Z.of_nat k) (Z.of_nat stride) (slice_last None (Some (Z.of_nat stop)) (to4d x)) = Ok u /\
     shape u = [N; (m * k)%nat; n] /\
     forall pre, inb pre batch -> exists a r, (a < N)%nat /\ (r < m)%nat /\ ravel batch pre = (a * m + r)%nat /\
        forall s t, (s < k)%nat -> (t < n)%nat -> elt u [a; (r * k + s)%nat; t] = elt x (pre ++ [(s * stride + t)%nat])).
  { assert (SL : forall N m (y : tensor R), shape y = [N; m; 1; T]%nat -> (0 < m)%nat ->
       exists u, unfold_1k (Z.of_nat k) (Z.of_nat stride) (slice_last None (Some (Z.of_nat stop)) y) = Ok u /\ shape u = [N; (m * k)%nat; n] /\
       forall a r s t, (s < k)%nat -> (t < n)%nat -> elt u [a; (r * k + s)%nat; t] = elt y [a; r; 0; (s * stride + t)]%nat).
    { intros N m y Sy Hm.
      assert (Sh : shape (slice_last None (Some (Z.of_nat stop)) y) = [N; m; 1; stride * (k - 1) + n]%nat).
      { unfold slice_last. rewrite Sy. cbn [shape removelast app last]. repeat f_equal. unfold slice_lo, slice_hi, py_clamp. rewrite (Nat.mul_comm stride). fold stop. clearbody stop. clear - Hstop. destruct (Z.ltb_spec (Z.of_nat stop) 0); lia. }
      rewrite (unfold_1k_ok k stride _ N m n Sh) by (try assumption; lia).
      eexists. split; [reflexivity|]. cbn [shape elt]. split; [repeat f_equal; lia|].
      intros a r s t Hs0 Ht. destruct (div_mod_lin k r s Hs0) as [-> ->]. rewrite Nat.mod_small by lia.
      unfold slice_last. cbn [elt removelast last app]. f_equal. rewrite Sy. cbn [last].
      replace (slice_lo (Z.of_nat T) None) with 0%Z by reflexivity.
      f_equal. f_equal. rewrite Nat.div_small by lia. f_equal. f_equal. change (Z.to_nat 0) with 0%nat. clear. nia. }
    destruct batch as [|b1 [|b2 [|? ?]]]; cbn [app prod List.length] in *; [| | |lia]; unfold to4d; rewrite Sx.
    - exists 1%nat, 1%nat. split; [reflexivity|]. split; [lia|].
      destruct (SL 1%nat 1%nat (mk [1; 1; 1; T]%nat (fun i => elt x (skipn 3 i))) eq_refl ltac:(lia)) as [u [E [Su G]]].
      exists u. split; [exact E|]. split; [exact Su|]. intros pre Hpre. destruct pre; [|cbn in Hpre; tauto].
      exists 0%nat, 0%nat. split; [lia|]. split; [lia|]. split; [reflexivity|]. intros s t Hs0 Ht. rewrite G by assumption. reflexivity.
    - inversion Hp as [|? ? Hb1 _]; subst. exists 1%nat, b1. split; [lia|]. split; [assumption|].
      match goal with |- context [slice_last _ _ ?y] => destruct (SL 1%nat b1 y eq_refl Hb1) as [u [E [Su G]]] end.
      exists u. split; [exact E|]. split; [exact Su|]. intros pre Hpre. destruct pre as [|c [|? ?]]; cbn in Hpre; try tauto.
      exists 0%nat, c. split; [lia|]. split; [lia|]. split; [cbn; lia|]. intros s t Hs0 Ht. rewrite G by assumption. reflexivity.
    - inversion Hp as [|? ? Hb1 Hp']; subst. inversion Hp' as [|? ? Hb2 _]; subst. exists b1, b2. split; [lia|]. split; [assumption|].
      match goal with |- context [slice_last _ _ ?y] => destruct (SL b1 b2 y eq_refl Hb2) as [u [E [Su G]]] end.
      exists u. split; [exact E|]. split; [exact Su|]. intros pre Hpre. destruct pre as [|c [|d [|? ?]]]; cbn in Hpre; try tauto.
      exists c, d. split; [lia|]. split; [lia|]. split; [cbn; lia|]. intros s t Hs0 Ht. rewrite G by assumption. reflexivity. }
  destruct U as [N [m [HNm [Hm [u [Eu [Su Gu]]]]]]].
  match goal with |- context [bind ?e ?g] => change e with (unfold_1k (Z.of_nat k) (Z.of_nat stride) (slice_last None (Some (Z.of_nat stop)) (to4d x))); set (kont := g) end.
  rewrite Eu. cbn [bind]. unfold kont; clear kont.
  destruct (psd_pipeline u window scale N (m * k) n Su Sw Hn) as [v [Ev [Sv Gv]]].
  destruct (bzip Rminus u (mean_last true u)) as [x1|]; [|discriminate]. cbn [bind] in Ev |- *.
  destruct (bzip_inplace Rmult x1 window) as [x2|]; [|discriminate]. cbn [bind] in Ev |- *.
  destruct (rfft_abs x2) as [x3|]; [|discriminate]. cbn [bind] in Ev |- *. injection Ev as Ev.
  match type of Ev with ?e = v => match goal with |- context [reshape _ ?e'] => change e' with e end; rewrite Ev end. clear x1 x2 x3 Ev.
  change (map Z.of_nat batch ++ [Z.of_nat k; -1]%Z) with (map Z.of_nat batch ++ ([Z.of_nat k] ++ [(-1)%Z])).
  change [Z.of_nat k] with (map Z.of_nat [k]). rewrite app_assoc, <- map_app.
  assert (Pb : (0 < prod batch)%nat).
  { clear - Hp. induction Hp; cbn; [lia|]. nia. }
  rewrite (reshape_hole_end_ok (batch ++ [k]) (rbins n) v).
  2:{ rewrite prod_app; cbn [prod]. nia. }
  2:{ unfold numel. rewrite Sv, prod_app. cbn [prod]. rewrite <- HNm. ring. }
  cbn [bind]. eexists. split; [reflexivity|]. unfold reduce_m2; cbn [shape elt].
  rewrite removelast_last, removelast_last, !last_last. split; [reflexivity|].
  intros pre f Hpre Hf. rewrite get_inb; [|cbn [shape]; apply inb_app; [assumption|cbn; lia]].
  f_equal. cbn [elt shape]. unfold welch. fold k. apply aggregate_ext. intros s Hs0.
  rewrite removelast_last, last_last. destruct (Gu pre Hpre) as [a0 [r [Ha [Hr [Er Gx]]]]].
  assert (R1 : ravel ((batch ++ [k]) ++ [rbins n]) (pre ++ [s; f]) = ravel [N; (m * k)%nat; rbins n] [a0; (r * k + s)%nat; f]).
  { assert (RA : forall s1 i1 s2 i2, List.length i1 = List.length s1 -> ravel (s1 ++ s2) (i1 ++ i2) = (ravel s1 i1 * prod s2 + ravel s2 i2)%nat).
    { induction s1 as [|d s1 IH]; intros [|j i1] s2 i2 E; cbn in *; try lia. rewrite IH by lia. rewrite prod_app. ring. }
    rewrite <- app_assoc. rewrite RA by (apply inb_length; assumption). rewrite Er. cbn. ring. }
  rewrite R1. rewrite Sv. rewrite unravel_ravel by (cbn; nia).
  rewrite Gv by (try assumption; nia). f_equal. f_equal. unfold seg_power. f_equal. f_equal.
  assert (SM : seg_mean n (fun t => elt u [a0; (r * k + s)%nat; t]) 0 = seg_mean n (fun t => elt x (pre ++ [t])) (s * stride)).
  { unfold seg_mean. f_equal. apply Rsum_ext. intros t Ht. rewrite Gx by assumption. reflexivity. }
  rewrite SM. apply rfft_ext. intros t Ht. rewrite Gx by assumption. reflexivity.
Qed.

(** ** consequences for Welch's estimate *)
Lemma welch_ext average n stride T w scale x y f : (0 < stride)%nat -> (0 < n <= T)%nat ->
  (forall t, (t < T)%nat -> x t = y t) -> welch (aggregate average) n stride T w scale x f = welch (aggregate average) n stride T w scale y f.
Proof.
  intros Hs Hn H. unfold welch. apply aggregate_ext. intros s Hs0.
  assert (B : forall t, (t < n)%nat -> (s * stride + t < T)%nat).
  { intros t Ht. unfold nseg in Hs0. pose proof (Nat.mul_div_le (T - n) stride ltac:(lia)) as D.
    revert D Hs0. generalize ((T - n) / stride)%nat. intros; nia. }
  f_equal. f_equal. unfold seg_power, seg_mean. f_equal. f_equal. 
  assert (E : Rsum n (fun t => x (s * stride + t)%nat) = Rsum n (fun t => y (s * stride + t)%nat)) by (apply Rsum_ext; intros; apply H, B; assumption).
  rewrite E. apply rfft_ext. intros t Ht. rewrite H by (apply B; assumption). reflexivity.
Qed.
Lemma onesided_bounds n f : 1 <= onesided n f <= 2.
Proof. unfold onesided. destruct (f =? 0)%nat; [lra|]. destruct (2 * f =? n)%nat; lra. Qed.
Theorem welch_nonneg average n stride T w scale x f : 0 <= scale -> 0 <= welch (aggregate average) n stride T w scale x f.
Proof.
  intros Hs. unfold welch. apply aggregate_nonneg. intros s _. apply Rmult_le_pos; [|assumption].
  pose proof (onesided_bounds n f). apply Rmult_le_pos; [lra|]. unfold seg_power. apply pow2_ge_0.
Qed.
(** multiplying the timeseries by c multiplies the density by c^2; adding a constant changes nothing *)
Theorem welch_affine average n stride T w scale c d x f : (0 < n)%nat ->
  welch (aggregate average) n stride T w scale (fun t => c * x t + d) f = c ^ 2 * welch (aggregate average) n stride T w scale x f.
Proof.
  intros Hn. unfold welch. rewrite <- aggregate_scal by apply pow2_ge_0. apply aggregate_ext. intros s _.
  unfold seg_power, seg_mean.
  assert (E : rfft n (fun t => w t * (c * x (s * stride + t)%nat + d - Rsum n (fun t => c * x (s * stride + t)%nat + d) / INR n)) f =
     Cmult (RtoC c) (rfft n (fun t => w t * (x (s * stride + t)%nat - Rsum n (fun t => x (s * stride + t)%nat) / INR n)) f)).
  { rewrite <- rfft_scal. apply rfft_ext. intros t _. rewrite Rsum_plus, Rsum_scal, Rsum_const. field. apply not_0_INR; lia. }
  rewrite E, Cmod_mult, Cmod_R, Rpow_mult_distr, pow2_abs. ring.
Qed.
(** scaling the window by c multiplies the density by c^2, the scale argument is a plain factor *)
Theorem welch_scale average n stride T w k1 k2 x f : 0 <= k1 ->
  welch (aggregate average) n stride T w (k1 * k2) x f = k1 * welch (aggregate average) n stride T w k2 x f.
Proof. intros H. unfold welch. rewrite <- aggregate_scal by assumption. apply aggregate_ext. intros; ring. Qed.
Theorem welch_window_scale average n stride T w c k x f :
  welch (aggregate average) n stride T (fun t => c * w t) k x f = c ^ 2 * welch (aggregate average) n stride T w k x f.
Proof.
  unfold welch. rewrite <- aggregate_scal by apply pow2_ge_0. apply aggregate_ext. intros s _. unfold seg_power.
  assert (E : forall m, rfft n (fun t => c * w t * (x (s * stride + t)%nat - m)) f = Cmult (RtoC c) (rfft n (fun t => w t * (x (s * stride + t)%nat - m)) f)).
  { intros m. rewrite <- rfft_scal. apply rfft_ext. intros; ring. }
  rewrite E, Cmod_mult, Cmod_R, Rpow_mult_distr, pow2_abs. ring.
Qed.
(** Parseval: with the mean, the bins of the density add up to the mean power of the detrended, windowed segments.
    With scale = 1/(sample_rate * sum w^2) and bin width sample_rate/n this is the window-weighted variance. *)
Theorem welch_parseval n stride T w scale x : (0 < n)%nat ->
  Rsum (rbins n) (fun f => welch mean n stride T w scale x f) =
  scale * INR n * mean (nseg T n stride) (fun s => Rsum n (fun t => (w t * (x (s * stride + t)%nat - seg_mean n x (s * stride))) ^ 2)).
Proof.
  intros Hn. unfold welch, mean at 1.
  assert (E : forall f, Rsum (nseg T n stride) (fun s => onesided n f * seg_power n w x (s * stride) f * scale) / INR (nseg T n stride) =
     Rsum (nseg T n stride) (fun s => scale / INR (nseg T n stride) * (onesided n f * seg_power n w x (s * stride) f))).
  { intros f. unfold Rdiv. rewrite <- Rsum_scal_r. apply Rsum_ext. intros; ring. }
  rewrite (Rsum_ext _ _ _ (fun f _ => E f)), Rsum_swap.
  assert (G : forall s, Rsum (rbins n) (fun f => scale / INR (nseg T n stride) * (onesided n f * seg_power n w x (s * stride) f)) =
     scale / INR (nseg T n stride) * INR n * Rsum n (fun t => (w t * (x (s * stride + t)%nat - seg_mean n x (s * stride))) ^ 2)).
  { intros s. rewrite Rsum_scal, Rmult_assoc. f_equal.
    pose proof (rfft_parseval n (fun t => w t * (x (s * stride + t)%nat - seg_mean n x (s * stride))) Hn) as P.
    rewrite <- P. apply Rsum_ext. intros f _. unfold onesided, hw, seg_power. destruct (f =? 0)%nat, (2 * f =? n)%nat; reflexivity. }
  rewrite (Rsum_ext _ _ _ (fun s _ => G s)), Rsum_scal. unfold mean, Rdiv. ring.
Qed.
