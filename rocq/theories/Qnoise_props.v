(** Property C94: what the Q-tiles of white noise and of a sinusoid contain. *)
From Coq Require Import String.
From Verif Require Import Base Tensor Rutil Slicing_model Autoenc_model Norm_model Dft Gw_model Spectral_model Spectral_props Trans_model Qt_model Qt_props Qt2_props Qtr_props Qtr2_props Tone_props.
From Coquelicot Require Import Coquelicot.
From Verif Require Import Prob Noise_props.
Local Open Scope R_scope.

(** ** specification *)
(** tile t (centre frequency at k/duration, half width h bins) of a series of T samples does not touch the ends of the spectrum *)
Definition inside_spectrum (t : qtile) (k h T : nat) : Prop :=
  qt_f t * qt_dur t = INR k /\ qt_dur t * qt_sr t = INR T /\ (h <= k)%nat /\ (2 * (k + 1 + h) <= T)%nat.

(** ** the bisquare window sums to its integral, up to one bin *)
Definition g (x : R) : R := (1 - x ^ 2) ^ 4.
Definition G (x : R) : R := x - 4 / 3 * x ^ 3 + 6 / 5 * x ^ 5 - 4 / 7 * x ^ 7 + / 9 * x ^ 9.
Lemma G_deriv x : derivable_pt_lim G x (g x).
Proof.
  apply is_derive_Reals. unfold G, g. auto_derive; [exact I|]. field.
Qed.
Lemma g_dec x y : 0 <= x <= y -> y <= 1 -> g y <= g x.
Proof. intros H1 H2. unfold g. apply pow_incr. assert (x ^ 2 <= y ^ 2) by (apply pow_incr; lra). assert (y ^ 2 <= 1) by nra. lra. Qed.
Lemma G_mvt a b : 0 <= a < b -> b <= 1 -> g b * (b - a) <= G b - G a <= g a * (b - a).
Proof.
  intros H1 H2. destruct (MVT_cor2 G g a b ltac:(lra) ltac:(intros; apply G_deriv)) as (c & E & Hc). rewrite E.
  pose proof (g_dec a c ltac:(lra) ltac:(lra)). pose proof (g_dec c b ltac:(lra) ltac:(lra)). split; apply Rmult_le_compat_r; lra.
Qed.
Lemma riemann H (h : nat) : 0 < H -> INR h <= H < INR h + 1 -> H * (128 / 315) - 1 <= Rsum h (fun i => g ((INR i + 1) / H)) <= H * (128 / 315).
Proof.
  intros HH Hh.
  assert (P : forall n, (n <= h)%nat -> Rsum n (fun i => g ((INR i + 1) / H)) <= H * (G (INR n / H) - G 0) <= Rsum n (fun i => g (INR i / H))).
  { induction n as [|n IH]; intros Hn; [cbn [Rsum INR]; replace (0 / H) with 0 by (unfold Rdiv; ring); lra|]. specialize (IH ltac:(lia)). cbn [Rsum].
    assert (L : INR (S n) <= INR h) by (apply le_INR, Hn). rewrite S_INR in *. pose proof (pos_INR n).
    assert (M := G_mvt (INR n / H) ((INR n + 1) / H)). destruct M as [M1 M2].
    - split; [apply Rmult_le_pos; [lra|left; apply Rinv_0_lt_compat; lra]|apply Rmult_lt_compat_r; [apply Rinv_0_lt_compat; lra|lra]].
    - apply (Rmult_le_reg_r H); [lra|]. unfold Rdiv. rewrite Rmult_assoc, Rinv_l by lra. lra.
    - replace ((INR n + 1) / H - INR n / H) with (/ H) in M1, M2 by (field; lra).
      apply (Rmult_le_compat_l H) in M1, M2; try lra. replace (H * (g ((INR n + 1) / H) * / H)) with (g ((INR n + 1) / H)) in M1 by (field; lra). replace (H * (g (INR n / H) * / H)) with (g (INR n / H)) in M2 by (field; lra). lra. }
  destruct (P h ltac:(lia)) as [P1 P2]. assert (G0 : G 0 = 0) by (unfold G; ring). assert (G1 : G 1 = 128 / 315) by (unfold G; field). rewrite G0, Rminus_0_r in *.
  pose proof (pos_INR h).
  assert (B0 : 0 <= INR h / H) by (apply Rmult_le_pos; [lra|left; apply Rinv_0_lt_compat; lra]).
  assert (B1 : INR h / H <= 1) by (apply (Rmult_le_reg_r H); [lra|]; unfold Rdiv; rewrite Rmult_assoc, Rinv_l by lra; lra).
  assert (B2 : 0 <= g (INR h / H)) by (unfold g; apply pow_le; assert ((INR h / H) ^ 2 <= 1) by nra; lra).
  assert (Q : 0 <= H * (G 1 - G (INR h / H)) <= g (INR h / H)).
  { destruct (Rle_lt_or_eq_dec _ _ B1) as [L|E]; [|rewrite E in *; lra].
    destruct (G_mvt (INR h / H) 1 ltac:(lra) ltac:(lra)) as [M1 M2]. replace (g 1) with 0 in M1 by (unfold g; ring). rewrite Rmult_0_l in M1.
    split; [apply Rmult_le_pos; lra|]. apply (Rmult_le_compat_l H) in M2; [|lra]. eapply Rle_trans; [exact M2|].
    replace (H * (g (INR h / H) * (1 - INR h / H))) with (g (INR h / H) * (H - INR h)) by (field; lra). nra. }
  rewrite G1 in Q.
  assert (E : Rsum h (fun i => g (INR i / H)) + g (INR h / H) = 1 + Rsum h (fun i => g ((INR i + 1) / H))).
  { clear. induction h as [|h IH].
    - cbn [Rsum INR]. replace (0 / H) with 0 by (unfold Rdiv; ring). unfold g. ring.
    - cbn [Rsum]. rewrite IH, S_INR. ring. }
  lra.
Qed.
Lemma sym_sum (u : nat -> R) (v : R -> R) h : (forall j, (j <= 2 * h)%nat -> u j = v (INR j - INR h)) -> (forall x, v (- x) = v x) ->
  Rsum (2 * h + 1) u = v 0 + 2 * Rsum h (fun i => v (INR i + 1)).
Proof.
  intros Hu Hv. replace (2 * h + 1)%nat with (h + (1 + h))%nat by lia. rewrite !Rsum_app. cbn [Rsum].
  assert (A : Rsum h u = Rsum h (fun i => v (INR i + 1))).
  { assert (RV : forall n f, Rsum n f = Rsum n (fun i => f (n - 1 - i)%nat)).
    { clear. induction n as [|n IH]; intros f; [reflexivity|]. transitivity (Rsum (1 + n) (fun i => f (S n - 1 - i)%nat)); [|reflexivity]. rewrite Rsum_app. cbn [Rsum]. rewrite IH. replace (S n - 1 - 0)%nat with n by lia. rewrite Rplus_0_l, Rplus_comm. f_equal. apply Rsum_ext. intros i Hi. f_equal. lia. }
    rewrite RV. apply Rsum_ext. intros i Hi. rewrite Hu by lia. rewrite <- Hv. f_equal. rewrite !minus_INR by lia. cbn [INR]. ring. }
  assert (B : Rsum h (fun i => u (h + (1 + i))%nat) = Rsum h (fun i => v (INR i + 1))).
  { apply Rsum_ext. intros i Hi. rewrite Hu by lia. f_equal. rewrite !plus_INR. cbn [INR]. ring. }
  rewrite A, B. rewrite Nat.add_0_r, (Hu h) by lia. replace (INR h - INR h) with 0 by ring. ring.
Qed.
(** the sum of the squared window *)
Lemma window_energy t h N : fitting t h N -> exists c, Rabs (c - 1) <= 315 / (256 * half_width t) /\
  Rsum (2 * h + 1) (fun j => win t j ^ 2) = c * (2 * INR N ^ 2 / (qt_dur t * qt_sr t ^ 2)).
Proof.
  intros (P & Hh & HN & Hf). pose proof P as (Pq & Pf & Pd & Ps & Pm). destruct (qtile_window t P) as (h' & Hh' & Wl & Wj & Wh & _ & _).
  assert (h' = h). { assert (h' < h + 1 /\ h < h' + 1)%nat; [|lia]. split; apply INR_lt; rewrite plus_INR; cbn [INR]; lra. } subst h'.
  assert (HP := half_width_pos t P). set (H := half_width t) in *.
  exists (315 / 256 / H * (1 + 2 * Rsum h (fun i => g ((INR i + 1) / H)))).
  assert (S11 : 0 < sqrt 11) by (apply sqrt_lt_R0; lra).
  split.
  - destruct (riemann H h HP Hh) as [R1 R2]. replace (315 / (256 * H)) with (315 / 256 / H) by (field; lra).
    replace (315 / 256 / H * (1 + 2 * Rsum h (fun i => g ((INR i + 1) / H))) - 1) with (315 / 256 / H * (1 + 2 * (Rsum h (fun i => g ((INR i + 1) / H)) - H * (128 / 315)))) by (field; lra).
    assert (0 < 315 / 256 / H) by (apply Rdiv_lt_0_compat; lra). rewrite Rabs_mult, (Rabs_pos_eq (315 / 256 / H)) by lra.
    rewrite <- (Rmult_1_r (315 / 256 / H)) at 2. apply Rmult_le_compat_l; [lra|]. apply Rabs_le. lra.
  - rewrite (sym_sum (fun j => win t j ^ 2) (fun x => win t h ^ 2 * g (x / H)) h).
    + replace (g (0 / H)) with 1 by (unfold g, Rdiv; ring). rewrite Rsum_scal. rewrite Wh, HN, <- INR_IZR_INZ, Rpow_mult_distr.
      replace (2 * (315 * qt_q t / (128 * sqrt 11 * qt_f t))) with (2 * (315 * qt_q t / (128 * sqrt 11 * qt_f t))) by reflexivity.
      rewrite pow2_sqrt by (left; apply Rdiv_lt_0_compat; [nra|]; repeat apply Rmult_lt_0_compat; lra).
      unfold H, half_width. field. repeat split; lra.
    + intros j Hj. rewrite (Wj j Hj), Rpow_mult_distr. unfold g. ring.
    + intros x. f_equal. unfold g. f_equal. f_equal. replace (- x / H) with (- (x / H)) by (unfold Rdiv; ring). ring.
Qed.
(** ** the bins a tile reads *)
Lemma tile_bins t k h N T j : fitting t h N -> inside_spectrum t k h T -> (j <= 2 * h)%nat -> Z.to_nat (data_index t j) = (k + 1 - h + j)%nat.
Proof.
  intros (P & Hh & _) (Ek & ET & H1 & H2) Hj. rewrite (qtile_bins t h (Z.of_nat k) j P Hh) by (rewrite Ek, INR_IZR_INZ; reflexivity).
  rewrite ET. replace (rtrunc (INR T)) with (Z.of_nat T) by (symmetry; rewrite INR_IZR_INZ; apply rtrunc_IZR).
  assert (Z.of_nat (k + 1 + h) <= Z.of_nat T / 2)%Z by (apply Z.div_le_lower_bound; lia). lia.
Qed.

(** ** white noise *)
Lemma row_as_sum t k h N T x n : fitting t h N -> inside_spectrum t k h T ->
  row_energy t h N T x n = (2 / (INR T * INR N)) ^ 2 * Cmod (Csum T (fun s => Cmult (RtoC (x s))
    (dft T (fun m => if ((k + 1 - h <=? m) && (m <? k + 1 - h + (2 * h + 1)))%nat then Cmult (RtoC (win t (m - (k + 1 - h)))) (w N (Z.of_nat (m - (k + 1 - h)) * Z.of_nat n)) else RtoC 0) s))) ^ 2.
Proof.
  intros Fi In_. pose proof Fi as (P & Hh & _ & Hf). pose proof In_ as (Ek & ET & H1 & H2).
  assert (PT : 0 < INR T) by (apply lt_0_INR; lia). assert (PN : 0 < INR N) by (apply lt_0_INR; lia).
  unfold row_energy. rewrite <- (Rpow_mult_distr _ _ 2). f_equal. rewrite <- (Rabs_pos_eq (2 / (INR T * INR N))) at 1 by (apply Rlt_le, Rdiv_lt_0_compat; nra). rewrite <- Cmod_R, <- Cmod_mult. f_equal.
  unfold band_sum. set (m0 := (k + 1 - h)%nat) in *.
  rewrite (Csum_ext (2 * h + 1) _ (fun j => Cmult (RtoC (2 / INR T)) (Cmult (rfft T x (m0 + j)) (Cmult (RtoC (win t j)) (w N (Z.of_nat j * Z.of_nat n)))))).
  2:{ intros j Hj. unfold band, amplitude. rewrite (tile_bins t k h N T j Fi In_) by lia. fold m0. replace (m0 + j =? 0)%nat with false by lia. ring. }
  rewrite Csum_scal, Cmult_assoc, <- RtoC_mult. f_equal; [f_equal; field; lra|].
  unfold rfft, dft. rewrite (Csum_ext (2 * h + 1) _ (fun j => Csum T (fun s => Cmult (RtoC (x s)) (Cmult (Cmult (RtoC (win t j)) (w N (Z.of_nat j * Z.of_nat n))) (w T (- (Z.of_nat (m0 + j) * Z.of_nat s))))))).
  2:{ intros j _. rewrite <- Csum_scal_r. apply Csum_ext. intros s _. ring. }
  rewrite Csum_swap. apply Csum_ext. intros s _. rewrite Csum_scal. f_equal.
  match goal with |- _ = Csum T ?F => replace (Csum T F) with (Csum (m0 + ((2 * h + 1) + (T - m0 - (2 * h + 1)))) F) by (f_equal; lia) end. rewrite (Csum_app m0), (Csum_app (2 * h + 1) (T - m0 - (2 * h + 1))).
  rewrite (Csum_0 m0). 2:{ intros i Hi. replace (m0 <=? i)%nat with false by lia. cbn [andb]. ring. }
  rewrite (Csum_0 (T - m0 - (2 * h + 1))). 2:{ intros i Hi. replace (m0 + (2 * h + 1 + i) <? m0 + (2 * h + 1))%nat with false by lia. rewrite Bool.andb_false_r. ring. }
  rewrite Cplus_0_l, Cplus_0_r. apply Csum_ext. intros j Hj. replace (m0 <=? m0 + j)%nat with true by lia. replace (m0 + j <? m0 + (2 * h + 1))%nat with true by lia. cbn [andb]. replace (m0 + j - m0)%nat with j by lia.
  replace (Z.of_nat s * Z.of_nat (m0 + j))%Z with (Z.of_nat (m0 + j) * Z.of_nat s)%Z by lia. reflexivity.
Qed.
Lemma white_linear {A} (d : dist A) (s : A -> nat -> R) T sigma (c : nat -> C) : white_noise d s T sigma ->
  expect d (fun a => Cmod (Csum T (fun i => Cmult (RtoC (s a i)) (c i))) ^ 2) = sigma ^ 2 * Rsum T (fun i => Cmod (c i) ^ 2).
Proof.
  intros W. assert (Q : forall p : nat -> R, expect d (fun a => Rsum T (fun i => p i * s a i) * Rsum T (fun j => p j * s a j)) = sigma ^ 2 * Rsum T (fun i => p i ^ 2)).
  { intros p. rewrite expect_quad. rewrite <- Rsum_scal. apply Rsum_ext. intros i Hi. rewrite (Rsum_single T i); [rewrite W, Nat.eqb_refl by assumption; ring|exact Hi|].
    intros j Hj Nj. rewrite W by assumption. replace (i =? j)%nat with false by lia. ring. }
  rewrite (expect_ext d _ (fun a => Rsum T (fun i => Re (c i) * s a i) * Rsum T (fun j => Re (c j) * s a j) + Rsum T (fun i => Im (c i) * s a i) * Rsum T (fun j => Im (c j) * s a j))).
  - rewrite expect_plus, !Q, <- Rmult_plus_distr_l, <- Rsum_plus. f_equal. apply Rsum_ext. intros i _. rewrite Cmod_sq. ring.
  - intros w0 a _. rewrite Cmod_sq. rewrite Re_Csum. rewrite (Rsum_ext T (fun i => Re (Cmult (RtoC (s a i)) (c i))) (fun i => Re (c i) * s a i)) by (intros i _; unfold Re, Cmult, RtoC; cbn [fst snd]; ring).
    assert (IM : Im (Csum T (fun i => Cmult (RtoC (s a i)) (c i))) = Rsum T (fun i => Im (c i) * s a i)).
    { clear. induction T as [|T IH]; [reflexivity|]. cbn [Csum Rsum]. rewrite <- IH. destruct (Csum T _), (c T). unfold Im, Cplus, Cmult, RtoC; cbn [fst snd]. ring. }
    rewrite IM. ring.
Qed.
Lemma row_noise {A} (d : dist A) (s : A -> nat -> R) T sigma t k h N n : white_noise d s T sigma -> fitting t h N -> inside_spectrum t k h T ->
  expect d (fun a => row_energy t h N T (s a) n) = 4 * sigma ^ 2 / (INR T * INR N ^ 2) * Rsum (2 * h + 1) (fun j => win t j ^ 2).
Proof.
  intros W Fi In_. pose proof Fi as (P & Hh & _ & Hf). pose proof In_ as (Ek & ET & H1 & H2).
  assert (PT : 0 < INR T) by (apply lt_0_INR; lia). assert (PN : 0 < INR N) by (apply lt_0_INR; lia).
  rewrite (expect_ext d _ _ (fun w0 a _ => row_as_sum t k h N T (s a) n Fi In_)). rewrite expect_scal, (white_linear d s T sigma _ W), dft_parseval by lia.
  set (m0 := (k + 1 - h)%nat). match goal with |- context [Rsum T ?F] => replace (Rsum T F) with (Rsum (m0 + ((2 * h + 1) + (T - m0 - (2 * h + 1)))) F) by (f_equal; lia) end. rewrite (Rsum_app m0), (Rsum_app (2 * h + 1) (T - m0 - (2 * h + 1))).
  rewrite (Rsum_0 m0). 2:{ intros i Hi. replace (m0 <=? i)%nat with false by lia. cbn [andb]. rewrite Cmod_0. ring. }
  rewrite (Rsum_0 (T - m0 - (2 * h + 1))). 2:{ intros i Hi. replace (m0 + (2 * h + 1 + i) <? m0 + (2 * h + 1))%nat with false by lia. rewrite Bool.andb_false_r, Cmod_0. ring. }
  rewrite (Rsum_ext (2 * h + 1) (fun i => Cmod _ ^ 2) (fun j => win t j ^ 2)).
  - field. lra.
  - intros j Hj. replace (m0 <=? m0 + j)%nat with true by lia. replace (m0 + j <? m0 + (2 * h + 1))%nat with true by lia. cbn [andb]. replace (m0 + j - m0)%nat with j by lia.
    rewrite Cmod_mult, w_mod, Cmod_R, Rmult_1_r, pow2_abs. reflexivity.
Qed.
(** what a tile of compute_qtiles without normalisation contains *)
Lemma qtiles_row m X tiles B D T i t h N b c n :
  List.Forall usable (tr_tiles m) -> List.Forall (fun t => qt_dur t * qt_sr t = INR T) (tr_tiles m) -> (0 < T)%nat ->
  shape X = [B; D; T] -> compute_qtiles m X None = Ok tiles -> nth_error (tr_tiles m) i = Some t -> fitting t h N ->
  (b < B)%nat -> (c < D)%nat -> (n < N)%nat ->
  get (nth i tiles (mk [] (fun _ => 0))) [b; c; n] = Some (row_energy t h N T (fun s => elt X [b; c; s]) n).
Proof.
  intros U ED HT SX EX Hi Fi Hb Hc Hn. assert (P3 : pad_ndim3 X = X) by (unfold pad_ndim3, ndim; rewrite SX; reflexivity).
  destruct (qtiles_spec m X B D T None NoNorm U ltac:(unfold ndim; rewrite SX; cbn; lia) ltac:(rewrite P3; exact SX) HT) as (tl & E1 & F2); [|exact I|].
  - rewrite List.Forall_forall in *. intros t' Ht'. rewrite (ED t' Ht'), INR_IZR_INZ, rtrunc_IZR. lia.
  - rewrite EX in E1. injection E1 as <-. assert (F3 : exists tile, nth_error tiles i = Some tile /\ exists h0 N0, fitting t h0 N0 /\ shape tile = [B; D; N0] /\
       forall b d n, (b < B)%nat -> (d < D)%nat -> (n < N0)%nat -> get tile [b; d; n] = Some (renorm NoNorm N0 (row_energy t h0 N0 T (fun s => elt (pad_ndim3 X) [b; d; s])) n)).
    { clear -F2 Hi. revert i Hi. induction F2 as [|t0 tile l l' Q F IH]; intros [|i] Hi; try discriminate.
      - injection Hi as ->. exists tile. split; [reflexivity|exact Q].
      - apply (IH i Hi). }
    destruct F3 as (tile & En & h0 & N0 & Fi0 & St & V). rewrite (nth_error_nth _ _ _ En).
    destruct Fi as (P & Hh & HN & Hf). destruct Fi0 as (_ & Hh0 & HN0 & _).
    assert (h0 = h). { assert (h0 < h + 1 /\ h < h0 + 1)%nat; [|lia]. split; apply INR_lt; rewrite plus_INR; cbn [INR]; lra. }
    assert (N0 = N) by lia. subst h0 N0. rewrite V by assumption. rewrite P3. reflexivity.
Qed.
(** on average white noise has the same energy in every tile of every Q and frequency, at all times: 8 sigma^2 / (T^2 sr), up to a relative
    315 / (256 H), H the half width of the tile in bins *)
Theorem qtiles_noise {A} (d : dist A) (X : A -> tensor R) (tiles : A -> list (tensor R)) m B D T sigma i t k h N b c :
  List.Forall usable (tr_tiles m) -> List.Forall (fun t => qt_dur t * qt_sr t = INR T) (tr_tiles m) -> (0 < T)%nat ->
  (forall a, shape (X a) = [B; D; T] /\ compute_qtiles m (X a) None = Ok (tiles a)) ->
  nth_error (tr_tiles m) i = Some t -> fitting t h N -> inside_spectrum t k h T -> (b < B)%nat -> (c < D)%nat ->
  white_noise d (fun a s => elt (X a) [b; c; s]) T sigma ->
  exists r, Rabs (r - 1) <= 315 / (256 * half_width t) /\
    forall n, (n < N)%nat -> (forall a, get (nth i (tiles a) (mk [] (fun _ => 0))) [b; c; n] <> None) /\
      expect d (fun a => elt (nth i (tiles a) (mk [] (fun _ => 0))) [b; c; n]) = r * (8 * sigma ^ 2 / (INR T ^ 2 * qt_sr t)).
Proof.
  intros U ED HT HX Hi Fi In_ Hb Hc W. destruct (window_energy t h N Fi) as (r & Hr & E). exists r. split; [exact Hr|]. intros n Hn.
  assert (V : forall a, get (nth i (tiles a) (mk [] (fun _ => 0))) [b; c; n] = Some (row_energy t h N T (fun s => elt (X a) [b; c; s]) n)).
  { intros a. destruct (HX a) as [SX EX]. eapply qtiles_row; eauto. }
  split; [intros a; rewrite V; discriminate|].
  rewrite (expect_ext d _ (fun a => row_energy t h N T (fun s => elt (X a) [b; c; s]) n)) by (intros w0 a _; specialize (V a); apply get_some in V; destruct V as [_ ->]; reflexivity).
  rewrite (row_noise d _ T sigma t k h N n W Fi In_), E. destruct In_ as (_ & ET & _ & _). destruct Fi as ((_ & _ & Pd & Ps & _) & _ & _ & Hf).
  assert (PT : 0 < INR T) by (apply lt_0_INR; lia). assert (PN : 0 < INR N) by (apply lt_0_INR; lia). rewrite <- ET in *. field. repeat split; lra.
Qed.

(** ** a sinusoid *)
Lemma tone_plain T m0 A phi m : (0 < m0)%nat -> (2 * m0 < T)%nat -> (2 * m <= T)%nat ->
  rfft T (tone T m0 A phi) m = if (m =? m0)%nat then Cmult (RtoC (A * INR T / 2)) (cis phi) else RtoC 0.
Proof.
  intros H0 H1 H2. unfold rfft, dft. set (K := Z.of_nat m0). set (F := Z.of_nat m).
  rewrite (Csum_ext T _ (fun s => Cmult (RtoC (A / 2)) (Cplus (Cmult (cis phi) (w T (Z.of_nat s * (K - F)))) (Cmult (Cconj (cis phi)) (w T (Z.of_nat s * (- K - F))))))).
  2:{ intros s _. change s with (0 + s)%nat at 1. rewrite (tone_cis T m0 A phi 0 s (cis phi)) by (try lia; f_equal; cbn [INR]; unfold Rdiv; ring). fold K F.
      replace (Z.of_nat s * (K - F))%Z with (Z.of_nat s * K + - (F * Z.of_nat s))%Z by lia. replace (Z.of_nat s * (- K - F))%Z with (Z.of_nat s * - K + - (F * Z.of_nat s))%Z by lia. rewrite !w_plus. ring. }
  rewrite Csum_scal, Csum_plus, !Csum_scal, !w_sum by lia. replace (- K - F =? 0)%Z with false by lia.
  destruct (Nat.eqb_spec m m0) as [->|N]; [replace (K - F =? 0)%Z with true by lia|replace (K - F =? 0)%Z with false by lia].
  - replace (A * INR T / 2) with (A / 2 * INR T) by field. rewrite (RtoC_mult (A / 2)). ring.
  - ring.
Qed.
(** the energy of a sinusoid of amplitude A and frequency m0/duration is the same at all times: the squared window *)
Theorem row_tone t k h N T m0 A phi n : fitting t h N -> inside_spectrum t k h T -> (0 < m0)%nat -> (2 * m0 < T)%nat ->
  row_energy t h N T (tone T m0 A phi) n =
    if (Nat.leb (k + 1 - h) m0 && Nat.leb m0 (k + 1 + h))%bool
    then A ^ 2 * (315 * qt_q t / (128 * sqrt 11 * qt_f t)) / INR T ^ 2 * (1 - ((INR m0 - INR (k + 1)) / half_width t) ^ 2) ^ 4 else 0.
Proof.
  intros Fi In_ M0 M1. pose proof Fi as (P & Hh & HN & Hf). pose proof In_ as (Ek & ET & H1 & H2). pose proof P as (Pq & Pf & Pd & Ps & Pm).
  assert (PT : 0 < INR T) by (apply lt_0_INR; lia). assert (PN : 0 < INR N) by (apply lt_0_INR; lia).
  unfold row_energy, band_sum. set (b0 := (k + 1 - h)%nat).
  rewrite (Csum_ext (2 * h + 1) _ (fun j => if (b0 + j =? m0)%nat then Cmult (Cmult (RtoC (A * win t j)) (cis phi)) (w N (Z.of_nat j * Z.of_nat n)) else RtoC 0)).
  2:{ intros j Hj. unfold band, amplitude. rewrite (tile_bins t k h N T j Fi In_) by lia. fold b0. rewrite tone_plain by lia. replace (b0 + j =? 0)%nat with false by lia.
      destruct (b0 + j =? m0)%nat; [|ring]. rewrite RtoC_mult. replace (RtoC A) with (Cmult (RtoC (2 / INR T)) (RtoC (A * INR T / 2))) by (rewrite <- RtoC_mult; f_equal; field; lra). ring. }
  destruct (Nat.leb_spec b0 m0) as [L1|L1]; [destruct (Nat.leb_spec m0 (k + 1 + h)) as [L2|L2]|]; cbn [andb].
  - rewrite (Csum_single (2 * h + 1) (m0 - b0)); [|lia|intros j Hj Nj; replace (b0 + j =? m0)%nat with false by lia; reflexivity].
    replace (b0 + (m0 - b0) =? m0)%nat with true by lia. rewrite !Cmod_mult, w_mod, cis_mod, !Cmod_R, !Rmult_1_r.
    destruct (qtile_window t P) as (h' & Hh' & Wl & Wj & Wh & _ & _).
    assert (h' = h). { assert (h' < h + 1 /\ h < h' + 1)%nat; [|lia]. split; apply INR_lt; rewrite plus_INR; cbn [INR]; lra. } subst h'.
    rewrite (Wj (m0 - b0)%nat) by lia. rewrite Rpow_mult_distr, !pow2_abs, Wh, HN, <- INR_IZR_INZ.
    replace (INR (m0 - b0) - INR h) with (INR m0 - INR (k + 1)) by (unfold b0; rewrite !minus_INR, !plus_INR by lia; ring).
    rewrite !Rpow_mult_distr. rewrite pow2_sqrt by (left; apply Rdiv_lt_0_compat; [nra|]; repeat apply Rmult_lt_0_compat; try lra; apply sqrt_lt_R0; lra).
    rewrite <- pow_mult. change (2 * 2)%nat with 4%nat. rewrite ET. assert (0 < sqrt 11) by (apply sqrt_lt_R0; lra).
    set (u := (1 - ((INR m0 - INR (k + 1)) / half_width t) ^ 2) ^ 4). field. repeat split; lra.
  - rewrite Csum_0; [rewrite Cmult_0_r, Cmod_0; ring|]. intros j Hj. replace (b0 + j =? m0)%nat with false by lia. reflexivity.
  - rewrite Csum_0; [rewrite Cmult_0_r, Cmod_0; ring|]. intros j Hj. replace (b0 + j =? m0)%nat with false by lia. reflexivity.
Qed.
(** the tile of frequency f responds most strongly to f + 1/duration, not to f *)
Theorem tile_centre_refuted t k h N T A phi psi n : fitting t h N -> inside_spectrum t k h T -> (0 < k)%nat -> (2 * (k + 1) < T)%nat -> (1 <= h)%nat -> A <> 0 ->
  row_energy t h N T (tone T k A phi) n = (1 - / half_width t ^ 2) ^ 4 * row_energy t h N T (tone T (k + 1) A psi) n /\
  row_energy t h N T (tone T k A phi) n < row_energy t h N T (tone T (k + 1) A psi) n /\
  forall m0 theta, (0 < m0)%nat -> (2 * m0 < T)%nat -> row_energy t h N T (tone T m0 A theta) n <= row_energy t h N T (tone T (k + 1) A psi) n.
Proof.
  intros Fi In_ K0 K1 Hh1 HA. pose proof Fi as (P & Hh & HN & Hf). pose proof In_ as (Ek & ET & H1 & H2). pose proof P as (Pq & Pf & Pd & Ps & Pm).
  assert (HP := half_width_pos t P). assert (PT : 0 < INR T) by (apply lt_0_INR; lia). assert (S11 : 0 < sqrt 11) by (apply sqrt_lt_R0; lra).
  assert (W1 : 1 <= half_width t) by (apply le_INR in Hh1; cbn [INR] in Hh1; lra).
  assert (A2 : 0 < A ^ 2) by (assert (0 <= A ^ 2) by apply pow2_ge_0; assert (A ^ 2 <> 0) by (apply pow_nonzero, HA); lra).
  set (c := A ^ 2 * (315 * qt_q t / (128 * sqrt 11 * qt_f t)) / INR T ^ 2).
  assert (C0 : 0 < c). { unfold c. apply Rdiv_lt_0_compat; [|apply pow_lt, PT]. apply Rmult_lt_0_compat; [exact A2|]. apply Rdiv_lt_0_compat; [nra|]. repeat apply Rmult_lt_0_compat; lra. }
  assert (TOP : row_energy t h N T (tone T (k + 1) A psi) n = c).
  { rewrite (row_tone t k h N T (k + 1) A psi n Fi In_ ltac:(lia) ltac:(lia)). replace (Nat.leb (k + 1 - h) (k + 1)) with true by (symmetry; apply Nat.leb_le; lia). replace (Nat.leb (k + 1) (k + 1 + h)) with true by (symmetry; apply Nat.leb_le; lia). cbn [andb]. fold c.
    replace (INR (k + 1) - INR (k + 1)) with 0 by ring. unfold Rdiv. rewrite Rmult_0_l. ring. }
  assert (AT : row_energy t h N T (tone T k A phi) n = (1 - / half_width t ^ 2) ^ 4 * c).
  { rewrite (row_tone t k h N T k A phi n Fi In_ ltac:(lia) ltac:(lia)). replace (Nat.leb (k + 1 - h) k) with true by (symmetry; apply Nat.leb_le; lia). replace (Nat.leb k (k + 1 + h)) with true by (symmetry; apply Nat.leb_le; lia). cbn [andb]. fold c.
    rewrite plus_INR. cbn [INR]. rewrite Rmult_comm. f_equal. f_equal. f_equal. field. lra. }
  rewrite TOP, AT. split; [reflexivity|].
  assert (U : 0 < / half_width t ^ 2 <= 1). { assert (1 <= half_width t ^ 2) by nra. split; [apply Rinv_0_lt_compat; lra|]. rewrite <- Rinv_1. apply Rinv_le_contravar; lra. }
  split.
  - rewrite <- (Rmult_1_l c) at 2. apply Rmult_lt_compat_r; [exact C0|]. set (v := 1 - / half_width t ^ 2) in *. assert (0 <= v < 1) by (unfold v; lra). assert (v ^ 2 < 1) by nra. assert (0 <= v ^ 2) by apply pow2_ge_0. replace (v ^ 4) with (v ^ 2 * v ^ 2) by ring. nra.
  - intros m0 theta M0 M1. rewrite (row_tone t k h N T m0 A theta n Fi In_ M0 M1). destruct (Nat.leb_spec (k + 1 - h) m0) as [L1|L1]; [destruct (Nat.leb_spec m0 (k + 1 + h)) as [L2|L2]|]; cbn [andb]; [|lra|lra]. fold c.
    rewrite <- (Rmult_1_r c) at 2. apply Rmult_le_compat_l; [lra|].
    assert (B : ((INR m0 - INR (k + 1)) / half_width t) ^ 2 <= 1).
    { unfold Rdiv. rewrite Rpow_mult_distr, pow_inv. apply (Rmult_le_reg_r (half_width t ^ 2)); [nra|]. rewrite Rmult_assoc, Rinv_l, Rmult_1_r, Rmult_1_l by nra.
      apply le_INR in L1, L2. rewrite minus_INR in L1 by lia. rewrite plus_INR in L2. rewrite <- (pow2_abs (INR m0 - _)). apply pow_incr. split; [apply Rabs_pos|]. apply Rabs_le. lra. }
    assert (0 <= ((INR m0 - INR (k + 1)) / half_width t) ^ 2) by apply pow2_ge_0. set (v := 1 - _). assert (0 <= v <= 1) by (unfold v; lra). rewrite <- (pow1 4). apply pow_incr. exact H0.
Qed.
(** the same at the level of the transform: what compute_qtiles returns for a batch whose series [b, c] is a sinusoid *)
Lemma row_energy_ext t h N T x y n : (0 < T)%nat -> (forall s, (s < T)%nat -> x s = y s) -> row_energy t h N T x n = row_energy t h N T y n.
Proof.
  intros HT E. unfold row_energy, band_sum. f_equal. f_equal. f_equal. apply Csum_ext. intros j _. f_equal. unfold band, amplitude. rewrite (rfft_ext T x y) by assumption. reflexivity.
Qed.
Theorem qtiles_tone m X tiles B D T i t k h N b c m0 A phi n :
  List.Forall usable (tr_tiles m) -> List.Forall (fun t => qt_dur t * qt_sr t = INR T) (tr_tiles m) -> (0 < T)%nat ->
  shape X = [B; D; T] -> compute_qtiles m X None = Ok tiles -> nth_error (tr_tiles m) i = Some t -> fitting t h N -> inside_spectrum t k h T ->
  (b < B)%nat -> (c < D)%nat -> (n < N)%nat -> (0 < m0)%nat -> (2 * m0 < T)%nat ->
  (forall s, (s < T)%nat -> elt X [b; c; s] = tone T m0 A phi s) ->
  get (nth i tiles (mk [] (fun _ => 0))) [b; c; n] = Some (
    if (Nat.leb (k + 1 - h) m0 && Nat.leb m0 (k + 1 + h))%bool
    then A ^ 2 * (315 * qt_q t / (128 * sqrt 11 * qt_f t)) / INR T ^ 2 * (1 - ((INR m0 - (qt_f t * qt_dur t + 1)) / half_width t) ^ 2) ^ 4 else 0).
Proof.
  intros U ED HT SX EX Hi Fi In_ Hb Hc Hn M0 M1 EX0. rewrite (qtiles_row m X tiles B D T i t h N b c n) by assumption. f_equal.
  rewrite (row_energy_ext t h N T _ (tone T m0 A phi) n HT EX0), (row_tone t k h N T m0 A phi n Fi In_ M0 M1). destruct In_ as (-> & _). rewrite plus_INR. reflexivity.
Qed.
(** example: a Q of 12 at 48 Hz in one second at 1024 Hz *)
Example inside_ex : usable (mkqt 12 48 1 1024 (1/5)) /\ fitting (mkqt 12 48 1 1024 (1/5)) 13 64 /\ inside_spectrum (mkqt 12 48 1 1024 (1/5)) 48 13 1024 /\
  exists d : dist (tensor R), (forall w x, List.In (w, x) d -> 0 <= w /\ shape x = (1%nat :: 1024%nat :: nil)%list) /\ white_noise d (fun x t => elt x (0%nat :: t :: nil)%list) 1024 1.
Proof.
  split; [|split; [exact qtile_ex|split]].
  - destruct qtile_ex as (P & _ & _ & _). split; [exact P|]. pose proof PI_gt_3. split; [cbn [qt_mm]; nra|].
    assert (Sm : 0.25 <= sqrt (1/5/3) < 0.26) by (apply sqrt_bounds; lra).
    unfold wanted_tiles. cbn [qt_f qt_dur qt_q qt_mm]. set (s := sqrt (1/5/3)) in *. replace (2 * PI * 48 * 1 / 12 / (2 * s)) with (4 * PI / s) by (field; lra).
    assert (E : 4 * PI / s * s = 4 * PI) by (field; lra). set (y := 4 * PI / s) in *. nra.
  - assert (E1 : INR 48 = 48) by (rewrite INR_IZR_INZ; reflexivity). assert (E2 : INR 1024 = 1024) by (rewrite INR_IZR_INZ; reflexivity).
    unfold inside_spectrum. cbn [qt_f qt_dur qt_sr]. rewrite E1, E2. repeat split; try lra; lia.
  - destruct (white_noise_exists 1024 1) as (d & _ & H1 & H2). exists d. split; assumption.
Qed.
