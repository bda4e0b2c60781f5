(** Properties C35, C36: whitening. *)
From Coq Require Import String.
From Verif Require Import Base Tensor Rutil Slicing_model Streaming_model Norm_model Norm_props Gw_model Gw_spec Gw_props Dft Snr_props Spectral_model.
From Coquelicot Require Import Rcomplements Complex.
Local Open Scope R_scope.

(** the Hann window is sin^2(pi i / n): 0 at the start, 1 in the middle, symmetric, between 0 and 1 *)
Theorem hann_spec n i : (0 < n)%nat -> hann n i = Rsqr (sin (PI * INR i / INR n)) /\ 0 <= hann n i <= 1 /\ hann n 0 = 0 /\
  (forall m, n = (2 * m)%nat -> hann n m = 1) /\ ((i <= n)%nat -> hann n (n - i) = hann n i).
Proof.
  intros Hn. assert (N : INR n <> 0) by (apply not_0_INR; lia). unfold hann.
  assert (E : 2 * PI * INR i / INR n = 2 * (PI * INR i / INR n)) by (field; assumption). split; [|split; [|split; [|split]]].
  - rewrite E, cos_2a_sin. unfold Rsqr. field.
  - pose proof (COS_bound (2 * PI * INR i / INR n)). lra.
  - replace (2 * PI * INR 0 / INR n) with 0 by (cbn [INR]; field; assumption). rewrite cos_0. lra.
  - intros m ->. rewrite mult_INR in *. replace (2 * PI * INR m / (INR 2 * INR m)) with PI.
    + rewrite cos_PI. lra.
    + cbn [INR]. field. apply not_0_INR. lia.
  - intros Hi. rewrite minus_INR by assumption. replace (2 * PI * (INR n - INR i) / INR n) with (- (2 * PI * INR i / INR n) + 2 * INR 1 * PI) by (cbn [INR]; field; assumption).
    rewrite cos_period, cos_neg. reflexivity.
Qed.

(** ** specification *)
(** the taper described by an fduration argument: pad samples are lost on each side, the window has wl samples W *)
Definition fd_ok (fd : fduration) (sr : R) (pad wl : nat) (W : nat -> R) : Prop :=
  match fd with
  | Seconds s => INR pad <= s * sr / 2 < INR pad + 1 /\ wl = (2 * pad)%nat /\ W = hann wl
  | Window w => shape w = [wl] /\ pad = (wl / 2)%nat /\ W = fun i => elt w [i]
  end.
(** inverse amplitude spectrum 1/sqrt(S) on F bins with the bins outside the band removed: the highpass removes bin k when
    (k+1) df <= f, the lowpass removes it otherwise, and for odd F the last (Nyquist) bin is removed *)
Definition dropped (F : nat) (sr : R) (hp lp : option R) (k : nat) : Prop :=
  let df := sr / INR ((F - 1) * 2) in
  match hp with Some f => (INR k + 1) * df <= f | None => False end \/
  match lp with Some f => f < (INR k + 1) * df | None => False end \/
  (Nat.Odd F /\ k = (F - 1)%nat).
(** g is the banded inverse amplitude spectrum of the PSD P *)
Definition inv_amp (F : nat) (sr : R) (hp lp : option R) (P g : nat -> R) : Prop :=
  forall k, (k < F)%nat -> (dropped F sr hp lp k -> g k = 0) /\ (~ dropped F sr hp lp k -> g k = 1 / sqrt (P k)).
(** the taper on a circular buffer of n samples: the second half of the window, zeros, the first half of the window *)
Definition taper (n pad wl : nat) (W : nat -> R) (t : nat) : R :=
  if (t <? pad)%nat then W (wl - pad + t)%nat else if (n - pad <=? t)%nat then W (t - (n - pad))%nat else 0.
(** frequency response of the truncated filter *)
Definition response (F pad wl : nat) (W g : nat -> R) (k : nat) : C :=
  rfft ((F - 1) * 2) (fun t => taper ((F - 1) * 2) pad wl W t * irfft ((F - 1) * 2) (fun k => RtoC (g k)) t) k.
(** a series filtered with the (zero-phase) gain H after removal of its mean *)
Definition filtered (N : nat) (sr : R) (H : nat -> R) (x : nat -> R) (t : nat) : R :=
  irfft N (fun k => Cmult (RtoC (H k)) (rfft N (fun t => x t - Rsum N x / INR N) k)) t / sqrt sr.

(** ** truncation of the inverse spectrum *)
Lemma rtrunc_nonneg x (p : nat) : INR p <= x < INR p + 1 -> rtrunc x = Z.of_nat p.
Proof.
  intros H. unfold rtrunc. destruct (Rle_dec 0 x) as [|n]; [|pose proof (pos_INR p); lra].
  apply Int_part_unique. rewrite <- INR_IZR_INZ. assumption.
Qed.
Lemma fd_ok_pad fd sr pad wl W : fd_ok fd sr pad wl W -> fd_pad fd sr = Z.of_nat pad /\
  fd_window fd (Z.of_nat pad) = Ok (wl, W) /\ (2 * pad <= wl)%nat.
Proof.
  destruct fd as [s|w]; cbn [fd_ok fd_pad fd_window].
  - intros [H [-> ->]]. split; [apply rtrunc_nonneg; assumption|]. split; [|lia].
    destruct (Z.ltb_spec (Z.of_nat pad) 0); [lia|]. replace (Z.to_nat (2 * Z.of_nat pad)) with (2 * pad)%nat by lia. reflexivity.
  - intros [Sw [-> ->]]. rewrite Sw. cbn [last]. repeat split; try reflexivity. apply (Nat.mul_div_le wl 2). lia.
Qed.
Lemma floor_lt (k : nat) x : 0 <= x -> (Z.of_nat k < Int_part x)%Z <-> INR k + 1 <= x.
Proof.
  intros Hx. destruct (base_Int_part x) as [A B]. split; intros H.
  - assert (H' : (Z.of_nat k + 1 <= Int_part x)%Z) by lia. apply IZR_le in H'. rewrite plus_IZR, <- INR_IZR_INZ in H'. lra.
  - assert (H' : (Z.of_nat k + 1 < Int_part x + 1)%Z); [|lia]. apply lt_IZR. rewrite !plus_IZR, <- INR_IZR_INZ. lra.
Qed.

Section Trunc.
Variables (psd : tensor R) (B ch F pad wl : nat) (W : nat -> R) (fd : fduration) (sr : R) (hp lp : option R).
Hypothesis Sp : shape psd = [B; ch; F].
Hypothesis HF : (2 <= F)%nat.
Hypothesis Hsr : 0 < sr.
Hypothesis Hfd : fd_ok fd sr pad wl W.
Hypothesis Hpad : (1 <= pad)%nat.
Hypothesis Hpad2 : (pad <= (F - 1) * 2)%nat.
Hypothesis Hhp : match hp with Some f => 0 <= f | None => True end.
Hypothesis Hlp : match lp with Some f => 0 <= f | None => True end.
Let n := ((F - 1) * 2)%nat.

Lemma trunc_lemma : (2 * pad <= n)%nat -> exists r, truncate_inverse_power_spectrum psd fd sr hp lp = Ok r /\ shape r = [B; ch; F] /\
  forall b c, exists g, inv_amp F sr hp lp (fun k => elt psd [b; c; k]) g /\
   forall k, elt r [b; c; k] = let a := Cmod (response F pad wl W g k) in if Req_EM_T a 0 then Inf else Fin (1 / (2 * a ^ 2)).
Proof using All.
  intros H2. destruct (fd_ok_pad _ _ _ _ _ Hfd) as [Epad [Ewin Hwl]].
  unfold truncate_inverse_power_spectrum, ndim. rewrite Sp. cbn [List.length Nat.eqb negb last]. fold n.
  assert (Hn : (0 < n)%nat) by (unfold n; lia). replace (n =? 0)%nat with false by lia.
  rewrite Epad, Ewin. cbn [bind].
  assert (C1 : slice_lo (Z.of_nat wl) (Some (- Z.of_nat pad))%Z = Z.of_nat (wl - pad)).
  { unfold slice_lo, py_clamp. replace (- Z.of_nat pad <? 0)%Z with true by lia. lia. }
  assert (C2 : slice_hi (Z.of_nat n) (Some (Z.of_nat pad)) = Z.of_nat pad).
  { unfold slice_hi, py_clamp. replace (Z.of_nat pad <? 0)%Z with false by lia. lia. }
  assert (C3 : slice_lo (Z.of_nat n) (Some (- Z.of_nat pad))%Z = Z.of_nat (n - pad)).
  { unfold slice_lo, py_clamp. replace (- Z.of_nat pad <? 0)%Z with true by lia. lia. }
  assert (C4 : slice_hi (Z.of_nat wl) (Some (Z.of_nat pad)) = Z.of_nat pad).
  { unfold slice_hi, py_clamp. replace (Z.of_nat pad <? 0)%Z with false by lia. lia. }
  rewrite C1, C2, C3, C4. unfold mul_slice.
  replace (Z.to_nat (Z.of_nat wl - Z.of_nat (wl - pad)) =? Z.to_nat (Z.of_nat pad - 0))%nat with true by lia. cbn [orb bind shape].
  replace (Z.to_nat (Z.of_nat pad) =? Z.to_nat (Z.of_nat n - Z.of_nat (n - pad)))%nat with true by lia. cbn [orb bind].
  match goal with |- context [irfft n (fun k => RtoC (elt ?t _))] => set (ia := t) end.
  eexists. split; [reflexivity|]. cbn [shape elt]. split; [reflexivity|]. intros b c.
  exists (fun k => elt ia [b; c; k]). split.
  - intros k Hk. unfold ia, dropped. fold n.
    assert (Hdf : 0 < sr / INR n) by (apply Rdiv_lt_0_compat; [assumption|apply INR_pos; assumption]).
    set (df := sr / INR n) in *.
    assert (M1 : forall f, 0 <= f -> ((Z.of_nat k <? slice_hi (Z.of_nat F) (Some (rtrunc (f / df))))%Z = true <-> (INR k + 1) * df <= f)).
    { intros f Hf. assert (0 <= f / df) by (apply Rmult_le_pos; [assumption|apply Rlt_le, Rinv_0_lt_compat; assumption]).
      unfold rtrunc. destruct (Rle_dec 0 (f / df)); [|tauto].
      assert (I0 : (0 <= Int_part (f / df))%Z). { destruct (base_Int_part (f / df)). assert (-1 < Int_part (f / df))%Z by (apply lt_IZR; lra). lia. }
      unfold slice_hi, py_clamp. destruct (Z.ltb_spec (Int_part (f / df)) 0); [lia|].
      rewrite Z.ltb_lt. rewrite (Rle_div_r _ f df) by assumption. rewrite <- floor_lt by assumption. lia. }
    assert (M2 : forall f, 0 <= f -> ((slice_lo (Z.of_nat F) (Some (rtrunc (f / df))) <=? Z.of_nat k)%Z = true <-> f < (INR k + 1) * df)).
    { intros f Hf. specialize (M1 f Hf). rewrite Z.leb_le. rewrite Z.ltb_lt in M1. unfold slice_lo, slice_hi in *. split; intros; [apply Rnot_le_lt|apply Z.nlt_ge]; rewrite <- ?M1; [lia|]. rewrite M1. lra. }
    set (bh := match hp with Some f => (Z.of_nat k <? slice_hi (Z.of_nat F) (Some (rtrunc (f / df))))%Z | None => false end).
    set (bl := match lp with Some f => (slice_lo (Z.of_nat F) (Some (rtrunc (f / df))) <=? Z.of_nat k)%Z | None => false end).
    set (bo := (Nat.odd F && (k =? F - 1)%nat)%bool).
    assert (Hbh : bh = true <-> match hp with Some f => (INR k + 1) * df <= f | None => False end).
    { unfold bh. destruct hp; [apply M1; assumption|]. split; [discriminate|tauto]. }
    assert (Hbl : bl = true <-> match lp with Some f => f < (INR k + 1) * df | None => False end).
    { unfold bl. destruct lp; [apply M2; assumption|]. split; [discriminate|tauto]. }
    assert (Hbo : bo = true <-> Nat.Odd F /\ k = (F - 1)%nat).
    { unfold bo. rewrite andb_true_iff, Nat.odd_spec, Nat.eqb_eq. reflexivity. }
    match goal with |- (?D -> ?G = 0) /\ _ => assert (Ek : G = if bo then 0 else if bl then 0 else if bh then 0 else 1 / sqrt (elt psd [b; c; k])) end.
    { unfold bo, bl, bh, zero_slice, tmap. destruct (Nat.odd F), lp, hp; cbn [andb elt last shape];
      repeat match goal with |- context [(0 <=? Z.of_nat k)%Z] => replace (0 <=? Z.of_nat k)%Z with true by lia end;
      repeat match goal with |- context [(Z.of_nat k <? Z.of_nat F)%Z] => replace (Z.of_nat k <? Z.of_nat F)%Z with true by lia end;
      repeat match goal with |- context [(Z.of_nat F - 1 <=? Z.of_nat k)%Z] => replace (Z.of_nat F - 1 <=? Z.of_nat k)%Z with (k =? F - 1)%nat by lia end;
      cbn [andb]; rewrite ?andb_true_r; reflexivity. }
    rewrite Ek. rewrite <- Hbh, <- Hbl, <- Hbo. destruct bo, bl, bh; split; intros D; try reflexivity; exfalso; try (apply D; tauto).
    destruct D as [D|[D|D]]; discriminate.
  - intros k. cbn [removelast app last].
    match goal with |- context [rfft n ?u k] => set (q := u) end.
    assert (Eq : forall t, (t < n)%nat -> q t = INR n * (taper n pad wl W t * irfft n (fun k => RtoC (elt ia [b; c; k])) t)).
    { intros t Ht. unfold q, taper, zero_slice.
      destruct (Z.ltb_spec (2 * Z.of_nat pad) (Z.of_nat n)) as [L|L]; cbn [shape elt last removelast app];
      repeat match goal with |- context [if ?b then _ else _] => destruct b eqn:?; cbn [elt last] end; try lia; try ring;
      try (match goal with |- context [W ?u] => match goal with |- _ = _ * (W ?v * _) => replace u with v by lia end end; ring). }
    rewrite (rfft_ext n _ _ _ Eq), rfft_scal. fold (response F pad wl W (fun k => elt ia [b; c; k]) k).
    unfold response. fold n. cbn zeta.
    set (A := rfft n (fun t => taper n pad wl W t * irfft n (fun k0 => RtoC (elt ia [b; c; k0])) t) k).
    rewrite Cmult_assoc. rewrite <- (RtoC_mult (/ INR n)). rewrite Rinv_l by (apply not_0_INR; lia). rewrite Cmult_1_l.
    rewrite Cmod_mult, Cmod_conj.
    destruct (Req_EM_T (Cmod A * Cmod A) 0) as [E|E], (Req_EM_T (Cmod A) 0) as [E'|E']; try reflexivity.
    + exfalso. apply E'. nra.
    + exfalso. apply E. rewrite E'. ring.
    + f_equal. field. assumption.
Qed.
End Trunc.
Theorem truncate_spec psd B ch F pad wl W fd sr hp lp :
  shape psd = [B; ch; F] -> (2 <= F)%nat -> 0 < sr -> fd_ok fd sr pad wl W -> (1 <= pad)%nat -> (2 * pad <= (F - 1) * 2)%nat ->
  match hp with Some f => 0 <= f | None => True end -> match lp with Some f => 0 <= f | None => True end ->
  exists r, truncate_inverse_power_spectrum psd fd sr hp lp = Ok r /\ shape r = [B; ch; F] /\
   forall b c, exists g, inv_amp F sr hp lp (fun k => elt psd [b; c; k]) g /\
    forall k, elt r [b; c; k] = let a := Cmod (response F pad wl W g k) in if Req_EM_T a 0 then Inf else Fin (1 / (2 * a ^ 2)).
Proof. intros. apply trunc_lemma; try assumption. lia. Qed.

Lemma inv_sqrt_num_spec fmax a : 0 <= a -> inv_sqrt_num fmax (if Req_EM_T a 0 then Inf else Fin (1 / (2 * a ^ 2))) = sqrt 2 * a.
Proof.
  intros Ha. destruct (Req_EM_T a 0) as [->|N]; cbn [inv_sqrt_num]; [ring|].
  assert (P : 0 < a) by lra. assert (P2 : 0 < 2 * a ^ 2) by nra.
  destruct (Rlt_dec 0 (1 / (2 * a ^ 2))) as [_|H]; [|exfalso; apply H; apply Rdiv_lt_0_compat; lra].
  assert (S0 : sqrt (2 * a ^ 2) = sqrt 2 * a). { rewrite sqrt_mult by nra. rewrite sqrt_pow2 by assumption. reflexivity. }
  unfold Rdiv at 2. rewrite Rmult_1_l. rewrite sqrt_inv. rewrite S0. field.
  pose proof (sqrt_lt_R0 2 ltac:(lra)). split; lra.
Qed.

Lemma normalize_spec fmax X (psd : tensor ext) B ch N pb pi sr pad crop : shape X = [B; ch; N] -> (0 < N)%nat ->
  shape psd = [pb; pi; rbins N] -> (pb = 1 \/ pb = B)%nat -> (pi = 1 \/ pi = ch)%nat ->
  exists Y, normalize_by_psd fmax X psd sr pad false = Ok Y /\ shape Y = [B; ch; N] /\
   normalize_by_psd fmax X psd sr pad crop = Ok (if crop then slice_last (Some pad) (Some (- pad)%Z) Y else Y) /\
   forall b c t, (b < B)%nat -> (c < ch)%nat -> elt Y [b; c; t] =
     filtered N sr (fun k => inv_sqrt_num fmax (elt psd [if (pb =? 1)%nat then 0%nat else b; if (pi =? 1)%nat then 0%nat else c; k])) (fun t => elt X [b; c; t]) t.
Proof.
  intros SX HN Sp Hpb Hpi. unfold normalize_by_psd, ndim. rewrite SX. cbn [List.length Nat.eqb last].
  replace (N =? 0)%nat with false by lia. unfold bzip at 1. unfold bzip at 2. unfold mean_last. rewrite SX. cbn [removelast last app shape].
  assert (B0 : bshape [B; ch; N] [B; ch; 1%nat] = Ok [B; ch; N]) by (unfold bshape; cbn; rewrite bdim_1_r, !bdim_refl; reflexivity).
  rewrite B0. cbn [bind shape removelast app]. unfold bzip. cbn [shape]. rewrite Sp, bshape_psd by assumption. cbn [bind shape removelast app List.length Nat.eqb negb].
  eexists. split; [reflexivity|]. split; [reflexivity|]. split; [destruct crop; reflexivity|].
  intros b c t Hb Hc. cbn [elt removelast last app]. unfold filtered. rewrite <- irfft_scal. f_equal. apply irfft_ext.
  intros k Hk. 
  assert (Bi : bidx [pb; pi; rbins N] [b; c; k] = [if (pb =? 1)%nat then 0%nat else b; if (pi =? 1)%nat then 0%nat else c; k]).
  { unfold bidx; cbn. rewrite (b1 (rbins N) k) by assumption. reflexivity. }
  rewrite Bi. rewrite bidx_BCT by assumption. cbn [removelast last app].
  rewrite (rfft_ext N _ (fun t => elt X [b; c; t] - Rsum N (fun t => elt X [b; c; t]) / INR N)).
  - rewrite (Cmult_comm _ (RtoC (inv_sqrt_num _ _))), !Cmult_assoc. f_equal.
    rewrite <- RtoC_mult, (Rmult_comm (INR N)), RtoC_mult, <- Cmult_assoc, <- RtoC_mult, Rinv_r by (apply not_0_INR; lia). ring.
  - intros t' Ht'. rewrite bidx_BCT by assumption.
    assert (B2 : bidx [B; ch; 1%nat] [b; c; t'] = [b; c; 0%nat]) by (unfold bidx; cbn; rewrite !b1 by assumption; reflexivity).
    rewrite B2. reflexivity.
Qed.

Theorem whiten_spec fmax X psd B ch N fd sr pad wl W hp lp crop :
  shape X = [B; ch; N] -> psd_ok psd B ch -> 0 < sr -> fd_ok fd sr pad wl W -> (1 <= pad)%nat -> (2 * pad < N)%nat ->
  match hp with Some f => 0 <= f | None => True end -> match lp with Some f => 0 <= f | None => True end ->
  exists r, whiten fmax X psd fd sr hp lp crop = Ok r /\ shape r = [B; ch; if crop then N - 2 * pad else N]%nat /\
   forall b c, (b < B)%nat -> (c < ch)%nat -> exists g, inv_amp (rbins N) sr hp lp (eff_psd psd (rbins N) b c) g /\
    forall t, (t < if crop then N - 2 * pad else N)%nat ->
     get r [b; c; t] = Some (filtered N sr (fun k => sqrt 2 * Cmod (response (rbins N) pad wl W g k)) (fun t => elt X [b; c; t])
                                      (t + if crop then pad else 0)).
Proof.
  intros SX Hpsd Hsr Hfd Hpad HN Hhp Hlp. pose proof Hpsd as [pb [pi [pf [Sp [Hb0 [Hi0 [Hf Hp]]]]]]].
  destruct (fd_ok_pad _ _ _ _ _ Hfd) as [Epad [Ewin Hwl]].
  unfold whiten, ndim at 1. rewrite SX, Epad. cbn [List.length Nat.eqb last].
  replace (Z.of_nat N <=? 2 * Z.of_nat pad)%Z with false by lia. fold (rbins N). rewrite Sp. cbn [last].
  assert (PSD : exists q, (if (pf =? rbins N)%nat then Ok (pad_ndim3 psd) else interpolate_last (rbins N) (pad_ndim3 psd)) = Ok q /\
     shape q = [pb; pi; rbins N] /\ forall b i k, (b < B)%nat -> (i < ch)%nat ->
       elt q [if (pb =? 1)%nat then 0%nat else b; if (pi =? 1)%nat then 0%nat else i; k] = eff_psd psd (rbins N) b i k).
  { unfold eff_psd. rewrite Sp. destruct (Nat.eqb_spec pf (rbins N)) as [E|Ne].
    - exists (pad_ndim3 psd). split; [reflexivity|]. rewrite Sp, E. split; reflexivity.
    - unfold interpolate_last, ndim. rewrite Sp. cbn [List.length Nat.eqb negb last removelast app].
      replace (rbins N =? 0)%nat with false by (unfold rbins; lia). replace (pf =? 0)%nat with false by lia. cbn [orb].
      eexists. split; [reflexivity|]. cbn [shape elt]. split; [reflexivity|]. intros. cbn [removelast last app]. reflexivity. }
  destruct PSD as [q [Eq [Sq Gq]]]. rewrite Eq. cbn [bind].
  assert (D : (2 * pad <= (rbins N - 1) * 2)%nat).
  { unfold rbins. rewrite Nat.add_sub. pose proof (Nat.div_mod N 2 ltac:(lia)). pose proof (Nat.mod_upper_bound N 2 ltac:(lia)). lia. }
  destruct (truncate_spec q pb pi (rbins N) pad wl W fd sr hp lp Sq ltac:(lia) Hsr Hfd Hpad D Hhp Hlp) as [p [Ep [Shp Gp]]].
  rewrite Ep. cbn [bind].
  destruct (normalize_spec fmax X p B ch N pb pi sr (Z.of_nat pad) crop SX ltac:(lia) Shp Hb0 Hi0) as [Y [_ [SY [EY GY]]]].
  rewrite EY. eexists. split; [reflexivity|].
  assert (Q : forall b c, (b < B)%nat -> (c < ch)%nat -> exists g, inv_amp (rbins N) sr hp lp (eff_psd psd (rbins N) b c) g /\
    forall t, elt Y [b; c; t] = filtered N sr (fun k => sqrt 2 * Cmod (response (rbins N) pad wl W g k)) (fun t => elt X [b; c; t]) t).
  { intros b c Hb Hc. destruct (Gp (if (pb =? 1)%nat then 0%nat else b) (if (pi =? 1)%nat then 0%nat else c)) as [g [Ig Gg]].
    exists g. split.
    - intros k Hk. destruct (Ig k Hk) as [I1 I2]. split; [exact I1|]. intros Nd. rewrite I2 by assumption. rewrite Gq by assumption. reflexivity.
    - intros t. rewrite GY by assumption. unfold filtered. f_equal. apply irfft_ext. intros k Hk. rewrite Gg. cbn zeta.
      rewrite inv_sqrt_num_spec by apply Cmod_ge_0. reflexivity. }
  destruct crop.
  - unfold slice_last. rewrite SY. cbn [last removelast app shape elt].
    assert (C1 : slice_lo (Z.of_nat N) (Some (Z.of_nat pad)) = Z.of_nat pad) by (unfold slice_lo, py_clamp; replace (Z.of_nat pad <? 0)%Z with false by lia; lia).
    assert (C2 : slice_hi (Z.of_nat N) (Some (- Z.of_nat pad)%Z) = Z.of_nat (N - pad)) by (unfold slice_hi, py_clamp; replace (- Z.of_nat pad <? 0)%Z with true by lia; lia).
    rewrite C1, C2. assert (L : Z.to_nat (Z.of_nat (N - pad) - Z.of_nat pad) = (N - 2 * pad)%nat) by lia. rewrite L. split; [reflexivity|].
    intros b c Hb Hc. destruct (Q b c Hb Hc) as [g [Ig Gg]]. exists g. split; [assumption|]. intros t Ht.
    rewrite get_inb by (cbn; lia). f_equal. cbn [elt last removelast app]. rewrite Nat2Z.id. apply Gg.
  - split; [exact SY|]. intros b c Hb Hc. destruct (Q b c Hb Hc) as [g [Ig Gg]]. exists g. split; [assumption|]. intros t Ht.
    rewrite get_inb by (rewrite SY; cbn; lia). f_equal. rewrite Nat.add_0_r. apply Gg.
Qed.

(** too short an input is rejected, whatever the other arguments are; and no other input is (by [whiten_spec]) *)
Theorem whiten_too_short fmax X psd B ch N fd sr pad wl W hp lp crop :
  shape X = [B; ch; N] -> fd_ok fd sr pad wl W -> (N <= 2 * pad)%nat -> whiten fmax X psd fd sr hp lp crop = Err ValueError.
Proof.
  intros SX Hfd HN. destruct (fd_ok_pad _ _ _ _ _ Hfd) as [Epad _].
  unfold whiten, ndim. rewrite SX, Epad. cbn [List.length Nat.eqb last].
  replace (Z.of_nat N <=? 2 * Z.of_nat pad)%Z with true by lia. reflexivity.
Qed.

(** ** the degenerate filter: fduration shorter than two samples *)
Theorem whiten_pad0_refuted fmax X psd B ch N fd sr wl W hp lp crop :
  shape X = [B; ch; N] -> psd_ok psd B ch -> fd_ok fd sr 0 wl W -> (2 <= N)%nat ->
  whiten fmax X psd fd sr hp lp crop = Err RuntimeError.
Proof.
  intros SX Hpsd Hfd HN. pose proof Hpsd as [pb [pi [pf [Sp [Hb0 [Hi0 [Hf Hp]]]]]]].
  destruct (fd_ok_pad _ _ _ _ _ Hfd) as [Epad [Ewin _]].
  unfold whiten, ndim at 1. rewrite SX, Epad. cbn [List.length Nat.eqb last].
  replace (Z.of_nat N <=? 2 * Z.of_nat 0)%Z with false by lia. fold (rbins N). rewrite Sp. cbn [last].
  assert (PSD : exists q, (if (pf =? rbins N)%nat then Ok (pad_ndim3 psd) else interpolate_last (rbins N) (pad_ndim3 psd)) = Ok q /\
     shape q = [pb; pi; rbins N]).
  { destruct (Nat.eqb_spec pf (rbins N)) as [E|Ne].
    - exists (pad_ndim3 psd). split; [reflexivity|]. rewrite Sp, E. reflexivity.
    - unfold interpolate_last, ndim. rewrite Sp. cbn [List.length Nat.eqb negb last removelast app].
      replace (rbins N =? 0)%nat with false by (unfold rbins; lia). replace (pf =? 0)%nat with false by lia. cbn [orb].
      eexists. split; reflexivity. }
  destruct PSD as [q [Eq Sq]]. rewrite Eq. cbn [bind].
  unfold truncate_inverse_power_spectrum, ndim. rewrite Sq. cbn [List.length Nat.eqb negb last].
  assert (H2 : (1 <= N / 2)%nat) by (apply Nat.div_le_lower_bound; lia).
  set (m := ((rbins N - 1) * 2)%nat). assert (Hm : (2 <= m)%nat) by (unfold m, rbins; lia).
  replace (m =? 0)%nat with false by lia. rewrite Epad, Ewin. cbn [bind].
  assert (Hwl : (wl <= 1)%nat).
  { destruct fd as [s|w]; cbn in Hfd; [lia|]. destruct Hfd as [_ [E _]]. apply Nat.nlt_ge. intros L.
    pose proof (Nat.div_le_lower_bound wl 2 1 ltac:(lia) ltac:(lia)). lia. }
  unfold mul_slice.
  assert (C1 : slice_lo (Z.of_nat wl) (Some (- Z.of_nat 0))%Z = 0%Z) by (unfold slice_lo, py_clamp; change (Z.of_nat 0) with 0%Z; change (- 0)%Z with 0%Z; change (0 <? 0)%Z with false; cbv iota; lia).
  assert (C2 : slice_hi (Z.of_nat m) (Some (Z.of_nat 0)) = 0%Z) by (unfold slice_hi, py_clamp; change (Z.of_nat 0) with 0%Z; change (- 0)%Z with 0%Z; change (0 <? 0)%Z with false; cbv iota; lia).
  assert (C3 : slice_lo (Z.of_nat m) (Some (- Z.of_nat 0))%Z = 0%Z) by (unfold slice_lo, py_clamp; change (Z.of_nat 0) with 0%Z; change (- 0)%Z with 0%Z; change (0 <? 0)%Z with false; cbv iota; lia).
  assert (C4 : slice_hi (Z.of_nat wl) (Some (Z.of_nat 0)) = 0%Z) by (unfold slice_hi, py_clamp; change (Z.of_nat 0) with 0%Z; change (- 0)%Z with 0%Z; change (0 <? 0)%Z with false; cbv iota; lia).
  rewrite C1, C2, C3, C4.
  replace ((Z.to_nat (Z.of_nat wl - 0) =? Z.to_nat (0 - 0)) || (Z.to_nat (Z.of_nat wl - 0) =? 1))%nat with true by lia. cbn [bind].
  replace ((Z.to_nat 0 =? Z.to_nat (Z.of_nat m - 0)) || (Z.to_nat 0 =? 1))%nat with false by lia. reflexivity.
Qed.
Theorem normalize_pad0_empty fmax X (psd : tensor ext) B ch N pb pi sr : shape X = [B; ch; N] -> (0 < N)%nat ->
  shape psd = [pb; pi; rbins N] -> (pb = 1 \/ pb = B)%nat -> (pi = 1 \/ pi = ch)%nat ->
  exists r, normalize_by_psd fmax X psd sr 0 true = Ok r /\ shape r = [B; ch; 0%nat].
Proof.
  intros SX HN Sp Hb Hc. destruct (normalize_spec fmax X psd B ch N pb pi sr 0 true SX HN Sp Hb Hc) as [Y [_ [SY [E _]]]].
  rewrite E. eexists. split; [reflexivity|]. unfold slice_last. rewrite SY. cbn [last shape removelast app].
  unfold slice_lo, slice_hi, py_clamp. change (- 0)%Z with 0%Z. change (0 <? 0)%Z with false. cbv iota. repeat f_equal. lia.
Qed.

(** ** algebra of the filter *)
Theorem filtered_linear N sr H a c x y t : (0 < N)%nat ->
  filtered N sr H (fun t => a * x t + c * y t) t = a * filtered N sr H x t + c * filtered N sr H y t.
Proof.
  intros HN. unfold filtered.
  match goal with |- ?u / ?s = _ * (?v / ?s) + _ * (?w / ?s) => replace (a * (v / s) + c * (w / s)) with ((a * v + c * w) / s) by (unfold Rdiv; ring); f_equal end.
  rewrite <- !irfft_scal, <- irfft_plus. apply irfft_ext. intros k _.
  rewrite (rfft_ext N _ (fun t => a * (x t - Rsum N x / INR N) + c * (y t - Rsum N y / INR N))).
  - rewrite rfft_plus, !rfft_scal. ring.
  - intros u _. rewrite Rsum_plus, !Rsum_scal. field. apply not_0_INR. lia.
Qed.
Theorem filtered_offset N sr H d x t : (0 < N)%nat -> filtered N sr H (fun t => x t + d) t = filtered N sr H x t.
Proof.
  intros HN. unfold filtered. f_equal. apply irfft_ext. intros k _. f_equal. apply rfft_ext. intros u _.
  rewrite Rsum_plus, Rsum_const. field. apply not_0_INR. lia.
Qed.
Theorem filtered_gain N sr H c x t : filtered N sr (fun k => c * H k) x t = c * filtered N sr H x t.
Proof.
  unfold filtered.
  match goal with |- ?u / ?s = _ * (?v / ?s) => replace (c * (v / s)) with (c * v / s) by (unfold Rdiv; ring); f_equal end.
  rewrite <- irfft_scal. apply irfft_ext. intros k _. rewrite RtoC_mult. ring.
Qed.
(** the filter is a circular convolution of the demeaned series with the impulse response of the gain *)
Lemma Rsum_croll N d x : (0 < N)%nat -> Rsum N (croll N d x) = Rsum N x.
Proof.
  intros HN. unfold croll.
  transitivity (Rsum N (fun i => (fun z => x (Z.to_nat (z mod Z.of_nat N))) (Z.of_nat i + - d)%Z)).
  - apply Rsum_ext. intros i _. reflexivity.
  - rewrite (Rsum_period N (fun z => x (Z.to_nat (z mod Z.of_nat N))) (- d)); [|assumption|].
    + apply Rsum_ext. intros i Hi. rewrite Z.mod_small, Nat2Z.id by lia. reflexivity.
    + intros z. f_equal. f_equal. replace (z + Z.of_nat N)%Z with (z + 1 * Z.of_nat N)%Z by lia. apply Z_mod_plus_full.
Qed.
Lemma filtered_cconv N sr H x t : (t < N)%nat ->
  filtered N sr H x t = cconv N (irfft N (fun k => RtoC (H k))) (fun t => x t - Rsum N x / INR N) t / sqrt sr.
Proof.
  intros Ht. unfold filtered. f_equal. rewrite <- irfft_mult by assumption. apply irfft_ext. intros k Hk. f_equal.
  rewrite rfft_irfft by (assumption || lia). destruct ((k =? 0) || (2 * k =? N))%nat; reflexivity.
Qed.
Lemma croll_croll {A} N a d (x : nat -> A) t : (0 < N)%nat -> croll N a (croll N d x) t = croll N (a + d) x t.
Proof.
  intros HN. unfold croll. f_equal. rewrite Z2Nat.id by (apply Z.mod_pos_bound; lia). rewrite Zminus_mod_idemp_l. f_equal. f_equal. lia.
Qed.
(** the filter commutes with circular time shifts: it does not move events *)
Theorem filtered_shift N sr H d x t : (t < N)%nat -> filtered N sr H (croll N d x) t = croll N d (filtered N sr H x) t.
Proof.
  intros Ht. rewrite filtered_cconv by assumption. rewrite Rsum_croll by lia. unfold croll at 2.
  assert (B : (0 <= (Z.of_nat t - d) mod Z.of_nat N < Z.of_nat N)%Z) by (apply Z.mod_pos_bound; lia).
  rewrite filtered_cconv by lia. f_equal. unfold cconv. apply Rsum_ext. intros a Ha. f_equal.
  transitivity (croll N (Z.of_nat a) (croll N d (fun t => x t - Rsum N x / INR N)) t); [reflexivity|].
  rewrite croll_croll by lia. unfold croll. rewrite Z2Nat.id by lia. rewrite Zminus_mod_idemp_l.
  replace (Z.of_nat t - (Z.of_nat a + d))%Z with (Z.of_nat t - d - Z.of_nat a)%Z by lia. reflexivity.
Qed.
(** quadrupling the PSD halves the output: the response scales with 1/sqrt(c) *)
Lemma inv_amp_unique F sr hp lp P g g' : inv_amp F sr hp lp P g -> inv_amp F sr hp lp P g' -> forall k, (k < F)%nat -> g k = g' k.
Proof.
  intros H H' k Hk. destruct (H k Hk) as [A B]. destruct (H' k Hk) as [A' B'].
  destruct (Classical_Prop.classic (dropped F sr hp lp k)) as [D|D].
  - rewrite A, A' by assumption. reflexivity.
  - rewrite B, B' by assumption. reflexivity.
Qed.
Lemma inv_amp_scale F sr hp lp P g c : 0 < c -> inv_amp F sr hp lp P g -> inv_amp F sr hp lp (fun k => c * P k) (fun k => / sqrt c * g k).
Proof.
  intros Hc H k Hk. destruct (H k Hk) as [A B]. split; intros D.
  - rewrite A by assumption. ring.
  - rewrite B by assumption. rewrite sqrt_mult_alt by lra. unfold Rdiv. rewrite Rinv_mult. ring.
Qed.
Lemma rbins_even F : rbins ((F - 1) * 2) = (F - 1 + 1)%nat.
Proof. unfold rbins. rewrite Nat.div_mul by lia. reflexivity. Qed.
Lemma response_ext F pad wl W g g' k : (2 <= F)%nat -> (forall k, (k < F)%nat -> g k = g' k) -> response F pad wl W g k = response F pad wl W g' k.
Proof.
  intros HF H. unfold response. apply rfft_ext. intros t _. f_equal. apply irfft_ext. intros j Hj. rewrite rbins_even in Hj. rewrite H by lia. reflexivity.
Qed.
Lemma response_scale F pad wl W g c k : response F pad wl W (fun k => c * g k) k = Cmult (RtoC c) (response F pad wl W g k).
Proof.
  unfold response. rewrite <- rfft_scal. apply rfft_ext. intros t _.
  rewrite (irfft_ext _ _ (fun k => Cmult (RtoC c) (RtoC (g k)))) by (intros; rewrite RtoC_mult; reflexivity).
  rewrite irfft_scal. ring.
Qed.
Theorem whitened_psd_scale N sr pad wl W hp lp P g g' c x t : (2 <= N)%nat -> 0 < c ->
  inv_amp (rbins N) sr hp lp P g -> inv_amp (rbins N) sr hp lp (fun k => c * P k) g' ->
  filtered N sr (fun k => sqrt 2 * Cmod (response (rbins N) pad wl W g' k)) x t =
  / sqrt c * filtered N sr (fun k => sqrt 2 * Cmod (response (rbins N) pad wl W g k)) x t.
Proof.
  intros HN Hc Hg Hg'. rewrite <- filtered_gain. unfold filtered. f_equal. apply irfft_ext. intros k Hk. f_equal. f_equal.
  assert (HF : (2 <= rbins N)%nat) by (unfold rbins; pose proof (Nat.div_le_lower_bound N 2 1 ltac:(lia) ltac:(lia)); lia).
  rewrite (response_ext _ pad wl W g' (fun k => / sqrt c * g k) k HF).
  - rewrite response_scale, Cmod_mult, Cmod_R. pose proof (Rinv_0_lt_compat _ (sqrt_lt_R0 c Hc)). rewrite Rabs_pos_eq by lra. ring.
  - apply inv_amp_unique with (1 := Hg'). apply inv_amp_scale; assumption.
Qed.

(** ** locality: when the truncated response is a real non-negative gain (and N is even), the whitened sample t, for t at
    least pad samples away from both ends, is a plain convolution over the samples t-pad+1 .. t+pad; nothing wraps around *)
Lemma irfft_response N pad wl W g r : (0 < N)%nat -> Nat.Even N ->
  (forall k, (k < rbins N)%nat -> response (rbins N) pad wl W g k = RtoC (r k)) ->
  forall t, (t < N)%nat -> irfft N (fun k => RtoC (r k)) t = taper N pad wl W t * irfft N (fun k => RtoC (g k)) t.
Proof.
  intros HN [m Hm] H t Ht.
  assert (EN : ((rbins N - 1) * 2 = N)%nat) by (unfold rbins; rewrite Nat.add_sub; subst N; rewrite (Nat.mul_comm 2 m), Nat.div_mul by lia; reflexivity).
  rewrite (irfft_ext N _ (response (rbins N) pad wl W g)) by (intros; symmetry; apply H; assumption).
  unfold response. rewrite EN. rewrite irfft_rfft by assumption. reflexivity.
Qed.
Theorem filtered_local N sr pad wl W g r x t :
  Nat.Even N -> (forall k, (k < rbins N)%nat -> response (rbins N) pad wl W g k = RtoC (r k) /\ 0 <= r k) ->
  (pad <= t)%nat -> (t + pad < N)%nat ->
  let h u := taper N pad wl W u * irfft N (fun k => RtoC (g k)) u in let m := Rsum N x / INR N in
  filtered N sr (fun k => sqrt 2 * Cmod (response (rbins N) pad wl W g k)) x t =
  sqrt 2 / sqrt sr * (Rsum pad (fun a => h a * (x (t - a)%nat - m)) + Rsum pad (fun a => h (N - 1 - a)%nat * (x (t + 1 + a)%nat - m))).
Proof.
  intros HE H Ht1 Ht2 h m. rewrite (filtered_gain N sr (fun k => Cmod (response (rbins N) pad wl W g k)) (sqrt 2)).
  rewrite filtered_cconv by lia.
  assert (E : forall u, (u < N)%nat -> irfft N (fun k => RtoC (Cmod (response (rbins N) pad wl W g k))) u = h u).
  { intros u Hu. unfold h. rewrite <- (irfft_response N pad wl W g r ltac:(lia) HE (fun k Hk => proj1 (H k Hk)) u Hu).
    apply irfft_ext. intros k Hk. destruct (H k Hk) as [-> P]. rewrite Cmod_R, Rabs_pos_eq by assumption. reflexivity. }
  fold m. set (y := fun t => x t - m).
  assert (S0 : cconv N (irfft N (fun k => RtoC (Cmod (response (rbins N) pad wl W g k)))) y t = Rsum N (fun a => h a * croll N (Z.of_nat a) y t)).
  { unfold cconv. apply Rsum_ext. intros a Ha. rewrite E by assumption. reflexivity. }
  rewrite S0. replace N with (pad + ((N - 2 * pad) + pad))%nat at 1 by lia. rewrite !Rsum_app.
  rewrite (Rsum_0 (N - 2 * pad)).
  2:{ intros i Hi. unfold h, taper. replace (pad + i <? pad)%nat with false by lia. replace (N - pad <=? pad + i)%nat with false by lia. ring. }
  assert (P1 : Rsum pad (fun a => h a * croll N (Z.of_nat a) y t) = Rsum pad (fun a => h a * (x (t - a)%nat - m))).
  { apply Rsum_ext. intros a Ha. f_equal. unfold croll, y. rewrite Z.mod_small by lia. replace (Z.to_nat (Z.of_nat t - Z.of_nat a)) with (t - a)%nat by lia. reflexivity. }
  assert (P2 : Rsum pad (fun i => h (pad + (N - 2 * pad + i))%nat * croll N (Z.of_nat (pad + (N - 2 * pad + i))) y t) = Rsum pad (fun a => h (N - 1 - a)%nat * (x (t + 1 + a)%nat - m))).
  { rewrite <- Rsum_rev. apply Rsum_ext. intros a Ha. replace (pad + (N - 2 * pad + (pad - 1 - a)))%nat with (N - 1 - a)%nat by lia. f_equal.
    unfold croll, y.
    assert (Em : ((Z.of_nat t - Z.of_nat (N - 1 - a)) mod Z.of_nat N = Z.of_nat (t + 1 + a))%Z).
    { replace (Z.of_nat t - Z.of_nat (N - 1 - a))%Z with (Z.of_nat (t + 1 + a) + (-1) * Z.of_nat N)%Z by lia. rewrite Z_mod_plus_full. apply Z.mod_small. lia. }
    rewrite Em, Nat2Z.id. reflexivity. }
  rewrite P1, P2. unfold Rdiv. ring.
Qed.

(** ** white noise: for the flat PSD of white noise of standard deviation sigma (2 sigma^2 / sr one-sided) without band
    limits, and an even number of bins, the result is exactly the demeaned input divided by sigma *)
Lemma irfft_one n t : (0 < n)%nat -> (t < n)%nat -> irfft n (fun _ => RtoC 1) t = if (t =? 0)%nat then 1 else 0.
Proof.
  intros Hn Ht. rewrite <- (irfft_rfft n (fun t => if (t =? 0)%nat then 1 else 0) t) by assumption. apply irfft_ext. intros k _.
  unfold rfft, dft. rewrite (Csum_single n 0).
  - cbn [Nat.eqb]. rewrite Z.mul_0_r. change (- 0)%Z with 0%Z. rewrite w_0. ring.
  - assumption.
  - intros i _ Hi. replace (i =? 0)%nat with false by lia. ring.
Qed.
Lemma response_const F pad wl W g c k : (2 <= F)%nat -> (1 <= pad)%nat -> W (wl - pad)%nat = 1 -> (forall k, (k < F)%nat -> g k = c) -> response F pad wl W g k = RtoC c.
Proof.
  intros HF Hp HW Hg. rewrite (response_ext F pad wl W g (fun _ => c * 1) k HF) by (intros; rewrite Hg by assumption; ring).
  rewrite response_scale. unfold response.
  rewrite (rfft_ext _ _ (irfft ((F - 1) * 2) (fun _ => RtoC 1))).
  - unfold rfft, dft. rewrite (Csum_single _ 0); [|lia|].
    + rewrite irfft_one by lia. cbn [Nat.eqb]. rewrite Z.mul_0_r. change (- 0)%Z with 0%Z. rewrite w_0. ring.
    + intros i Hi Hi0. rewrite irfft_one by lia. replace (i =? 0)%nat with false by lia. ring.
  - intros t Ht. rewrite irfft_one by lia. destruct (Nat.eqb_spec t 0) as [->|]; [|ring].
    unfold taper. replace (0 <? pad)%nat with true by lia. rewrite Nat.add_0_r, HW. ring.
Qed.
Lemma filtered_const N sr H c x t : (t < N)%nat -> (forall k, (k < rbins N)%nat -> H k = c) -> filtered N sr H x t = c * (x t - Rsum N x / INR N) / sqrt sr.
Proof.
  intros Ht HH. unfold filtered. f_equal.
  rewrite (irfft_ext N _ (fun k => Cmult (RtoC c) (rfft N (fun t => x t - Rsum N x / INR N) k))) by (intros k Hk; rewrite HH by assumption; reflexivity).
  rewrite irfft_scal, irfft_rfft by assumption. reflexivity.
Qed.
Lemma hann_mid pad : (1 <= pad)%nat -> hann (2 * pad) (2 * pad - pad) = 1.
Proof.
  intros H. unfold hann. replace (2 * pad - pad)%nat with pad by lia.
  replace (2 * PI * INR pad / INR (2 * pad)) with PI; [rewrite cos_PI; lra|]. rewrite mult_INR. cbn [INR]. field. apply not_0_INR. lia.
Qed.
Theorem whiten_white_noise fmax X psd B ch N s sr pad sigma :
  shape X = [B; ch; N] -> psd_ok psd B ch -> 0 < sr -> 0 < sigma ->
  (forall b c k, (b < B)%nat -> (c < ch)%nat -> (k < rbins N)%nat -> eff_psd psd (rbins N) b c k = 2 * sigma ^ 2 / sr) ->
  INR pad <= s * sr / 2 < INR pad + 1 -> (1 <= pad)%nat -> (2 * pad < N)%nat -> Nat.Even (rbins N) ->
  exists r, whiten fmax X psd (Seconds s) sr None None true = Ok r /\ shape r = [B; ch; N - 2 * pad]%nat /\
   forall b c t, (b < B)%nat -> (c < ch)%nat -> (t < N - 2 * pad)%nat ->
     get r [b; c; t] = Some ((elt X [b; c; t + pad]%nat - Rsum N (fun t => elt X [b; c; t]) / INR N) / sigma).
Proof.
  intros SX Hpsd Hsr Hsig Hflat Hs Hpad HN HE.
  destruct (whiten_spec fmax X psd B ch N (Seconds s) sr pad (2 * pad) (hann (2 * pad)) None None true SX Hpsd Hsr) as [r [E [Sr G]]]; try assumption; try exact I.
  { cbn. repeat split; lra. }
  exists r. split; [assumption|]. split; [assumption|]. intros b c t Hb Hc Ht. destruct (G b c Hb Hc) as [g [Ig Gg]].
  rewrite Gg by assumption. f_equal.
  assert (HF : (2 <= rbins N)%nat) by (unfold rbins; pose proof (Nat.div_le_lower_bound N 2 1 ltac:(lia) ltac:(lia)); lia).
  assert (Hg : forall k, (k < rbins N)%nat -> g k = 1 / sqrt (2 * sigma ^ 2 / sr)).
  { intros k Hk. destruct (Ig k Hk) as [_ I2]. rewrite I2; [rewrite Hflat by assumption; reflexivity|].
    intros [[]|[[]|[O _]]]. destruct HE as [u Hu], O as [v Hv]. lia. }
  assert (P : 0 < 2 * sigma ^ 2 / sr) by (apply Rdiv_lt_0_compat; [|assumption]; pose proof (pow_lt sigma 2 Hsig); lra).
  rewrite (filtered_const N sr _ (sqrt 2 * (1 / sqrt (2 * sigma ^ 2 / sr)))).
  - rewrite sqrt_div_alt by assumption. rewrite sqrt_mult_alt by lra. rewrite sqrt_pow2 by lra.
    pose proof (sqrt_lt_R0 2 ltac:(lra)). pose proof (sqrt_lt_R0 sr Hsr). field. repeat split; try lra. apply not_0_INR. lia.
  - lia.
  - intros k Hk. rewrite (response_const (rbins N) pad (2 * pad) (hann (2 * pad)) g (1 / sqrt (2 * sigma ^ 2 / sr)) k HF Hpad (hann_mid pad Hpad) Hg).
    rewrite Cmod_R, Rabs_pos_eq; [reflexivity|]. apply Rlt_le, Rdiv_lt_0_compat; [lra|apply sqrt_lt_R0; assumption].
Qed.

(** ** non-vacuity: 10 samples at 2 Hz, fduration 2 s *)
Definition ex_X : tensor R := mk [1; 1; 10]%nat (fun i => INR (last i 0%nat)).
Definition ex_psd : tensor R := mk [1; 6]%nat (fun _ => 1).
Example whiten_example : exists r, whiten 1 ex_X ex_psd (Seconds 2) 2 None None true = Ok r /\ shape r = [1; 1; 6]%nat /\
  get r [0; 0; 0]%nat = Some ((2 - 9 / 2) / 1).
Proof.
  assert (HP : psd_ok ex_psd 1 1).
  { apply psd_ok_2d with (pf := 6%nat); [reflexivity|lia|]. intros; cbn; lra. }
  destruct (whiten_white_noise 1 ex_X ex_psd 1 1 10 2 2 2 1) as [r [E [Sr G]]]; try reflexivity; try lra; try lia; try assumption.
  - intros b c k Hb Hc Hk. change (rbins 10) with 6%nat. cbn. field.
  - cbn. lra.
  - exists 3%nat. reflexivity.
  - exists r. split; [assumption|]. split; [assumption|]. rewrite G by lia. f_equal. cbn. lra.
Qed.
(** the hypotheses of [filtered_local] are met by a flat spectrum *)
Example filtered_local_example : Nat.Even 10 /\
  forall k, (k < rbins 10)%nat -> response (rbins 10) 2 4 (hann 4) (fun _ => 1) k = RtoC 1 /\ 0 <= 1.
Proof.
  split; [exists 5%nat; reflexivity|]. intros k Hk. split; [|lra]. apply response_const; [change (rbins 10) with 6%nat; lia|lia|apply (hann_mid 2); lia|reflexivity].
Qed.
