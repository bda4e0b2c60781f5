(** Property C105: whitening with a PSD that has zero or negative bins. *)
From Coq Require Import String.
From Coquelicot Require Import Rcomplements Complex.
From Verif Require Import Dist2_model.
From Verif Require Import Base Tensor Rutil Slicing_model Streaming_model Norm_model Norm_props Gw_model Gw_spec Gw_props Dft Snr_props Spectral_model.
From Verif Require Import Whiten_props Zero_model.
Local Open Scope R_scope.

(** ** specification *)
(** the PSD fits the data: at most three axes, each of the first two of size 1 or as in the data, at least one bin (any values) *)
Definition psd_shaped (psd : tensor R) (B ni : nat) : Prop :=
  exists pb pi pf, shape (pad_ndim3 psd) = [pb; pi; pf] /\ (pb = 1 \/ pb = B)%nat /\ (pi = 1 \/ pi = ni)%nat /\ (0 < pf)%nat.
(** every bin that the band limits keep is positive *)
Definition row_good (F : nat) (sr : R) (hp lp : option R) (P : nat -> R) : Prop :=
  forall k, (k < F)%nat -> ~ dropped F sr hp lp k -> 0 < P k.
(** some bin that the band limits keep is zero or negative, and it contributes to the sample where the taper vanishes *)
Definition row_bad (F pad : nat) (sr : R) (hp lp : option R) (P : nat -> R) : Prop :=
  exists k, (k < F)%nat /\ ~ dropped F sr hp lp k /\ P k <= 0 /\ cos (2 * PI * INR k * INR pad / INR ((F - 1) * 2)) <> 0.

Lemma rbins_even F : (2 <= F)%nat -> rbins ((F - 1) * 2) = F.
Proof. intros H. unfold rbins. rewrite Nat.div_mul by lia. lia. Qed.

Section Trunc.
Variables (IR : nat -> (nat -> er) -> nat -> er) (RF : nat -> (nat -> er) -> nat -> er * er).
Hypothesis HIR : irfft_impl IR.
Hypothesis HRF : rfft_impl RF.
Variables (psd : tensor R) (B ch F pad wl : nat) (W : nat -> R) (fd : fduration) (sr : R) (hp lp : option R).
Hypothesis Sp : shape psd = [B; ch; F].
Hypothesis HF : (2 <= F)%nat.
Hypothesis Hsr : 0 < sr.
Hypothesis Hfd : fd_ok fd sr pad wl W.
Hypothesis Hpad : (1 <= pad)%nat.
Hypothesis Hhp : match hp with Some f => 0 <= f | None => True end.
Hypothesis Hlp : match lp with Some f => 0 <= f | None => True end.
Let n := ((F - 1) * 2)%nat.

Lemma trunc_x : (2 * pad <= n)%nat -> exists r, truncate_x IR RF psd fd sr hp lp = Ok r /\ shape r = [B; ch; F] /\
  forall b c, let P := fun k => elt psd [b; c; k] in
   (row_good F sr hp lp P -> exists g, inv_amp F sr hp lp P g /\
     forall k, (k < F)%nat -> elt r [b; c; k] = let a := Cmod (response F pad wl W g k) in if Req_EM_T a 0 then EP else EF (1 / (2 * a ^ 2))) /\
   (W 0%nat = 0 -> row_bad F pad sr hp lp P -> forall k, (k < F)%nat -> elt r [b; c; k] = EN).
Proof using All.
  intros H2. destruct (fd_ok_pad _ _ _ _ _ Hfd) as [Epad [Ewin Hwl]].
  unfold truncate_x, ndim. rewrite Sp. cbn [List.length Nat.eqb negb last]. fold n.
  assert (Hn : (0 < n)%nat) by (unfold n; lia). replace (n =? 0)%nat with false by lia.
  rewrite Epad, Ewin. cbn [bind].
  assert (C1 : slice_lo (Z.of_nat wl) (Some (- Z.of_nat pad))%Z = Z.of_nat (wl - pad)).
  { unfold slice_lo, py_clamp. replace (- Z.of_nat pad <? 0)%Z with true by lia. lia. }
  assert (C2 : slice_hi (Z.of_nat n) (Some (Z.of_nat pad)) = Z.of_nat pad).
  { unfold slice_hi, py_clamp. replace (Z.of_nat pad <? 0)%Z with false by lia. lia. }
  assert (C3 : slice_lo (Z.of_nat n) (Some (- Z.of_nat pad))%Z = Z.of_nat (n - pad)).
  { unfold slice_lo, py_clamp. replace (- Z.of_nat pad <? 0)%Z with true by lia. lia. }
  assert (C4 : slice_hi (Z.of_nat wl) (Some (Z.of_nat pad)) = Z.of_nat pad).
  { unfold slice_hi, py_clamp. replace (Z.of_nat pad <? 0)%Z with false by lia. lia. }
  rewrite C1, C2, C3, C4. unfold mul_slice_x.
  replace (Z.to_nat (Z.of_nat wl - Z.of_nat (wl - pad)) =? Z.to_nat (Z.of_nat pad - 0))%nat with true by lia. cbn [orb bind shape].
  replace (Z.to_nat (Z.of_nat pad) =? Z.to_nat (Z.of_nat n - Z.of_nat (n - pad)))%nat with true by lia. cbn [orb bind].
  match goal with |- context [IR n (fun k => elt ?t _)] => set (ia := t) end.
  eexists. split; [reflexivity|]. cbn [shape elt]. split; [reflexivity|]. intros b c. set (P := fun k => elt psd [b; c; k]).
  assert (IA : forall k, (k < F)%nat -> (dropped F sr hp lp k -> elt ia [b; c; k] = EF 0) /\
                                        (~ dropped F sr hp lp k -> elt ia [b; c; k] = inv_amp0 (P k))).
  { intros k Hk. unfold ia, dropped. fold n.
    assert (Hdf : 0 < sr / INR n) by (apply Rdiv_lt_0_compat; [assumption|apply INR_pos; assumption]).
    set (df := sr / INR n) in *.
    assert (M1 : forall f, 0 <= f -> ((Z.of_nat k <? slice_hi (Z.of_nat F) (Some (rtrunc (f / df))))%Z = true <-> (INR k + 1) * df <= f)).
    { intros f Hf. assert (0 <= f / df) by (apply Rmult_le_pos; [assumption|apply Rlt_le, Rinv_0_lt_compat; assumption]).
      unfold rtrunc. destruct (Rle_dec 0 (f / df)); [|tauto].
      assert (I0 : (0 <= Int_part (f / df))%Z). { destruct (base_Int_part (f / df)). assert (-1 < Int_part (f / df))%Z by (apply lt_IZR; lra). lia. }
      unfold slice_hi, py_clamp. destruct (Z.ltb_spec (Int_part (f / df)) 0); [lia|].
      rewrite Z.ltb_lt. rewrite (Rle_div_r _ f df) by assumption. rewrite <- floor_lt by assumption. lia. }
    assert (M2 : forall f, 0 <= f -> ((slice_lo (Z.of_nat F) (Some (rtrunc (f / df))) <=? Z.of_nat k)%Z = true <-> f < (INR k + 1) * df)).
    { intros f Hf. specialize (M1 f Hf). rewrite Z.leb_le. rewrite Z.ltb_lt in M1. unfold slice_lo, slice_hi in *. split; intros; [apply Rnot_le_lt|apply Z.nlt_ge]; rewrite <- ?M1; [lia|]. rewrite M1. lra. }
    set (bh := match hp with Some f => (Z.of_nat k <? slice_hi (Z.of_nat F) (Some (rtrunc (f / df))))%Z | None => false end).
    set (bl := match lp with Some f => (slice_lo (Z.of_nat F) (Some (rtrunc (f / df))) <=? Z.of_nat k)%Z | None => false end).
    set (bo := (Nat.odd F && (k =? F - 1)%nat)%bool).
    assert (Hbh : bh = true <-> match hp with Some f => (INR k + 1) * df <= f | None => False end).
    { unfold bh. destruct hp; [apply M1; assumption|]. split; [discriminate|tauto]. }
    assert (Hbl : bl = true <-> match lp with Some f => f < (INR k + 1) * df | None => False end).
    { unfold bl. destruct lp; [apply M2; assumption|]. split; [discriminate|tauto]. }
    assert (Hbo : bo = true <-> Nat.Odd F /\ k = (F - 1)%nat).
    { unfold bo. rewrite andb_true_iff, Nat.odd_spec, Nat.eqb_eq. reflexivity. }
    match goal with |- (?D -> ?G = EF 0) /\ _ => assert (Ek : G = if bo then EF 0 else if bl then EF 0 else if bh then EF 0 else inv_amp0 (P k)) end.
    { unfold bo, bl, bh, zero_slice_x, tmap. destruct (Nat.odd F), lp, hp; cbn [andb elt last shape];
      repeat match goal with |- context [(0 <=? Z.of_nat k)%Z] => replace (0 <=? Z.of_nat k)%Z with true by lia end;
      repeat match goal with |- context [(Z.of_nat k <? Z.of_nat F)%Z] => replace (Z.of_nat k <? Z.of_nat F)%Z with true by lia end;
      repeat match goal with |- context [(Z.of_nat F - 1 <=? Z.of_nat k)%Z] => replace (Z.of_nat F - 1 <=? Z.of_nat k)%Z with (k =? F - 1)%nat by lia end;
      cbn [andb]; rewrite ?andb_true_r; reflexivity. }
    rewrite Ek. rewrite <- Hbh, <- Hbl, <- Hbo. destruct bo, bl, bh; split; intros D; try reflexivity; exfalso; try (apply D; tauto).
    destruct D as [D|[D|D]]; discriminate. }
  clearbody ia. cbn [removelast app last].
  match goal with |- context [RF n ?u _] => set (q := u) end.
  set (h := IR n (fun k => elt ia [b; c; k])).
  assert (Eq : forall t, (t < n)%nat -> q t = if (t <? pad)%nat then emul (h t) (EF (W (wl - pad + t)%nat))
                                              else if (n - pad <=? t)%nat then emul (h t) (EF (W (t - (n - pad))%nat)) else EF 0).
  { intros t Ht. unfold q, h, zero_slice_x.
    destruct (Z.ltb_spec (2 * Z.of_nat pad) (Z.of_nat n)) as [L|L]; cbn [shape elt last removelast app];
    repeat match goal with |- context [if ?b then _ else _] => destruct b eqn:?; cbn [elt last removelast app] end; try lia; try reflexivity;
    do 2 f_equal; f_equal; lia. }
  clearbody q. split.
  - intros G. 
    assert (Fin : forall k, (k < F)%nat -> exists x, elt ia [b; c; k] = EF x).
    { intros k Hk. destruct (IA k Hk) as [I1 I2]. destruct (Classical_Prop.classic (dropped F sr hp lp k)) as [D|D]; [exists 0; auto|].
      rewrite I2 by assumption. unfold inv_amp0. specialize (G k Hk D). destruct (Rlt_dec 0 (P k)); [eexists; reflexivity|tauto]. }
    set (g := fun k => match elt ia [b; c; k] with EF x => x | _ => 0 end).
    assert (Eg : forall k, (k < F)%nat -> elt ia [b; c; k] = EF (g k)).
    { intros k Hk. unfold g. destruct (Fin k Hk) as [x ->]. reflexivity. }
    exists g. split.
    + intros k Hk. destruct (IA k Hk) as [I1 I2]. rewrite Eg in I1, I2 by assumption. split; intros D.
      * specialize (I1 D). congruence.
      * specialize (I2 D). unfold inv_amp0 in I2. specialize (G k Hk D). destruct (Rlt_dec 0 (P k)); [congruence|tauto].
    + intros k Hk. assert (Rb : rbins n = F) by (apply rbins_even; assumption).
      assert (Eh : forall t, (t < n)%nat -> h t = EF (INR n * irfft n (fun k => RtoC (g k)) t)).
      { intros t Ht. unfold h. apply (HIR n _ t Hn Ht). intros j Hj. apply Eg. rewrite <- Rb. assumption. }
      assert (Eq' : forall t, (t < n)%nat -> q t = EF (INR n * (taper n pad wl W t * irfft n (fun k => RtoC (g k)) t))).
      { intros t Ht. rewrite Eq, Eh by assumption. unfold taper. destruct (t <? pad)%nat; [|destruct (n - pad <=? t)%nat];
        cbn [emul]; f_equal; ring. }
      destruct (HRF n q k Hn ltac:(lia)) as [H1 _]. rewrite (H1 _ Eq'). clear H1. rewrite rfft_scal. 
      unfold response. fold n. cbn zeta.
      set (A := rfft n (fun t => taper n pad wl W t * irfft n (fun k0 => RtoC (g k0)) t) k). destruct A as [x y].
      assert (N : INR n <> 0) by (apply not_0_INR; lia).
      cbn [fst snd Cmult RtoC Re Im emul esub eadd eneg ehypot].
      replace ((INR n * x - 0 * y) / INR n) with x by (field; assumption).
      replace ((INR n * y + 0 * x) / INR n) with y by (field; assumption).
      assert (M : Cmod (x, y) ^ 2 = x * x + y * y). { unfold Cmod. cbn [fst snd]. rewrite pow2_sqrt by nra. ring. }
      assert (M0 : 0 <= Cmod (x, y)) by apply Cmod_ge_0.
      replace (sqrt ((x * x + y * y) ^ 2 + (y * x + - (x * y)) ^ 2)) with (x * x + y * y).
      2: { replace ((x * x + y * y) ^ 2 + (y * x + - (x * y)) ^ 2) with ((x * x + y * y) ^ 2) by ring. rewrite sqrt_pow2 by nra. reflexivity. }
      rewrite <- M. set (a := Cmod (x, y)) in *. cbn [ediv].
      destruct (Req_EM_T (a ^ 2) 0) as [E|E], (Req_EM_T a 0) as [E'|E'].
      * unfold sgn_inf. destruct (Rlt_dec 0 1); [|lra]. cbn [ediv]. destruct (Rlt_dec 2 0); [lra|reflexivity].
      * exfalso. apply E'. nra.
      * exfalso. apply E. rewrite E'. ring.
      * cbn [ediv]. destruct (Req_EM_T 2 0); [lra|]. f_equal. field. assumption.
  - intros W0 [k0 [Hk0 [D [P0 Hc]]]] k Hk. assert (Rb : rbins n = F) by (apply rbins_even; assumption).
    assert (Ht : (n - pad < n)%nat) by lia.
    assert (NF : nonfinite (elt ia [b; c; k0])).
    { rewrite (proj2 (IA k0 Hk0)) by assumption. unfold inv_amp0. destruct (Rlt_dec 0 (P k0)); [lra|].
      destruct (Req_EM_T (P k0) 0); intros r; discriminate. }
    assert (NH : nonfinite (h (n - pad)%nat)).
    { unfold h. refine (proj2 (HIR n _ _ Hn Ht) k0 _ NF _); [lia|].
      replace (2 * PI * INR k0 * INR (n - pad) / INR n) with (- (2 * PI * INR k0 * INR pad / INR n) + 2 * INR k0 * PI).
      - rewrite cos_period, cos_neg. exact Hc.
      - rewrite minus_INR by lia. field. apply not_0_INR. lia. }
    assert (QN : q (n - pad)%nat = EN).
    { rewrite Eq by assumption. replace (n - pad <? pad)%nat with false by lia. rewrite Nat.leb_refl, Nat.sub_diag, W0.
      destruct (h (n - pad)%nat) as [r| | |] eqn:Eh; cbn [emul]; try reflexivity.
      - exfalso. exact (NH r eq_refl).
      - unfold sgn_inf. destruct (Rlt_dec 0 0); [lra|reflexivity].
      - unfold sgn_inf. destruct (Rlt_dec 0 (-0)); [lra|]. destruct (Rlt_dec (-0) 0); [lra|reflexivity]. }
    pose proof (proj2 (HRF n q k Hn ltac:(lia)) _ Ht QN) as NN. destruct (RF n q k) as [u v]. cbn [fst snd] in *.
    destruct NN as [-> | ->]; [|destruct u as [r| | |]; try reflexivity; cbn [emul eadd esub eneg]];
    destruct v as [r'| | |]; try reflexivity; cbn [emul eadd esub eneg ehypot]; try reflexivity;
    unfold sgn_inf; repeat match goal with |- context [if ?b then _ else _] => destruct b end; reflexivity.
Qed.
End Trunc.

(** ** the truncated spectrum *)
Theorem truncate_nonpositive IR RF psd B ch F pad wl W fd sr hp lp : irfft_impl IR -> rfft_impl RF ->
  shape psd = [B; ch; F] -> (2 <= F)%nat -> 0 < sr -> fd_ok fd sr pad wl W -> (1 <= pad)%nat -> (2 * pad <= (F - 1) * 2)%nat ->
  match hp with Some f => 0 <= f | None => True end -> match lp with Some f => 0 <= f | None => True end ->
  exists r, truncate_x IR RF psd fd sr hp lp = Ok r /\ shape r = [B; ch; F] /\
  forall b c, let P := fun k => elt psd [b; c; k] in
   (row_good F sr hp lp P -> exists g, inv_amp F sr hp lp P g /\
     forall k, (k < F)%nat -> elt r [b; c; k] = let a := Cmod (response F pad wl W g k) in if Req_EM_T a 0 then EP else EF (1 / (2 * a ^ 2))) /\
   (W 0%nat = 0 -> row_bad F pad sr hp lp P -> forall k, (k < F)%nat -> elt r [b; c; k] = EN).
Proof. intros. eapply trunc_x; try eassumption; assumption. Qed.

Lemma filtered_zero N sr H x t : (forall k, (k < rbins N)%nat -> H k = 0) -> filtered N sr H x t = 0.
Proof.
  intros E. unfold filtered. rewrite (irfft_ext N _ (fun _ => Cmult (RtoC 0) (RtoC 0))).
  - rewrite irfft_scal. unfold Rdiv. ring.
  - intros k Hk. rewrite (E k Hk). ring.
Qed.

(** ** whitening *)
Theorem whiten_nonpositive IR RF fmax X psd B ch N fd sr pad wl W hp lp crop : irfft_impl IR -> rfft_impl RF ->
  shape X = [B; ch; N] -> psd_shaped psd B ch -> 0 < sr -> fd_ok fd sr pad wl W -> (1 <= pad)%nat -> (2 * pad < N)%nat ->
  match hp with Some f => 0 <= f | None => True end -> match lp with Some f => 0 <= f | None => True end ->
  exists r, whiten_x IR RF fmax X psd fd sr hp lp crop = Ok r /\ shape r = [B; ch; if crop then N - 2 * pad else N]%nat /\
   forall b c, (b < B)%nat -> (c < ch)%nat -> let P := eff_psd psd (rbins N) b c in
    (row_good (rbins N) sr hp lp P -> exists g, inv_amp (rbins N) sr hp lp P g /\
      forall t, (t < if crop then N - 2 * pad else N)%nat ->
       get r [b; c; t] = Some (filtered N sr (fun k => sqrt 2 * Cmod (response (rbins N) pad wl W g k)) (fun t => elt X [b; c; t])
                                      (t + if crop then pad else 0))) /\
    (W 0%nat = 0 -> row_bad (rbins N) pad sr hp lp P ->
      forall t, (t < if crop then N - 2 * pad else N)%nat -> get r [b; c; t] = Some 0).
Proof.
  intros HIR HRF SX Hpsd Hsr Hfd Hpad HN Hhp Hlp. pose proof Hpsd as [pb [pi [pf [Sp [Hb0 [Hi0 Hf]]]]]].
  destruct (fd_ok_pad _ _ _ _ _ Hfd) as [Epad [Ewin Hwl]].
  unfold whiten_x, ndim at 1. rewrite SX, Epad. cbn [List.length Nat.eqb last].
  replace (Z.of_nat N <=? 2 * Z.of_nat pad)%Z with false by lia. fold (rbins N). rewrite Sp. cbn [last].
  assert (PSD : exists q, (if (pf =? rbins N)%nat then Ok (pad_ndim3 psd) else interpolate_last (rbins N) (pad_ndim3 psd)) = Ok q /\
     shape q = [pb; pi; rbins N] /\ forall b i k, (b < B)%nat -> (i < ch)%nat ->
       elt q [if (pb =? 1)%nat then 0%nat else b; if (pi =? 1)%nat then 0%nat else i; k] = eff_psd psd (rbins N) b i k).
  { unfold eff_psd. rewrite Sp. destruct (Nat.eqb_spec pf (rbins N)) as [E|Ne].
    - exists (pad_ndim3 psd). split; [reflexivity|]. rewrite Sp, E. split; reflexivity.
    - unfold interpolate_last, ndim. rewrite Sp. cbn [List.length Nat.eqb negb last removelast app].
      replace (rbins N =? 0)%nat with false by (unfold rbins; lia). replace (pf =? 0)%nat with false by lia. cbn [orb].
      eexists. split; [reflexivity|]. cbn [shape elt]. split; [reflexivity|]. intros. cbn [removelast last app]. reflexivity. }
  destruct PSD as [q [Eq [Sq Gq]]]. rewrite Eq. cbn [bind].
  assert (D : (2 * pad <= (rbins N - 1) * 2)%nat).
  { unfold rbins. rewrite Nat.add_sub. pose proof (Nat.div_mod N 2 ltac:(lia)). pose proof (Nat.mod_upper_bound N 2 ltac:(lia)). lia. }
  destruct (truncate_nonpositive IR RF q pb pi (rbins N) pad wl W fd sr hp lp HIR HRF Sq ltac:(lia) Hsr Hfd Hpad D Hhp Hlp) as [p [Ep [Shp Gp]]].
  rewrite Ep. cbn [bind].
  destruct (normalize_spec fmax X (tmap to_ext p) B ch N pb pi sr (Z.of_nat pad) crop SX ltac:(lia) Shp Hb0 Hi0) as [Y [_ [SY [EY GY]]]].
  rewrite EY. eexists. split; [reflexivity|].
  assert (Q : forall b c, (b < B)%nat -> (c < ch)%nat -> let P := eff_psd psd (rbins N) b c in
    (row_good (rbins N) sr hp lp P -> exists g, inv_amp (rbins N) sr hp lp P g /\
     forall t, elt Y [b; c; t] = filtered N sr (fun k => sqrt 2 * Cmod (response (rbins N) pad wl W g k)) (fun t => elt X [b; c; t]) t) /\
    (W 0%nat = 0 -> row_bad (rbins N) pad sr hp lp P -> forall t, elt Y [b; c; t] = 0)).
  { intros b c Hb Hc P. destruct (Gp (if (pb =? 1)%nat then 0%nat else b) (if (pi =? 1)%nat then 0%nat else c)) as [G1 G2].
    cbn zeta in G1, G2. split.
    - intros RG. destruct G1 as [g [Ig Gg]].
      { intros k Hk Nd. rewrite Gq by assumption. apply RG; assumption. }
      exists g. split.
      + intros k Hk. destruct (Ig k Hk) as [I1 I2]. split; [exact I1|]. intros Nd. rewrite I2 by assumption. rewrite Gq by assumption. reflexivity.
      + intros t. rewrite GY by assumption. unfold filtered. f_equal. apply irfft_ext. intros k Hk. cbn [tmap elt]. rewrite Gg by assumption. cbn zeta.
        match goal with |- context [Req_EM_T ?a 0] => rewrite <- (inv_sqrt_num_spec fmax a) by apply Cmod_ge_0; destruct (Req_EM_T a 0) end; reflexivity.
    - intros W0 [k0 [Hk0 [Nd [P0 Hcos]]]] t. rewrite GY by assumption. apply filtered_zero. intros k Hk. cbn [tmap elt].
      rewrite G2; try assumption; [reflexivity|]. exists k0. repeat split; try assumption. rewrite Gq by assumption. exact P0. }
  destruct crop.
  - unfold slice_last. rewrite SY. cbn [last removelast app shape elt].
    assert (C1 : slice_lo (Z.of_nat N) (Some (Z.of_nat pad)) = Z.of_nat pad) by (unfold slice_lo, py_clamp; replace (Z.of_nat pad <? 0)%Z with false by lia; lia).
    assert (C2 : slice_hi (Z.of_nat N) (Some (- Z.of_nat pad)%Z) = Z.of_nat (N - pad)) by (unfold slice_hi, py_clamp; replace (- Z.of_nat pad <? 0)%Z with true by lia; lia).
    rewrite C1, C2. assert (L : Z.to_nat (Z.of_nat (N - pad) - Z.of_nat pad) = (N - 2 * pad)%nat) by lia. rewrite L. split; [reflexivity|].
    intros b c Hb Hc. destruct (Q b c Hb Hc) as [Q1 Q2]. cbn zeta in Q1, Q2. split.
    + intros RG. destruct (Q1 RG) as [g [Ig Gg]]. exists g. split; [assumption|]. intros t Ht.
      rewrite get_inb by (cbn; lia). f_equal. cbn [elt last removelast app]. rewrite Nat2Z.id. apply Gg.
    + intros W0 RB t Ht. rewrite get_inb by (cbn; lia). f_equal. cbn [elt last removelast app]. apply Q2; assumption.
  - split; [exact SY|]. intros b c Hb Hc. destruct (Q b c Hb Hc) as [Q1 Q2]. cbn zeta in Q1, Q2. split.
    + intros RG. destruct (Q1 RG) as [g [Ig Gg]]. exists g. split; [assumption|]. intros t Ht.
      rewrite get_inb by (rewrite SY; cbn; lia). f_equal. rewrite Nat.add_0_r. apply Gg.
    + intros W0 RB t Ht. rewrite get_inb by (rewrite SY; cbn; lia). f_equal. apply Q2; assumption.
Qed.

(** with a float fduration: a dead channel (all bins zero), and a zero DC bin without a highpass, are returned as exact zeros *)
Corollary whiten_zero_dc IR RF fmax X psd B ch N s sr pad lp crop : irfft_impl IR -> rfft_impl RF ->
  shape X = [B; ch; N] -> psd_shaped psd B ch -> 0 < sr -> INR pad <= s * sr / 2 < INR pad + 1 -> (1 <= pad)%nat -> (2 * pad < N)%nat ->
  match lp with Some f => sr / INR ((rbins N - 1) * 2) <= f | None => True end ->
  exists r, whiten_x IR RF fmax X psd (Seconds s) sr None lp crop = Ok r /\ shape r = [B; ch; if crop then N - 2 * pad else N]%nat /\
   forall b c t, (b < B)%nat -> (c < ch)%nat -> (t < if crop then N - 2 * pad else N)%nat ->
    eff_psd psd (rbins N) b c 0 <= 0 -> get r [b; c; t] = Some 0.
Proof.
  intros HIR HRF SX Hpsd Hsr Hs Hpad HN Hlp.
  assert (HF : (2 <= rbins N)%nat).
  { unfold rbins. assert (1 <= N / 2)%nat by (apply Nat.div_le_lower_bound; lia). lia. }
  assert (Hn : 0 < INR ((rbins N - 1) * 2)) by (apply INR_pos; lia).
  assert (Hlp' : match lp with Some f => 0 <= f | None => True end).
  { destruct lp; [|exact I]. apply Rle_trans with (2 := Hlp). apply Rlt_le, Rdiv_lt_0_compat; assumption. }
  destruct (whiten_nonpositive IR RF fmax X psd B ch N (Seconds s) sr pad (2 * pad)%nat (hann (2 * pad)) None lp crop HIR HRF SX Hpsd Hsr
    (conj Hs (conj eq_refl eq_refl)) Hpad HN I Hlp') as [r [Er [Sr G]]].
  exists r. split; [exact Er|]. split; [exact Sr|]. intros b c t Hb Hc Ht P0. apply (proj2 (G b c Hb Hc)); [|exists 0%nat|assumption].
  - exact (proj1 (proj2 (proj2 (hann_spec (2 * pad) 0 ltac:(lia))))).
  - split; [lia|]. split; [|split; [exact P0|]].
    + intros [[]|[D|[_ D]]]; [|lia]. destruct lp; [|exact D]. cbn [INR] in D. lra.
    + replace (2 * PI * INR 0 * INR pad / INR ((rbins N - 1) * 2)) with 0 by (cbn [INR]; field; lra). rewrite cos_0. lra.
Qed.

(** for positive spectra the two models agree *)
Theorem whiten_x_positive IR RF fmax X psd B ch N fd sr pad wl W hp lp crop : irfft_impl IR -> rfft_impl RF ->
  shape X = [B; ch; N] -> psd_ok psd B ch -> 0 < sr -> fd_ok fd sr pad wl W -> (1 <= pad)%nat -> (2 * pad < N)%nat ->
  match hp with Some f => 0 <= f | None => True end -> match lp with Some f => 0 <= f | None => True end ->
  exists r r', whiten_x IR RF fmax X psd fd sr hp lp crop = Ok r /\ whiten fmax X psd fd sr hp lp crop = Ok r' /\ shape r = shape r' /\
   forall i, get r i = get r' i.
Proof.
  intros HIR HRF SX Hpsd Hsr Hfd Hpad HN Hhp Hlp.
  assert (Hs : psd_shaped psd B ch).
  { destruct Hpsd as [pb [pi [pf [A1 [A2 [A3 [A4 _]]]]]]]. exists pb, pi, pf. auto. }
  destruct (whiten_nonpositive IR RF fmax X psd B ch N fd sr pad wl W hp lp crop HIR HRF SX Hs Hsr Hfd Hpad HN Hhp Hlp) as [r [Er [Sr G]]].
  destruct (whiten_spec fmax X psd B ch N fd sr pad wl W hp lp crop SX Hpsd Hsr Hfd Hpad HN Hhp Hlp) as [r' [Er' [Sr' G']]].
  exists r, r'. split; [assumption|]. split; [assumption|]. split; [congruence|]. intros i.
  destruct (inbb i [B; ch; if crop then (N - 2 * pad)%nat else N]) eqn:E.
  - apply inbb_inb in E. destruct i as [|b [|c [|t [|? ?]]]]; cbn [inb] in E; try tauto. destruct E as [Hb [Hc [Ht _]]].
    destruct (proj1 (G b c Hb Hc)) as [g [Ig Gg]].
    { intros k Hk _. eapply eff_psd_pos; eassumption. }
    destruct (G' b c Hb Hc) as [g' [Ig' Gg']]. rewrite Gg, Gg' by assumption. f_equal. unfold filtered. f_equal. apply irfft_ext. intros k Hk.
    do 4 f_equal. unfold response. apply rfft_ext. intros t' Ht'. f_equal. apply irfft_ext. intros j Hj. f_equal.
    assert (HF : (2 <= rbins N)%nat).
    { unfold rbins. assert (1 <= N / 2)%nat by (apply Nat.div_le_lower_bound; lia). lia. }
    rewrite rbins_even in Hj by assumption. destruct (Ig j Hj) as [A1 A2], (Ig' j Hj) as [B1 B2].
    destruct (Classical_Prop.classic (dropped (rbins N) sr hp lp j)) as [D|D]; [rewrite A1, B1|rewrite A2, B2]; auto.
  - unfold get. rewrite Sr, Sr', E. reflexivity.
Qed.

(** implementations of the transforms exist: exact on finite rows, NaN otherwise *)
Definition fin_or (n : nat) (s : nat -> er) : option (nat -> R) :=
  if forallb (fun k => match s k with EF _ => true | _ => false end) (seq 0 n) then Some (fun k => match s k with EF x => x | _ => 0 end) else None.
Definition IR0 (n : nat) (s : nat -> er) (t : nat) : er :=
  match fin_or (rbins n) s with Some g => EF (INR n * irfft n (fun k => RtoC (g k)) t) | None => EN end.
Definition RF0 (n : nat) (q : nat -> er) (k : nat) : er * er :=
  match fin_or n q with Some x => (EF (Re (rfft n x k) / INR n), EF (Im (rfft n x k) / INR n)) | None => (EN, EN) end.
Lemma fin_or_some n s g : (forall k, (k < n)%nat -> s k = EF (g k)) -> exists g', fin_or n s = Some g' /\ forall k, (k < n)%nat -> g' k = g k.
Proof.
  intros H. unfold fin_or. replace (forallb _ _) with true.
  - eexists. split; [reflexivity|]. intros k Hk. cbn. rewrite H by assumption. reflexivity.
  - symmetry. apply forallb_forall. intros k Hk. apply in_seq in Hk. rewrite H by lia. reflexivity.
Qed.
Lemma fin_or_none n s k : (k < n)%nat -> nonfinite (s k) -> fin_or n s = None.
Proof.
  intros Hk H. unfold fin_or. destruct (forallb _ _) eqn:E; [|reflexivity]. exfalso. rewrite forallb_forall in E.
  specialize (E k ltac:(apply in_seq; lia)). destruct (s k) eqn:E'; try discriminate. exact (H _ eq_refl).
Qed.
Theorem impl_exists : irfft_impl IR0 /\ rfft_impl RF0.
Proof.
  split.
  - intros n s t Hn Ht. split.
    + intros g H. destruct (fin_or_some _ _ _ H) as [g' [E G]]. unfold IR0. rewrite E. do 2 f_equal. apply irfft_ext. intros k Hk. f_equal. auto.
    + intros k Hk H _ r. unfold IR0. rewrite (fin_or_none _ _ k Hk H). discriminate.
  - intros n q k Hn Hk. split.
    + intros x H. destruct (fin_or_some _ _ _ H) as [x' [E G]]. unfold RF0. rewrite E. rewrite (rfft_ext n x' x k G). reflexivity.
    + intros t Ht H. left. unfold RF0. rewrite (fin_or_none _ _ t Ht); [reflexivity|]. rewrite H. intros r; discriminate.
Qed.

(** two channels, the second one dead: the first is whitened, the second comes back as zeros *)
Example dead_channel fmax : exists r, whiten_x IR0 RF0 fmax (mk [1; 2; 64]%nat (fun i => INR (last i 0%nat))) (mk [2; 33]%nat (fun i => match i with c :: _ => if (c =? 0)%nat then 1 else 0 | _ => 0 end))
    (Seconds 1) 16 None None true = Ok r /\ shape r = [1; 2; 48]%nat /\ forall t, (t < 48)%nat -> get r [0; 1; t]%nat = Some 0.
Proof.
  destruct (whiten_zero_dc IR0 RF0 fmax (mk [1; 2; 64]%nat (fun i => INR (last i 0%nat)))
    (mk [2; 33]%nat (fun i => match i with c :: _ => if (c =? 0)%nat then 1 else 0 | _ => 0 end)) 1 2 64 1 16 8 None true
    (proj1 impl_exists) (proj2 impl_exists) eq_refl) as [r [E [Sr G]]].
  - exists 1%nat, 2%nat, 33%nat. cbn. repeat split; auto; lia.
  - lra.
  - replace (INR 8) with 8 by (cbn [INR]; lra). lra.
  - lia.
  - lia.
  - exact I.
  - exists r. split; [exact E|]. split; [exact Sr|]. intros t Ht. apply (G 0 1 t)%nat; try lia. 
    replace (rbins 64) with 33%nat by reflexivity. unfold eff_psd. cbn. lra.
Qed.
