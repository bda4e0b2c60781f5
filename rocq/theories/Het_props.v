(** C44: Heterodyne. *)
From Coq Require Import String.
From Verif Require Import Base Tensor Rutil Slicing_model Autoenc_model Norm_model Dft Gw_model Trans_model Bcast Whiten_props.
From Coquelicot Require Import Complex.
Local Open Scope R_scope.

(** the leading-order chirp phase of chirp mass M (in solar masses; mtsun seconds each) at frequency f *)
Definition chirp_phase (mtsun M f : R) : R := 3 / 128 * Rpower (PI * (M * mtsun) * f) (- (5 / 3)).

(** construction: int(kernel_length * sample_rate) = n samples; the return type is checked *)
Theorem heterodyne_create mtsun sr kl cm M n rt : shape cm = [M] -> INR n <= kl * sr < INR n + 1 -> (0 < n)%nat ->
  (rt = "time" \/ rt = "freq" \/ rt = "both" -> exists m, het_create mtsun sr kl cm rt = Ok m /\ ht_sr m = sr /\ shape (ht_phase m) = [M; rbins n] /\
     (forall c k, (c < M)%nat -> (k < rbins n)%nat -> elt (ht_phase m) [c; k] = cis (chirp_phase mtsun (elt cm [c]) (INR k * (sr / INR n)))) /\
     ht_kind m = (if string_dec rt "time" then HTime else if string_dec rt "freq" then HFreq else HBoth))%string /\
  (~ (rt = "time" \/ rt = "freq" \/ rt = "both") -> het_create mtsun sr kl cm rt = Err ValueError)%string.
Proof.
  intros Sc HN Hn. unfold het_create. rewrite Sc, (rtrunc_nonneg _ n HN). replace (Z.of_nat n <=? 0)%Z with false by lia. rewrite Nat2Z.id. split.
  - intros H. destruct (string_dec rt "time") as [->|N1]; [|destruct (string_dec rt "freq") as [->|N2]; [|destruct (string_dec rt "both") as [->|N3]]].
    1-3: eexists; split; [reflexivity|]; repeat split.
    exfalso. tauto.
  - intros H. destruct (string_dec rt "time") as [->|N1]; [|destruct (string_dec rt "freq") as [->|N2]; [|destruct (string_dec rt "both") as [->|N3]]]; (reflexivity || tauto).
Qed.

Section Fwd.
  Variables (m : heterodyne) (x : tensor R) (B ch M T : nat).
  Hypothesis (Sx : shape x = [B; ch; T]) (HT : (2 <= T)%nat) (Sp : shape (ht_phase m) = [M; rbins T]).
  Lemma rbins_pos : (2 <= rbins T)%nat.
  Proof using HT. unfold rbins. pose proof (Nat.div_le_mono 2 T 2 ltac:(lia) HT). change (2 / 2)%nat with 1%nat in *. lia. Qed.
  Lemma het_both_spec : exists y Y, het_both m x = Ok (y, Y) /\
    shape Y = [B; ch; M; rbins T] /\ shape y = [B; ch; M; 2 * (rbins T - 1)]%nat /\
    (forall b c q k, (b < B)%nat -> (c < ch)%nat -> (q < M)%nat -> (k < rbins T)%nat ->
       elt Y [b; c; q; k] = if (k =? 0)%nat then RtoC 0 else Cmult (Cmult (RtoC (/ ht_sr m)) (rfft T (fun t => elt x [b; c; t]) k)) (elt (ht_phase m) [q; k])) /\
    (forall b c q t, elt y [b; c; q; t] = ht_sr m * irfft (2 * (rbins T - 1)) (fun k => elt Y [b; c; q; k]) t).
  Proof using All.
    pose proof rbins_pos as R2. unfold het_both. rewrite Sx. cbn [last removelast app]. replace (T =? 0)%nat with false by lia.
    unfold ndim. cbn [shape List.length Nat.ltb Nat.leb]. unfold bzip. cbn [shape unsqueeze0 unsqueeze2]. rewrite Sp.
    assert (E : bshape [B; ch; 1%nat; rbins T] [1%nat; M; rbins T] = Ok [B; ch; M; rbins T]).
    { unfold bshape. cbn [rev app bshape_rev]. unfold bdim. rewrite Nat.eqb_refl. cbn [bind].
      destruct (Nat.eqb_spec 1 M) as [<-|]; cbn [bind]; change (1 =? 1)%nat with true; cbv iota; cbn [bind];
        (destruct (Nat.eqb_spec ch 1) as [->|]; [|destruct (Nat.eqb_spec ch 1); [lia|]]; reflexivity). }
    rewrite E. cbn [bind shape last removelast app]. replace (2 * (rbins T - 1) <? 1)%nat with false by lia.
    eexists _, _. split; [reflexivity|]. cbn [shape elt last removelast app]. split; [reflexivity|]. split; [reflexivity|]. split; [|reflexivity].
    intros b c q k Hb Hc Hq Hk. destruct (k =? 0)%nat; [reflexivity|].
    assert (N1 : (rbins T =? 1)%nat = false) by lia.
    unfold bidx. cbn [List.length Nat.sub skipn zip_with]. rewrite N1. change (1 =? 1)%nat with true. cbv iota.
    assert (Q : (if (M =? 1)%nat then 0%nat else q) = q) by (destruct (Nat.eqb_spec M 1); lia). rewrite Q. cbn [tl].
    assert (Q1 : (if (B =? 1)%nat then 0%nat else b) = b) by (destruct (Nat.eqb_spec B 1); lia). rewrite Q1.
    assert (Q2 : (if (ch =? 1)%nat then 0%nat else c) = c) by (destruct (Nat.eqb_spec ch 1); lia). rewrite Q2. reflexivity.
  Qed.

  (** frequency output: DC is removed; every other bin is the spectrum divided by the sample rate, times the phase factor *)
  Theorem heterodyne_freq : exists yo Yo, het_forward m x = Ok (yo, Yo) /\
    (ht_kind m = HTime -> Yo = None) /\ (ht_kind m = HFreq -> yo = None) /\
    (ht_kind m <> HTime -> exists Y, Yo = Some Y /\ shape Y = [B; ch; M; rbins T] /\
      forall b c q k, (b < B)%nat -> (c < ch)%nat -> (q < M)%nat -> (k < rbins T)%nat ->
        get Y [b; c; q; k] = Some (if (k =? 0)%nat then RtoC 0 else Cmult (Cmult (RtoC (/ ht_sr m)) (rfft T (fun t => elt x [b; c; t]) k)) (elt (ht_phase m) [q; k]))).
  Proof using All.
    destruct het_both_spec as [y [Y [E [SY [Sy [EY Ey]]]]]]. unfold het_forward. rewrite E. cbn [bind].
    destruct (ht_kind m); eexists _, _; (split; [reflexivity|]); repeat split; try congruence; intros _; exists Y; (split; [reflexivity|]); (split; [exact SY|]);
      intros b c q k Hb Hc Hq Hk; rewrite get_inb by (rewrite SY; cbn; auto); rewrite EY by assumption; reflexivity.
  Qed.
  (** time output: a real series of 2 * (T / 2) samples *)
  Theorem heterodyne_time_shape : ht_kind m <> HFreq -> exists y Yo, het_forward m x = Ok (Some y, Yo) /\ shape y = [B; ch; M; 2 * (T / 2)]%nat.
  Proof using All.
    intros HK. destruct het_both_spec as [y [Y [E [SY [Sy [EY Ey]]]]]]. unfold het_forward. rewrite E. cbn [bind]. exists y.
    replace (2 * (T / 2))%nat with (2 * (rbins T - 1))%nat by (unfold rbins; lia).
    destruct (ht_kind m); try congruence; eexists; (split; [reflexivity|]); exact Sy.
  Qed.
End Fwd.

(** every bin keeps the modulus of the spectrum *)
Theorem heterodyne_modulus mtsun sr kl cm M n m x B ch : shape cm = [M] -> INR n <= kl * sr < INR n + 1 -> (2 <= n)%nat ->
  het_create mtsun sr kl cm "both" = Ok m -> shape x = [B; ch; n] ->
  exists y Y, het_forward m x = Ok (Some y, Some Y) /\ forall b c q k, (b < B)%nat -> (c < ch)%nat -> (q < M)%nat -> (0 < k < rbins n)%nat ->
    Cmod (elt Y [b; c; q; k]) = Cmod (rfft n (fun t => elt x [b; c; t]) k) / Rabs sr.
Proof.
  intros Sc HN Hn E Sx. destruct (heterodyne_create mtsun sr kl cm M n "both" Sc HN ltac:(lia)) as [H _].
  destruct H as [m' [E' [M1 [M2 [M3 M4]]]]]; [auto|]. rewrite E in E'. injection E' as <-.
  destruct (het_both_spec m x B ch M n Sx Hn M2) as [y [Y [EB [SY [Sy [EY Ey]]]]]]. unfold het_forward. rewrite EB, M4. cbn [bind].
  exists y, Y. split; [reflexivity|]. intros b c q k Hb Hc Hq Hk. rewrite EY by (assumption || lia). replace (k =? 0)%nat with false by lia.
  rewrite M3, M1, !Cmod_mult, cis_mod, Cmod_R by (assumption || lia). 
  rewrite Rabs_inv. unfold Rdiv. ring.
Qed.
(** what it is for: a signal whose spectrum is a real amplitude times the conjugate chirp phase of the chirp mass comes out
    with zero phase *)
Theorem heterodyne_dechirps mtsun sr kl cm M n m x B ch a b c q k : shape cm = [M] -> INR n <= kl * sr < INR n + 1 -> (2 <= n)%nat ->
  het_create mtsun sr kl cm "freq" = Ok m -> shape x = [B; ch; n] -> (b < B)%nat -> (c < ch)%nat -> (q < M)%nat -> (0 < k < rbins n)%nat ->
  rfft n (fun t => elt x [b; c; t]) k = Cmult (RtoC a) (cis (- chirp_phase mtsun (elt cm [q]) (INR k * (sr / INR n)))) ->
  exists Y, het_forward m x = Ok (None, Some Y) /\ get Y [b; c; q; k] = Some (RtoC (a / sr)).
Proof.
  intros Sc HN Hn E Sx Hb Hc Hq Hk HX. destruct (heterodyne_create mtsun sr kl cm M n "freq" Sc HN ltac:(lia)) as [H _].
  destruct H as [m' [E' [M1 [M2 [M3 M4]]]]]; [auto|]. rewrite E in E'. injection E' as <-.
  destruct (het_both_spec m x B ch M n Sx Hn M2) as [y [Y [EB [SY [Sy [EY Ey]]]]]]. unfold het_forward. rewrite EB, M4. cbn [bind].
  exists Y. split; [reflexivity|]. rewrite get_inb by (rewrite SY; cbn; lia). f_equal. rewrite EY by (assumption || lia). replace (k =? 0)%nat with false by lia.
  rewrite HX, M3, M1 by (assumption || lia). set (p := chirp_phase _ _ _).
  replace (Cmult (Cmult (RtoC (/ sr)) (Cmult (RtoC a) (cis (- p)))) (cis p)) with (Cmult (Cmult (RtoC a) (RtoC (/ sr))) (Cmult (cis (- p)) (cis p))) by ring.
  rewrite <- cis_plus. replace (- p + p) with 0 by ring. rewrite cis_0, Cmult_1_r, <- RtoC_mult. reflexivity.
Qed.
(** for an even number of samples the time output is the real series with the heterodyned spectrum (at the Nyquist
    frequency only its real part) *)
Theorem heterodyne_time_even mtsun sr kl cm M h m x B ch : shape cm = [M] -> INR (2 * h) <= kl * sr < INR (2 * h) + 1 -> (1 <= h)%nat ->
  het_create mtsun sr kl cm "both" = Ok m -> shape x = [B; ch; 2 * h]%nat ->
  exists y Y, het_forward m x = Ok (Some y, Some Y) /\ shape y = [B; ch; M; 2 * h]%nat /\
  forall b c q k, (b < B)%nat -> (c < ch)%nat -> (q < M)%nat -> (k <= h)%nat ->
    rfft (2 * h) (fun t => elt y [b; c; q; t]) k = Cmult (RtoC sr) (if (k =? h)%nat then RtoC (Re (elt Y [b; c; q; k])) else elt Y [b; c; q; k]).
Proof.
  intros Sc HN Hn E Sx. destruct (heterodyne_create mtsun sr kl cm M (2 * h) "both" Sc HN ltac:(lia)) as [H _].
  destruct H as [m' [E' [M1 [M2 [M3 M4]]]]]; [auto|]. rewrite E in E'. injection E' as <-.
  destruct (het_both_spec m x B ch M (2 * h) Sx ltac:(lia) M2) as [y [Y [EB [SY [Sy [EY Ey]]]]]]. unfold het_forward. rewrite EB, M4. cbn [bind].
  assert (RB : rbins (2 * h) = (h + 1)%nat) by (unfold rbins; rewrite Nat.mul_comm, Nat.div_mul by lia; reflexivity).
  rewrite RB in *. replace (h + 1 - 1)%nat with h in * by lia.
  exists y, Y. split; [reflexivity|]. split; [exact Sy|]. intros b c q k Hb Hc Hq Hk.
  rewrite (rfft_ext _ _ (fun t => sr * irfft (2 * h) (fun k => elt Y [b; c; q; k]) t)) by (intros; rewrite Ey, M1; reflexivity).
  rewrite rfft_scal, rfft_irfft by (rewrite ?RB; lia).
  destruct (Nat.eqb_spec k h) as [->|N].
  - replace ((h =? 0) || (2 * h =? 2 * h))%nat with true by lia. reflexivity.
  - destruct (Nat.eqb_spec k 0) as [->|K]; cbn [orb].
    + rewrite EY by lia. replace (0 =? 0)%nat with true by lia. reflexivity.
    + replace (2 * k =? 2 * h)%nat with false by lia. reflexivity.
Qed.
(** FINDING: for an odd number of samples the time output is one sample short of the documented (B, C, M, T) *)
Theorem heterodyne_odd_length_refuted m x B ch M h : shape x = [B; ch; 2 * h + 1]%nat -> (1 <= h)%nat -> shape (ht_phase m) = [M; rbins (2 * h + 1)] ->
  ht_kind m = HTime -> exists y, het_forward m x = Ok (Some y, None) /\ shape y = [B; ch; M; 2 * h]%nat.
Proof.
  intros Sx Hh Sp HK. destruct (heterodyne_time_shape m x B ch M (2 * h + 1) Sx ltac:(lia) Sp ltac:(congruence)) as [y [Yo [E Sy]]].
  exists y. assert (D : ((2 * h + 1) / 2 = h)%nat) by (rewrite Nat.add_comm, Nat.mul_comm, Nat.div_add by lia; reflexivity).
  rewrite D in Sy. split; [|exact Sy]. destruct (heterodyne_freq m x B ch M (2 * h + 1) Sx ltac:(lia) Sp) as [yo [Yo' [E' [N _]]]].
  rewrite E in E'. injection E' as <- <-. rewrite E, N by assumption. reflexivity.
Qed.
(** an input whose spectrum has another number of bins than the phase grid is rejected *)
Theorem heterodyne_length_error m x B ch M T n : shape x = [B; ch; T] -> (2 <= T)%nat -> shape (ht_phase m) = [M; rbins n] -> (2 <= n)%nat ->
  rbins T <> rbins n -> het_forward m x = Err RuntimeError.
Proof.
  intros Sx HT Sp Hn HD. pose proof (rbins_pos T HT). pose proof (rbins_pos n Hn). unfold het_forward, het_both. rewrite Sx. cbn [last removelast app]. replace (T =? 0)%nat with false by lia.
  unfold ndim. cbn [shape List.length Nat.ltb Nat.leb]. unfold bzip. cbn [shape unsqueeze0 unsqueeze2]. rewrite Sp. unfold bshape. cbn [rev app bshape_rev]. unfold bdim at 1.
  replace (rbins T =? rbins n)%nat with false by lia. replace (rbins T =? 1)%nat with false by lia. replace (rbins n =? 1)%nat with false by lia. reflexivity.
Qed.
(** unbatched input, (channels, samples), is not rejected as documented: with one chirp mass the result is the outer product of
    the spectrum and the phase factors, (channels, F, F), and no bin is multiplied by its own phase except on the diagonal; with
    as many masses as bins every bin is multiplied by the phases of another mass; otherwise RuntimeError.  Without a channel
    dimension: IndexError *)
Theorem heterodyne_unbatched_refuted m x ch M T : shape x = [ch; T] -> (2 <= T)%nat -> shape (ht_phase m) = [M; rbins T] -> ht_kind m = HFreq ->
  (M = 1%nat \/ M = rbins T -> exists Y, het_forward m x = Ok (None, Some Y) /\ shape Y = [ch; rbins T; rbins T] /\
     forall c k l, (c < ch)%nat -> (k < rbins T)%nat -> (l < rbins T)%nat ->
       get Y [c; k; l] = Some (if (l =? 0)%nat then RtoC 0
         else Cmult (Cmult (RtoC (/ ht_sr m)) (rfft T (fun t => elt x [c; t]) k)) (elt (ht_phase m) [if (M =? 1)%nat then 0%nat else k; l]))) /\
  (M <> 1%nat -> M <> rbins T -> het_forward m x = Err RuntimeError).
Proof.
  intros Sx HT Sp HK. pose proof (rbins_pos T HT) as R2. unfold het_forward, het_both. rewrite Sx. cbn [last removelast app]. replace (T =? 0)%nat with false by lia.
  unfold ndim. cbn [shape List.length Nat.ltb Nat.leb]. unfold bzip. cbn [shape unsqueeze0 unsqueeze2]. rewrite Sp, HK. clear HK. split.
  - intros HM. assert (E : bshape [ch; rbins T; 1%nat] [1%nat; M; rbins T] = Ok [ch; rbins T; rbins T]).
    { unfold bshape. cbn [rev app bshape_rev]. unfold bdim. replace (1 =? rbins T)%nat with false by lia. change (1 =? 1)%nat with true. cbv iota. cbn [bind].
      destruct HM as [->| ->].
      - replace (rbins T =? 1)%nat with false by lia. change (1 =? 1)%nat with true. cbv iota. cbn [bind].
        destruct (Nat.eqb_spec ch 1) as [->|]; [|]; cbn [bind]; try (destruct (Nat.eqb_spec ch 1)); reflexivity.
      - rewrite Nat.eqb_refl. cbn [bind]. destruct (Nat.eqb_spec ch 1) as [->|]; [|]; cbn [bind]; try (destruct (Nat.eqb_spec ch 1)); reflexivity. }
    rewrite E. cbn [bind shape last removelast app]. replace (2 * (rbins T - 1) <? 1)%nat with false by lia. cbn [bind].
    eexists. split; [reflexivity|]. cbn [shape]. split; [reflexivity|]. intros c k l Hc Hk Hl. rewrite get_inb by (cbn; lia). f_equal. cbn [elt last].
    destruct (l =? 0)%nat; [reflexivity|]. unfold bidx. cbn [List.length Nat.sub skipn zip_with tl].
    assert (N1 : (rbins T =? 1)%nat = false) by lia. rewrite !N1. change (1 =? 1)%nat with true. cbv iota. cbn [removelast last app tl].
    assert (Q2 : (if (ch =? 1)%nat then 0%nat else c) = c) by (destruct (Nat.eqb_spec ch 1); lia). rewrite Q2. reflexivity.
  - intros N1 NF. unfold bshape. cbn [rev app bshape_rev]. unfold bdim at 1. replace (1 =? rbins T)%nat with false by lia. change (1 =? 1)%nat with true. cbv iota. cbn [bind].
    unfold bdim at 1. replace (rbins T =? M)%nat with false by lia. replace (rbins T =? 1)%nat with false by lia. replace (M =? 1)%nat with false by lia. reflexivity.
Qed.
Theorem heterodyne_rank_error m x : (ndim x < 2)%nat -> (0 < numel x)%nat -> het_forward m x = Err IndexError.
Proof.
  unfold ndim, numel. intros H N. unfold het_forward, het_both. destruct (shape x) as [|n [|]]; [reflexivity| |cbn in H; lia].
  cbn [last removelast app]. destruct (Nat.eqb_spec n 0) as [->|]; [cbn in N; lia|]. reflexivity.
Qed.

(** non-vacuity: two chirp masses, 4 samples at 4 Hz *)
Example heterodyne_ex : exists m y Y, het_create 5 4 1 (mk [2]%nat (fun i => INR (nth 0 i 0%nat) + 1)) "both" = Ok m /\
  het_forward m (mk [1; 1; 4]%nat (fun i => INR (last i 0%nat))) = Ok (Some y, Some Y) /\ shape y = [1; 1; 2; 4]%nat.
Proof.
  destruct (heterodyne_create 5 4 1 (mk [2]%nat (fun i => INR (nth 0 i 0%nat) + 1)) 2 4 "both" eq_refl ltac:(cbn; lra) ltac:(lia)) as [[m [E _]] _]; [auto|].
  destruct (heterodyne_time_even 5 4 1 (mk [2]%nat (fun i => INR (nth 0 i 0%nat) + 1)) 2 2 m (mk [1; 1; 4]%nat (fun i => INR (last i 0%nat))) 1 1 eq_refl ltac:(cbn; lra) ltac:(lia) E eq_refl) as [y [Y [F [S1 _]]]].
  exists m, y, Y. auto.
Qed.
