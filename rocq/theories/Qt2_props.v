(** Property C46, second part: the energies of one row of Q-tiles. *)
From Coq Require Import String.
From Verif Require Import Base Tensor Rutil Slicing_model Autoenc_model Norm_model Norm_props Dft Gw_model Gw_props Snr_props Spectral_model Spectral_props Trans_model Decim_props Whiten_props Qt_model Qt_props.
From Coquelicot Require Import Complex.
Local Open Scope R_scope.

(** ** specification: the windowed band, transformed to N instants *)
Definition band_sum (N W : nat) (g : nat -> C) (n : nat) : C :=
  Cmult (RtoC (/ INR N)) (Csum W (fun j => Cmult (g j) (w N (Z.of_nat j * Z.of_nat n)))).

Lemma shift_energy N s l W (g : nat -> C) n : (0 < N)%nat -> (l + W <= N)%nat ->
  Cmod (idft N (fun k => let k' := ((k + s) mod N)%nat in if ((l <=? k') && (k' <? l + W))%nat then g (k' - l)%nat else RtoC 0) n)
  = Cmod (band_sum N W g n).
Proof.
  intros HN HW. unfold idft, band_sum. rewrite !Cmod_mult. f_equal.
  set (P := fun k' : nat => if ((l <=? k') && (k' <? l + W))%nat then g (k' - l)%nat else RtoC 0).
  set (F := fun z => Cmult (P (Z.to_nat (z mod Z.of_nat N))) (w N ((z - Z.of_nat s) * Z.of_nat n))).
  rewrite (Csum_ext _ _ (fun k => F (Z.of_nat k + Z.of_nat s)%Z)).
  2:{ intros k Hk. unfold F. cbv zeta. fold (P ((k + s) mod N)%nat). f_equal.
      - f_equal. rewrite <- Nat2Z.inj_add, <- Nat2Z.inj_mod, Nat2Z.id. reflexivity.
      - f_equal. ring. }
  rewrite Csum_period.
  2: assumption.
  2:{ intros z. unfold F. replace (z + Z.of_nat N)%Z with (z + 1 * Z.of_nat N)%Z by ring. rewrite Z.mod_add by lia. f_equal.
      replace ((z + 1 * Z.of_nat N - Z.of_nat s) * Z.of_nat n)%Z with ((z - Z.of_nat s) * Z.of_nat n + Z.of_nat N * Z.of_nat n)%Z by ring.
      apply w_period. assumption. }
  rewrite (Csum_ext _ _ (fun k => Cmult (w N (- (Z.of_nat s * Z.of_nat n))) (Cmult (P k) (w N (Z.of_nat k * Z.of_nat n))))).
  2:{ intros k Hk. unfold F. rewrite Z.mod_small, Nat2Z.id by lia.
      replace ((Z.of_nat k - Z.of_nat s) * Z.of_nat n)%Z with (- (Z.of_nat s * Z.of_nat n) + Z.of_nat k * Z.of_nat n)%Z by ring.
      rewrite w_plus. ring. }
  rewrite Csum_scal, Cmod_mult, w_mod, Rmult_1_l.
  replace N with (l + (W + (N - l - W)))%nat at 1 by lia. rewrite Csum_app, Csum_app.
  rewrite (Csum_0 l).
  2:{ intros k Hk. unfold P. replace (l <=? k)%nat with false by lia. cbn [andb]. ring. }
  rewrite (Csum_0 (N - l - W)).
  2:{ intros k Hk. unfold P. replace (l + (W + k) <? l + W)%nat with false by lia. rewrite andb_false_r. ring. }
  rewrite (Csum_ext W _ (fun j => Cmult (w N (Z.of_nat l * Z.of_nat n)) (Cmult (g j) (w N (Z.of_nat j * Z.of_nat n))))).
  2:{ intros k Hk. unfold P. replace (l <=? l + k)%nat with true by lia. replace (l + k <? l + W)%nat with true by lia. cbn [andb].
      replace (l + k - l)%nat with k by lia. replace (Z.of_nat (l + k) * Z.of_nat n)%Z with (Z.of_nat l * Z.of_nat n + Z.of_nat k * Z.of_nat n)%Z by lia.
      rewrite w_plus. ring. }
  rewrite Csum_scal, Cplus_0_l, Cplus_0_r, Cmod_mult, w_mod, Rmult_1_l. reflexivity.
Qed.

(** a row with no cropping: [forward] without normalisation *)
Definition fitting (t : qtile) (h N : nat) : Prop :=
  positive t /\ INR h <= half_width t < INR h + 1 /\ ntiles t = Z.of_nat N /\ (2 * h + 1 <= N)%nat.
(** the windowed band of a spectrum X *)
Definition band (t : qtile) (X : nat -> C) (j : nat) : C := Cmult (X (Z.to_nat (data_index t j))) (RtoC (win t j)).

Lemma data_index_range t j : 0 < qt_dur t * qt_sr t -> (0 <= data_index t j <= rtrunc (qt_dur t * qt_sr t) / 2)%Z.
Proof.
  intros H. unfold data_index. destruct (rtrunc_floor (qt_dur t * qt_sr t)) as [p [-> _]]; [lra|]. lia.
Qed.
(** with a spectrum of at least int(dur sr) / 2 + 1 bins: (batch, channel, N) energies, the squared modulus of the
    windowed band transformed to N instants *)
Theorem qtile_energy t x B D F h N : fitting t h N -> (ndim x <= 3)%nat -> shape (pad_ndim3 x) = [B; D; F] ->
  (rtrunc (qt_dur t * qt_sr t) / 2 < Z.of_nat F)%Z ->
  exists e, qtile_forward t x None = Ok e /\ shape e = [B; D; N] /\
   forall b d n, (b < B)%nat -> (d < D)%nat -> (n < N)%nat ->
     get e [b; d; n] = Some (Cmod (band_sum N (2 * h + 1) (band t (fun k => elt (pad_ndim3 x) [b; d; k])) n) ^ 2).
Proof.
  intros [P [Hh [HN Hfit]]] Hd Sx HF. unfold qtile_forward. replace (3 <? ndim x)%nat with false by lia.
  destruct (window_half t P) as [h' [Hh' [_ [W Wl]]]].
  assert (h' = h).
  { assert (h' < h + 1 /\ h < h' + 1)%nat; [|lia]. split; apply INR_lt; rewrite plus_INR; cbn [INR]; lra. }
  subst h'. assert (Hds : 0 < qt_dur t * qt_sr t) by (destruct P as [? [? [? [? ?]]]]; apply Rmult_lt_0_compat; assumption).
  unfold index_select_last at 1. rewrite Sx. cbn [last removelast app].
  assert (IX : forallb (fun k => (0 <=? k) && (k <? Z.of_nat F))%Z (map (data_index t) (seq 0 (win_len t))) = true).
  { apply forallb_forall. intros k Hk. apply in_map_iff in Hk. destruct Hk as [j [<- _]]. pose proof (data_index_range t j Hds). lia. }
  rewrite IX. cbn [bind]. rewrite map_length, seq_length, Wl.
  (* the padding *)
  assert (PD : exists l : nat, pad_left t = Z.of_nat l /\ (l + (2 * h + 1) <= N)%nat /\ (pad_left t + Z.of_nat (2 * h + 1) + pad_right t)%Z = Z.of_nat N).
  { destruct (qtile_padding t h P Hh) as [PA [PB _]].
    destruct (Nat.eq_dec N 1) as [E1|E1].
    - subst N. assert (h = 0)%nat by lia. subst h. specialize (PB HN). exists 0%nat.
      assert (PL : pad_left t = 0%Z).
      { unfold pad_left. rewrite HN, W. replace (IZR (Z.of_nat 1 - (2 * Z.of_nat 0 + 1))) with 0 by reflexivity. unfold rtrunc. destruct (Rle_dec 0 ((0 - 1) / 2)); [lra|]. rewrite (Int_part_unique 0); [reflexivity|lra]. }
      rewrite W in PB. cbn in PB |- *. lia.
    - destruct (Rle_lt_dec (wanted_tiles t) (/ 2)) as [L|L].
      + destruct (qtile_count t P) as [Q _]. rewrite (Q L) in HN. lia.
      + destruct (qtile_count t P) as [_ Q]. destruct (Q L) as [e [Q1 _]]. rewrite Q1 in HN. apply Nat2Z.inj in HN.
        destruct e as [|e]; [cbn in HN; lia|]. destruct (PA e Q1) as [A1 [A2 A3]]. rewrite W in A3.
        rewrite HN in Q1. exists (Z.to_nat (pad_left t)). assert (0 <= pad_left t)%Z.
        { rewrite A1. assert (Z.of_nat (2 * h + 1) <= 2 * 2 ^ Z.of_nat e)%Z by (rewrite <- pow2_S, HN; lia). lia. }
        assert (0 <= pad_right t)%Z by lia. lia. }
  destruct PD as [l [PL [Hl PT]]].
  unfold pad_z. cbn [shape]. cbn [last removelast app]. rewrite PT.
  replace (Z.of_nat N <=? 0)%Z with false by lia. cbn [bind]. rewrite Nat2Z.id. unfold qnormalise.
  eexists. split; [reflexivity|]. split; [reflexivity|]. intros b d n Hb Hd' Hn.
  rewrite get_inb by (cbn; auto). f_equal. unfold tmap. cbn [elt]. unfold ifft_last. cbn [elt shape ifftshift last removelast app]. rewrite <- Cmod_sq.
  rewrite <- (shift_energy N (N / 2) l (2 * h + 1) _ n) by lia. f_equal. f_equal. unfold idft. f_equal. apply Csum_ext. intros k Hk. f_equal.
  cbv zeta. set (k' := ((k + N / 2) mod N)%nat). rewrite PL.
  assert (Hk' : (k' < N)%nat) by (apply Nat.mod_upper_bound; lia). clearbody k'.
  destruct (Nat.leb_spec l k') as [L1|L1]; cbn [andb].
  2:{ replace (0 <=? Z.of_nat k' - Z.of_nat l)%Z with false by lia. reflexivity. }
  replace (0 <=? Z.of_nat k' - Z.of_nat l)%Z with true by lia. cbn [andb].
  destruct (Nat.ltb_spec k' (l + (2 * h + 1))) as [L2|L2].
  2:{ replace (Z.of_nat k' - Z.of_nat l <? Z.of_nat (2 * h + 1))%Z with false by lia. reflexivity. }
  replace (Z.of_nat k' - Z.of_nat l <? Z.of_nat (2 * h + 1))%Z with true by lia.
  replace (Z.to_nat (Z.of_nat k' - Z.of_nat l)) with (k' - l)%nat by lia. unfold band. f_equal. f_equal. f_equal. f_equal. f_equal. f_equal.
  rewrite (nth_indep _ 0%Z (data_index t 0)) by (rewrite map_length, seq_length; lia). rewrite map_nth, seq_nth by lia. reflexivity.
Qed.

(** more than three axes: ValueError; a spectrum that lacks a bin of the band: IndexError *)
Theorem qtile_errors t x norm :
  ((3 < ndim x)%nat -> qtile_forward t x norm = Err ValueError) /\
  ((ndim x <= 3)%nat -> (exists j, (j < win_len t)%nat /\ (Z.of_nat (last (shape (pad_ndim3 x)) 0%nat) <= data_index t j)%Z) ->
     qtile_forward t x norm = Err IndexError).
Proof.
  unfold qtile_forward. split.
  - intros H. replace (3 <? ndim x)%nat with true by lia. reflexivity.
  - intros H [j [Hj L]]. replace (3 <? ndim x)%nat with false by lia. unfold index_select_last.
    destruct (forallb _ _) eqn:E; [|reflexivity]. exfalso. rewrite forallb_forall in E.
    specialize (E (data_index t j)). rewrite in_map_iff in E. assert (A : exists i, data_index t i = data_index t j /\ In i (seq 0 (win_len t))).
    { exists j. split; [reflexivity|]. apply in_seq. lia. }
    specialize (E A). lia.
Qed.
(** normalisation names, in any letter case *)
Definition means_median (s : string) : Prop := lower s = "median"%string.
Definition means_mean (s : string) : Prop := lower s = "mean"%string.
Lemma qnormalise_split t x norm :
  qtile_forward t x norm = let* e := qtile_forward t x None in qnormalise norm e.
Proof.
  unfold qtile_forward. destruct (3 <? ndim x)%nat; [reflexivity|].
  destruct (index_select_last _ _) as [y|]; cbn [bind]; [|reflexivity].
  destruct (pad_z _ _ _ _) as [z|]; cbn [bind]; [|reflexivity]. reflexivity.
Qed.
Lemma qnormalise_cases norm e :
  (norm = None \/ norm = Some EmptyString -> qnormalise norm e = Ok e) /\
  (forall s, norm = Some s -> means_median s -> qnormalise norm e = Ok (div_by_last quantile_half e)) /\
  (forall s, norm = Some s -> means_mean s -> qnormalise norm e = Ok (div_by_last mean e)) /\
  (forall s, norm = Some s -> s <> EmptyString -> ~ means_median s -> ~ means_mean s -> qnormalise norm e = Err ValueError).
Proof.
  unfold means_median, means_mean. repeat split.
  - intros [->| ->]; reflexivity.
  - intros s -> M. destruct s as [|c s]; [discriminate|]. unfold qnormalise. destruct (string_dec _ _); [reflexivity|contradiction].
  - intros s -> M. destruct s as [|c s]; [discriminate|]. unfold qnormalise. destruct (string_dec _ _) as [E|_]; [rewrite M in E; discriminate|].
    destruct (string_dec _ _); [reflexivity|contradiction].
  - intros s -> NE A B. destruct s as [|c s]; [congruence|]. unfold qnormalise. destruct (string_dec _ _); [contradiction|].
    destruct (string_dec _ _); [contradiction|reflexivity].
Qed.
(** the normalised row is the raw row over its own median, resp. mean; unknown names are a ValueError *)
Theorem qtile_normalised t x e B D N : qtile_forward t x None = Ok e -> shape e = [B; D; N] ->
  (qtile_forward t x (Some EmptyString) = Ok e) /\
  (forall s, means_median s -> exists r, qtile_forward t x (Some s) = Ok r /\ shape r = [B; D; N] /\
     forall b d n, (b < B)%nat -> (d < D)%nat -> (n < N)%nat ->
       get r [b; d; n] = Some (elt e [b; d; n] / quantile_half N (fun m => elt e [b; d; m]))) /\
  (forall s, means_mean s -> exists r, qtile_forward t x (Some s) = Ok r /\ shape r = [B; D; N] /\
     forall b d n, (b < B)%nat -> (d < D)%nat -> (n < N)%nat ->
       get r [b; d; n] = Some (elt e [b; d; n] / (Rsum N (fun m => elt e [b; d; m]) / INR N))) /\
  (forall s, s <> EmptyString -> ~ means_median s -> ~ means_mean s -> qtile_forward t x (Some s) = Err ValueError).
Proof.
  intros E Se. repeat split; [|intros s M|intros s M|intros s NE A1 A2]; rewrite qnormalise_split, E; cbn [bind].
  - reflexivity.
  - destruct (qnormalise_cases (Some s) e) as [_ [Q _]]. rewrite (Q s eq_refl M). eexists. split; [reflexivity|]. split; [exact Se|].
    intros b d n Hb Hd Hn. rewrite get_inb by (cbn [div_by_last shape]; rewrite Se; cbn; auto). unfold div_by_last. cbn [elt]. rewrite Se. reflexivity.
  - destruct (qnormalise_cases (Some s) e) as [_ [_ [Q _]]]. rewrite (Q s eq_refl M). eexists. split; [reflexivity|]. split; [exact Se|].
    intros b d n Hb Hd Hn. rewrite get_inb by (cbn [div_by_last shape]; rewrite Se; cbn; auto). unfold div_by_last. cbn [elt]. rewrite Se. reflexivity.
  - destruct (qnormalise_cases (Some s) e) as [_ [_ [_ Q]]]. apply (Q s eq_refl); assumption.
Qed.
(** hence, where the divisor is not 0, the normalised row has median 1, resp. mean 1 *)
Theorem normalised_is_one N (f : nat -> R) : (0 < N)%nat -> (forall n, (n < N)%nat -> 0 <= f n) ->
  (quantile_half N f <> 0 -> quantile_half N (fun n => f n / quantile_half N f) = 1) /\
  (Rsum N f <> 0 -> Rsum N (fun n => f n / (Rsum N f / INR N)) / INR N = 1).
Proof.
  intros HN Hf. split; intros H.
  - pose proof (quantile_half_nonneg N f Hf). assert (0 < quantile_half N f) by lra. set (q := quantile_half N f) in *.
    assert (E : (fun n => f n / q) = (fun n => / q * f n)) by (apply FunctionalExtensionality.functional_extensionality; intros n; unfold Rdiv; ring).
    rewrite E, quantile_half_scal by (apply Rlt_le, Rinv_0_lt_compat; assumption). fold q. field. assumption.
  - pose proof (INR_pos N HN). unfold Rdiv at 2. rewrite Rsum_scal_r. field. lra.
Qed.

Lemma band_sum_scal N W c g n : band_sum N W (fun j => Cmult c (g j)) n = Cmult c (band_sum N W g n).
Proof.
  unfold band_sum. rewrite (Csum_ext W _ (fun j => Cmult c (Cmult (g j) (w N (Z.of_nat j * Z.of_nat n))))) by (intros; ring).
  rewrite Csum_scal. ring.
Qed.
(** scaling the spectrum by a complex constant scales the energies by its squared modulus: the normalised rows do not
    change *)
Theorem qtile_scaling t N W X c n : 
  Cmod (band_sum N W (band t (fun k => Cmult c (X k))) n) ^ 2 = Cmod c ^ 2 * Cmod (band_sum N W (band t X) n) ^ 2.
Proof.
  assert (E : band_sum N W (band t (fun k => Cmult c (X k))) n = Cmult c (band_sum N W (band t X) n)).
  { rewrite <- band_sum_scal. unfold band_sum. f_equal. apply Csum_ext. intros j _. unfold band. f_equal. ring. }
  rewrite E, Cmod_mult. ring.
Qed.
Lemma Csum_trunc N W f : (W <= N)%nat -> (forall k, (W <= k < N)%nat -> f k = RtoC 0) -> Csum N f = Csum W f.
Proof.
  intros H Z. replace N with (W + (N - W))%nat by lia. rewrite Csum_app, (Csum_0 (N - W)), Cplus_0_r; [reflexivity|].
  intros k Hk. apply Z. lia.
Qed.
Lemma Rsum_trunc N W f : (W <= N)%nat -> (forall k, (W <= k < N)%nat -> f k = 0) -> Rsum N f = Rsum W f.
Proof.
  intros H Z. replace N with (W + (N - W))%nat by lia. rewrite Rsum_app, (Rsum_0 (N - W)), Rplus_0_r; [reflexivity|].
  intros k Hk. apply Z. lia.
Qed.
(** the energies of a row add up to the windowed energy of the band over N (Parseval) *)
Theorem qtile_parseval N W g : (0 < N)%nat -> (W <= N)%nat ->
  Rsum N (fun n => Cmod (band_sum N W g n) ^ 2) = / INR N * Rsum W (fun j => Cmod (g j) ^ 2).
Proof.
  intros HN HW. pose proof (INR_pos N HN) as HI.
  set (G := fun k => if (k <? W)%nat then g k else RtoC 0).
  assert (E : forall n, band_sum N W g n = idft N G n).
  { intros n. unfold band_sum, idft. f_equal. rewrite (Csum_trunc N W) by (try assumption; intros k Hk; unfold G; replace (k <? W)%nat with false by lia; ring).
    apply Csum_ext. intros k Hk. unfold G. replace (k <? W)%nat with true by lia. reflexivity. }
  rewrite (Rsum_ext N _ (fun n => Cmod (idft N G n) ^ 2)) by (intros n _; rewrite E; reflexivity).
  pose proof (dft_parseval N (idft N G) HN) as Q.
  rewrite (Rsum_ext N _ (fun k => Cmod (G k) ^ 2)) in Q by (intros k Hk; rewrite dft_idft by assumption; reflexivity).
  assert (R1 : Rsum N (fun k => Cmod (G k) ^ 2) = Rsum W (fun j => Cmod (g j) ^ 2)).
  { rewrite (Rsum_trunc N W).
    - apply Rsum_ext. intros k Hk. unfold G. replace (k <? W)%nat with true by lia. reflexivity.
    - assumption.
    - intros k Hk. unfold G. replace (k <? W)%nat with false by lia. rewrite Cmod_0. ring. }
  rewrite R1 in Q. rewrite Q. field. lra.
Qed.
(** which bins: for a frequency on the grid of the data (f dur = k), the j-th window entry weighs bin k + 1 + (j - h):
    the band is centred one bin above the nominal frequency *)
Lemma rround_IZR z : rround (IZR z) = z.
Proof.
  unfold rround. rewrite (Int_part_unique z (IZR z)) by lra. destruct (Rlt_dec _ _); [reflexivity|lra].
Qed.
Theorem qtile_bins t h k j : positive t -> INR h <= half_width t < INR h + 1 -> qt_f t * qt_dur t = IZR k ->
  data_index t j = Z.max 0 (Z.min (k + 1 + (Z.of_nat j - Z.of_nat h)) (rtrunc (qt_dur t * qt_sr t) / 2)).
Proof.
  intros P Hh K. destruct (window_half t P) as [h' [Hh' [E _]]].
  assert (h' = h).
  { assert (h' < h + 1 /\ h < h' + 1)%nat; [|lia]. split; apply INR_lt; rewrite plus_INR; cbn [INR]; lra. }
  subst h'. unfold data_index, win_idx. rewrite E, K. f_equal. f_equal. rewrite <- (rround_IZR (k + 1 + _)). f_equal.
  rewrite !plus_IZR, minus_IZR, opp_IZR. ring.
Qed.
(** example: q = 12, f = 48 Hz, 1 s at 1024 Hz, mismatch 0.2: 27 window entries in 64 tiles *)
Lemma sqrt_bounds a lo hi : 0 <= lo -> 0 <= hi -> lo * lo <= a -> a < hi * hi -> lo <= sqrt a < hi.
Proof.
  intros L H A B. split.
  - rewrite <- (sqrt_square lo) by assumption. apply sqrt_le_1_alt. assumption.
  - rewrite <- (sqrt_square hi) by assumption. apply sqrt_lt_1_alt. split; [nra|assumption].
Qed.
Example qtile_ex : fitting (mkqt 12 48 1 1024 (1/5)) 13 64.
Proof.
  set (t := mkqt 12 48 1 1024 (1/5)).
  assert (P : positive t) by (repeat split; cbn; lra).
  assert (S11 : 3.3 <= sqrt 11 < 3.32) by (apply sqrt_bounds; lra).
  assert (H : INR 13 <= half_width t < INR 13 + 1) by (unfold half_width; cbn [t qt_f qt_dur qt_q]; rewrite INR_IZR_INZ; change (Z.of_nat 13) with 13%Z; split; lra).
  assert (Sm : 0.25 <= sqrt (1/5/3) < 0.26) by (apply sqrt_bounds; lra).
  assert (W : 32 < wanted_tiles t <= 64).
  { pose proof PI_gt_3. pose proof PI_4. unfold wanted_tiles. cbn [t qt_f qt_dur qt_q qt_mm].
    set (s := sqrt (1/5/3)) in *. replace (2 * PI * 48 * 1 / 12 / (2 * s)) with (4 * PI / s) by (field; lra).
    assert (E : 4 * PI / s * s = 4 * PI) by (field; lra). set (y := 4 * PI / s) in *. split; nra. }
  repeat split; try (apply P); try (apply H); [|lia].
  destruct (qtile_count t P) as [_ Q]. destruct Q as [e [-> [L1 L2]]]; [lra|].
  assert (e <= 6)%nat by (apply L2; cbn; lra).
  assert (~ (e <= 5)%nat) by (intros L; assert (2 ^ e <= 2 ^ 5) by (apply Rle_pow; [lra|lia]); cbn in *; lra).
  assert (e = 6)%nat by lia. subst e. reflexivity.
Qed.
