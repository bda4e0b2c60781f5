(** Property C58, part 3: the waveforms TimeDomainCBCWaveformGenerator returns. *)
From Coq Require Import Reals Lra ZArith Lia.
From Coquelicot Require Import Coquelicot.
From Verif Require Import Base Tensor Rutil Dft Gw_model Gw_props Conv_model Conv_props Wave_model Wave_props Bounds_props Qt_model Qt_props Qt2_props Iir_model Iir_props Gen_model Gen_row Gen_props.
From Verif Require Import Phd_model Phd_main.
Local Open Scope R_scope.

(** ** specification *)
(** the spectrum of one polarisation h of row r on the grid of an L-sample series: tapered, without the Nyquist bin *)
Definition spectrum (g : gen) (L : nat) (r : row) (h : R -> C) (k : nat) : C :=
  if (k =? L / 2)%nat then RtoC 0 else Cmult (RtoC (taper g L r k)) (h (INR k * (g_sr g / INR L))).
(** the series: its transform, moved to earlier times by right_pad (rounded to a sample, wrapping around), tapered at both ends *)
Definition series (g : gen) (L : nat) (r : row) (h : R -> C) (t : nat) : R :=
  start_gain g (Z.of_nat t) * end_gain g r (Z.of_nat L - Z.of_nat t) *
  (g_sr g * croll L (- rround (g_rpad g * g_sr g)) (irfft L (spectrum g L r h)) t).
(** a series of L samples at the end of a frame of len samples: zeros in front, or the first samples cut off *)
Definition at_end {A} (zero : A) (L len : nat) (x : nat -> A) (s : nat) : A := if (s + L <? len)%nat then zero else x (s + L - len)%nat.
(** an approximant that computes every row and every frequency by itself *)
Definition rowwise (approx : list R -> res (list (list (C * C)))) (ap : nat -> R -> C * C) (b : nat) : Prop :=
  forall fs, (forall f, In f fs -> 0 < f) -> approx fs = Ok (map (fun i => map (ap i) fs) (seq 0 b)).

Lemma filtfilt_ext a b n x y t : (forall s, (s < n)%nat -> x s = y s) -> (t < n)%nat -> filtfilt a b n x t = filtfilt a b n y t.
Proof. intros H Ht. unfold filtfilt, flip. apply lfilter_causal. intros s Hs. apply lfilter_causal. intros u Hu. apply H. lia. Qed.
(** ** the length of the output *)
Theorem out_length D (L : nat) : 0 <= D -> (0 <= Z.of_nat L + rtrunc (D - INR L))%Z /\
  (INR L <= D -> (Z.of_nat L + rtrunc (D - INR L))%Z = rtrunc D) /\ (D <= INR L -> (Z.of_nat L + rtrunc (D - INR L))%Z = rceil D).
Proof.
  intros HD. destruct (rtrunc_spec (D - INR L)) as [A B]. rewrite INR_IZR_INZ in *. destruct (rtrunc_spec D) as [C0 _]. specialize (C0 HD). split; [|split].
  - destruct (Rle_dec 0 (D - IZR (Z.of_nat L))) as [G|G].
    + specialize (A G). assert (-1 < rtrunc (D - IZR (Z.of_nat L)))%Z by (apply lt_IZR; lra). lia.
    + specialize (B ltac:(lra)). apply le_IZR. rewrite plus_IZR. lra.
  - intros G. specialize (A ltac:(lra)). assert (K : forall p q : Z, IZR p <= D < IZR p + 1 -> IZR q <= D < IZR q + 1 -> p = q).
    { intros p q Hp Hq. assert (p < q + 1)%Z by (apply lt_IZR; rewrite plus_IZR; lra). assert (q < p + 1)%Z by (apply lt_IZR; rewrite plus_IZR; lra). lia. }
    apply K; [rewrite plus_IZR; lra|exact C0].
  - intros G. specialize (B ltac:(lra)). symmetry. apply rceil_unique. rewrite plus_IZR. lra.
Qed.

Section Forward.
Variables (g : gen) (rs : list row) (q : nat).
Hypothesis Hg : good_gen g.
Hypothesis Hq : g_sr g = 2 * INR q.
Hypothesis Hne : rs <> [].
Hypothesis Hrs : forall r, In r rs -> good_row r.
Hypothesis Hab : List.length (g_a g) = List.length (g_b g).
Variables (approx : list R -> res (list (list (C * C)))) (ap : nat -> R -> C * C).
Hypothesis Hap : rowwise approx ap (List.length rs).

Lemma irfft_ext' n X Y t : (forall k, (k < rbins n)%nat -> X k = Y k) -> irfft n X t = irfft n Y t.
Proof. intros H. unfold irfft. f_equal. apply Rsum_ext. intros k Hk. rewrite H by exact Hk. reflexivity. Qed.
Lemma td_spec L lo i r h t : (forall r, In r rs -> (rround (row_time g r * g_sr g) <= Z.of_nat L)%Z) -> (exists p, L = (2 ^ p)%nat) -> nth_error rs i = Some r -> lo <= row_fstart g r -> (t < L)%nat ->
  let df := g_sr g / INR L in let n := num_freqs g df in
  td_series g rs L i (spec_entry g df n lo r (map h (map (freq g n) (requested g n lo)))) t = series g L r h t.
Proof.
  intros HL HP Hi Hlo Ht. cbv zeta. assert (I : In r rs) by (eapply nth_error_In; exact Hi). unfold td_series. rewrite (nth_error_nth _ _ _ Hi). rewrite stage2_spec by assumption. unfold series. f_equal.
  rewrite (time_shift g rs Hg Hne Hrs L HL HP q) by exact Hq. rewrite Rmult_comm. f_equal. unfold croll. apply irfft_ext'. intros k Hk.
  destruct (even_samples g rs Hg Hne Hrs L HL HP q Hq) as [E1 E2]. rewrite (cond_entry_spec g rs Hg Hne Hrs L HL HP q r lo h k) by (try assumption; rewrite E2; exact Hk).
  unfold spectrum. replace (num_freqs g (g_sr g / INR L) - 1)%nat with (L / 2)%nat by (rewrite E2; lia). reflexivity.
Qed.
Theorem gen_forward_spec : exists p hc hp, let L := (2 ^ p)%nat in let len := Z.to_nat (Z.of_nat L + rtrunc (g_dur g * g_sr g - INR L)) in
  gen_forward g approx rs = Ok (hc, hp) /\ shape hc = [List.length rs; len] /\ shape hp = [List.length rs; len] /\
  (forall r, In r rs -> (rround (row_time g r * g_sr g) <= Z.of_nat L)%Z) /\ (exists r, In r rs /\ (Z.of_nat L < 2 * rround (row_time g r * g_sr g))%Z) /\
  forall i r t, nth_error rs i = Some r -> (t < len)%nat ->
    elt hc [i; t] = filtfilt (g_a g) (g_b g) len (at_end 0 L len (series g L r (fun f => fst (ap i f)))) t /\
    elt hp [i; t] = filtfilt (g_a g) (g_b g) len (at_end 0 L len (series g L r (fun f => snd (ap i f)))) t.
Proof.
  destruct (resolution g rs Hg Hne Hrs) as (p & Ed & HL & (r0 & I0 & _ & H0)). set (L := (2 ^ p)%nat) in *. assert (HP : exists p, L = (2 ^ p)%nat) by (exists p; reflexivity).
  destruct (lmin_spec (map (row_fstart g) rs)) as (lo & El & Il & Ul); [destruct rs; [contradiction|discriminate]|].
  assert (Lpos : 0 < lo). { apply in_map_iff in Il as (r & <- & Hr). apply fstart_range; [apply Hrs, Hr|apply Hg]. }
  destruct (even_samples g rs Hg Hne Hrs L HL HP q Hq) as [E1 E2]. destruct (enough_samples g rs Hg Hne Hrs L HL HP) as [T1 T2]. set (df := g_sr g / INR L) in *. set (n := num_freqs g df) in *.
  set (fs := map (freq g n) (requested g n lo)). assert (Hfs : forall f, In f fs -> 0 < f).
  { intros f Hin. apply in_map_iff in Hin as (k & <- & Hk). unfold requested in Hk. apply filter_In in Hk as [_ Hk]. apply leR_spec in Hk. lra. }
  set (h := map (fun i => map (ap i) fs) (seq 0 (List.length rs))). assert (Eh : approx fs = Ok h) by (apply Hap, Hfs).
  set (sp := fun i k => (spec_entry g df n lo (nth i rs (mkrow 0 0 0 0)) (map fst (nth i h [])) k, spec_entry g df n lo (nth i rs (mkrow 0 0 0 0)) (map snd (nth i h [])) k)).
  assert (EC : conditioned_fd g approx rs = Ok (n, sp)).
  { unfold conditioned_fd. rewrite Ed. cbn [bind]. rewrite El. cbn [bind]. fold n. fold fs. rewrite Eh. cbn [bind].
    assert (X0 : (List.length h =? List.length rs)%nat = true) by (unfold h; rewrite map_length, seq_length; apply Nat.eqb_refl).
    assert (X : forallb (fun l => (List.length l =? List.length fs)%nat) h = true).
    { apply forallb_forall. intros l Hl. unfold h in Hl. apply in_map_iff in Hl as (i & <- & _). rewrite map_length. apply Nat.eqb_refl. }
    rewrite X. cbn [bind]. rewrite X0. reflexivity. }
  set (pad := rtrunc (g_dur g * g_sr g - INR L)). set (len := Z.to_nat (Z.of_nat L + pad)).
  assert (DP : 0 <= g_dur g * g_sr g) by (destruct Hg as (? & ? & ?); apply Rmult_le_pos; lra). destruct (out_length _ L DP) as (P0 & _). fold pad in P0.
  pose proof (L16 g rs Hg Hne Hrs L HL HP) as L16'.
  set (xc := fun i => td_series g rs L i (fun k => fst (sp i k))). set (xp := fun i => td_series g rs L i (fun k => snd (sp i k))).
  set (tc := mk [List.length rs; len] (fun i => match i with [i; t] => let u := (Z.of_nat t - pad)%Z in if (u <? 0)%Z then 0 else xc i (Z.to_nat u) | _ => 0 end)).
  set (tp := mk [List.length rs; len] (fun i => match i with [i; t] => let u := (Z.of_nat t - pad)%Z in if (u <? 0)%Z then 0 else xp i (Z.to_nat u) | _ => 0 end)).
  destruct (proj1 (iir_forward_spec (g_a g) (g_b g) tc) Hab) as (hc & Ec & Sc & Vc). destruct (proj1 (iir_forward_spec (g_a g) (g_b g) tp) Hab) as (hp & Ep & Sp & Vp).
  exists p, hc, hp. cbv zeta. fold L. fold pad. fold len. split; [|split; [rewrite Sc; reflexivity|split; [rewrite Sp; reflexivity|split; [exact HL|split; [exists r0; split; assumption|]]]]].
  - unfold gen_forward. rewrite EC. cbn [bind fst snd]. rewrite E1.
    destruct (Nat.eqb_spec L 0) as [|_]; [lia|]. rewrite E1 in T1, T2. destruct (Z.ltb_spec (Z.of_nat L) (ntaper_start g)) as [|_]; [lia|]. destruct (Z.ltb_spec (Z.of_nat L) (max_ntaper g rs - 1)) as [|_]; [lia|].
    fold pad. unfold pad_front. destruct (Z.ltb_spec (Z.of_nat L + pad) 0) as [|_]; [lia|]. fold len. cbn [bind]. match goal with |- bind (iir_forward _ _ ?T) _ = _ => change T with tp end. rewrite Ep. cbn [bind]. match goal with |- bind (iir_forward _ _ ?T) _ = _ => change T with tc end. rewrite Ec. reflexivity.
  - intros i r t Hi Ht. assert (Bi : (i < List.length rs)%nat) by (apply nth_error_Some; congruence). assert (Ir : In r rs) by (eapply nth_error_In; exact Hi). assert (Hlo : lo <= row_fstart g r) by (apply Ul, in_map, Ir).
    assert (IB : inb ([i] ++ [t]) [List.length rs; len]) by (repeat constructor; assumption).
    assert (Nh : nth i h [] = map (ap i) fs). { apply nth_error_nth. unfold h. rewrite nth_error_map, (nth_error_nth' _ 0%nat) by (rewrite seq_length; exact Bi). rewrite seq_nth by exact Bi. reflexivity. }
    assert (Place : forall x h', (forall u, (u < L)%nat -> x u = series g L r h' u) -> forall s, (s < len)%nat ->
       (let u := (Z.of_nat s - pad)%Z in if (u <? 0)%Z then 0 else x (Z.to_nat u)) = at_end 0 L len (series g L r h') s).
    { intros x h' Hx s Hs. cbv zeta. unfold at_end. destruct (Z.ltb_spec (Z.of_nat s - pad) 0) as [A|A], (Nat.ltb_spec (s + L) len) as [B|B]; try (unfold len in *; lia); [reflexivity|]. rewrite Hx by (unfold len in *; lia). f_equal. unfold len in *. lia. }
    split.
    + change [i; t] with ([i] ++ [t]). rewrite Vc by exact IB. change (last (shape tc) 0%nat) with len. apply filtfilt_ext; [|exact Ht]. intros s Hs. change (elt tc ([i] ++ [s])) with (let u := (Z.of_nat s - pad)%Z in if (u <? 0)%Z then 0 else xc i (Z.to_nat u)).
      apply Place; [|exact Hs]. intros u Hu. unfold xc. rewrite <- (td_spec L lo i r (fun f => fst (ap i f)) u HL HP Hi Hlo Hu). fold df n. unfold sp. cbn [fst]. rewrite Nh, (nth_error_nth _ _ _ Hi). fold fs. rewrite map_map. reflexivity.
    + change [i; t] with ([i] ++ [t]). rewrite Vp by exact IB. change (last (shape tp) 0%nat) with len. apply filtfilt_ext; [|exact Ht]. intros s Hs. change (elt tp ([i] ++ [s])) with (let u := (Z.of_nat s - pad)%Z in if (u <? 0)%Z then 0 else xp i (Z.to_nat u)).
      apply Place; [|exact Hs]. intros u Hu. unfold xp. rewrite <- (td_spec L lo i r (fun f => snd (ap i f)) u HL HP Hi Hlo Hu). fold df n. unfold sp. cbn [snd]. rewrite Nh, (nth_error_nth _ _ _ Hi). fold fs. rewrite map_map. reflexivity.
Qed.
End Forward.

(** the scaling by the sample rate makes the series the Riemann sum, with step df = sample_rate / L, of the inverse Fourier integral of the one-sided spectrum at time t / sample_rate *)
Theorem scaling (sr : R) (L : nat) X t : 0 < sr -> (0 < L)%nat -> sr * irfft L X t = Rsum (rbins L) (fun k => hw L k * Re (Cmult (X k) (cis (2 * PI * (INR k * (sr / INR L)) * (INR t / sr)))) * (sr / INR L)).
Proof.
  intros Hs HL. assert (HN : INR L <> 0) by (apply not_0_INR; lia). unfold irfft. rewrite <- Rmult_assoc, <- Rsum_scal. apply Rsum_ext. intros k Hk.
  replace (w L (Z.of_nat k * Z.of_nat t)) with (cis (2 * PI * (INR k * (sr / INR L)) * (INR t / sr))); [field; exact HN|]. unfold w. f_equal. rewrite mult_IZR, <- !INR_IZR_INZ. field. split; [exact HN|lra].
Qed.
(** ** every sample rate of at least 2 Hz: no error *)
Theorem gen_forward_total g rs approx ap : good_gen g -> rs <> [] -> (forall r, In r rs -> good_row r) -> List.length (g_a g) = List.length (g_b g) -> rowwise approx ap (List.length rs) ->
  exists N hc hp, (0 < N)%nat /\ gen_forward g approx rs = Ok (hc, hp) /\ shape hc = [List.length rs; Z.to_nat (Z.of_nat N + rtrunc (g_dur g * g_sr g - INR N))] /\ shape hp = shape hc.
Proof.
  intros Hg Hne Hrs Hab Hap. destruct (resolution g rs Hg Hne Hrs) as (p & Ed & HL & _). set (L := (2 ^ p)%nat) in *. assert (HP : exists p, L = (2 ^ p)%nat) by (exists p; reflexivity).
  destruct (lmin_spec (map (row_fstart g) rs)) as (lo & El & Il & _); [destruct rs; [contradiction|discriminate]|].
  assert (Lpos : 0 < lo). { apply in_map_iff in Il as (r & <- & Hr). apply fstart_range; [apply Hrs, Hr|apply Hg]. }
  destruct (enough_samples g rs Hg Hne Hrs L HL HP) as [T1 T2]. destruct (samples_range g rs Hg Hne Hrs L HL HP) as (_ & _ & T3 & _). set (df := g_sr g / INR L) in *. set (n := num_freqs g df) in *.
  assert (EC : exists sp, conditioned_fd g approx rs = Ok (n, sp)).
  { unfold conditioned_fd. rewrite Ed. cbn [bind]. rewrite El. cbn [bind]. fold n. rewrite Hap.
    2:{ intros f Hin. apply in_map_iff in Hin as (k & <- & Hk). unfold requested in Hk. apply filter_In in Hk as [_ Hk]. apply leR_spec in Hk. lra. }
    cbn [bind]. rewrite (proj2 (forallb_forall _ _)); [cbn [bind]; rewrite map_length, seq_length, Nat.eqb_refl; eexists; reflexivity|]. intros l Hl. apply in_map_iff in Hl as (i & <- & _). rewrite map_length. apply Nat.eqb_refl. }
  destruct EC as [sp EC]. exists (2 * (n - 1))%nat. unfold gen_forward. rewrite EC. cbn [bind fst snd].
  destruct (Nat.eqb_spec (2 * (n - 1)) 0) as [|_]; [lia|]. destruct (Z.ltb_spec (Z.of_nat (2 * (n - 1))) (ntaper_start g)) as [|_]; [lia|]. destruct (Z.ltb_spec (Z.of_nat (2 * (n - 1))) (max_ntaper g rs - 1)) as [|_]; [lia|].
  assert (DP : 0 <= g_dur g * g_sr g) by (destruct Hg as (? & ? & ?); apply Rmult_le_pos; lra). destruct (out_length _ (2 * (n - 1)) DP) as (P0 & _).
  unfold pad_front. destruct (Z.ltb_spec (Z.of_nat (2 * (n - 1)) + rtrunc (g_dur g * g_sr g - INR (2 * (n - 1)))) 0) as [|_]; [lia|]. cbn [bind].
  match goal with |- context [iir_forward _ _ ?T] => destruct (proj1 (iir_forward_spec (g_a g) (g_b g) T) Hab) as (hp & E1 & S1 & _); rewrite E1 end. cbn [bind].
  match goal with |- context [iir_forward _ _ ?T] => destruct (proj1 (iir_forward_spec (g_a g) (g_b g) T) Hab) as (hc & E2 & S2 & _); rewrite E2 end. cbn [bind].
  exists hc, hp. split; [lia|]. split; [reflexivity|]. rewrite S2. split; [reflexivity|]. rewrite S1. reflexivity.
Qed.
(** ** errors *)
Theorem gen_empty g approx : gen_forward g approx [] = Err RuntimeError.
Proof. reflexivity. Qed.
(** an exception of the approximant comes out unchanged; rows that do not hold one value per requested frequency (or a single value) are a RuntimeError,
    another number of rows than binaries is an IndexError *)
Theorem gen_approximant_errors g rs approx : rs <> [] -> exists fs, 
  (forall e, approx fs = Err e -> gen_forward g approx rs = Err e) /\
  (forall h, approx fs = Ok h -> (exists l, In l h /\ List.length l <> List.length fs) -> (exists l, In l h /\ List.length l <> 1%nat) -> gen_forward g approx rs = Err RuntimeError) /\
  (forall h, approx fs = Ok h -> ((forall l, In l h -> List.length l = List.length fs) \/ (forall l, In l h -> List.length l = 1%nat)) -> List.length h <> List.length rs -> gen_forward g approx rs = Err IndexError).
Proof.
  intros NE. unfold gen_forward, conditioned_fd, delta_f.
  destruct (lmax (map (row_chirplen g) rs)) as [Lm|e] eqn:EL; [|destruct rs; [congruence|discriminate EL]]. cbn [bind].
  destruct (lmin (map (row_fstart g) rs)) as [lo|e] eqn:EM; [|destruct rs; [congruence|discriminate EM]]. cbn [bind].
  set (fs := map _ (requested _ _ _)). exists fs.
  assert (FA : forall (h : list (list (C * C))) n, (exists l, In l h /\ List.length l <> n) -> forallb (fun l => List.length l =? n)%nat h = false).
  { intros h n [l [Hl H]]. apply not_true_is_false. intros F. rewrite forallb_forall in F. specialize (F l Hl). apply Nat.eqb_eq in F. contradiction. }
  assert (FT : forall (h : list (list (C * C))) n, (forall l, In l h -> List.length l = n) -> forallb (fun l => List.length l =? n)%nat h = true).
  { intros h n H. apply forallb_forall. intros l Hl. apply Nat.eqb_eq, H, Hl. }
  split; [|split].
  - intros e E. rewrite E. reflexivity.
  - intros h E H1 H2. rewrite E. cbn [bind]. rewrite (FA h _ H1), (FA h _ H2). reflexivity.
  - intros h E H HN. rewrite E. cbn [bind]. destruct (forallb (fun l => List.length l =? List.length fs)%nat h) eqn:F1; [|destruct H as [H|H]; [rewrite (FT h _ H) in F1; discriminate|rewrite (FT h _ H)]];
      cbn [bind]; rewrite ?map_length; apply Nat.eqb_neq in HN; rewrite HN; reflexivity.
Qed.
Theorem gen_filter_mismatch g q rs approx ap : good_gen g -> g_sr g = 2 * INR q -> rs <> [] -> (forall r, In r rs -> good_row r) -> rowwise approx ap (List.length rs) ->
  List.length (g_a g) <> List.length (g_b g) -> exists e, gen_forward g approx rs = Err e.
Proof.
  intros _ _ _ _ _ H. unfold gen_forward. destruct (conditioned_fd g approx rs) as [[n sp]|e]; cbn [bind]; [|exists e; reflexivity]. cbn [fst snd].
  destruct (_ =? 0)%nat; [eexists; reflexivity|]. destruct (_ <? _)%Z; [eexists; reflexivity|]. destruct (_ <? _)%Z; [eexists; reflexivity|]. unfold pad_front. destruct (_ <? _)%Z; [eexists; reflexivity|]. cbn [bind].
  rewrite (proj2 (iir_forward_spec (g_a g) (g_b g) _) H). eexists. reflexivity.
Qed.
(** ** length: [size] unless the waveform is longer than the frame and duration * sample_rate is not an integer *)
Corollary out_length_size D (L : nat) : 0 <= D -> ((Z.of_nat L + rtrunc (D - INR L))%Z = rtrunc D <-> INR L <= D \/ exists z, D = IZR z).
Proof.
  intros HD. destruct (out_length D L HD) as (_ & A & B). split.
  - intros E. destruct (Rle_dec (INR L) D) as [|G]; [left; assumption|right]. rewrite B in E by lra. exists (rtrunc D). destruct (rtrunc_spec D) as [C0 _]. specialize (C0 HD). pose proof (rceil_spec D) as C1. rewrite E in C1. lra.
  - intros [G|[z ->]]; [apply A, G|]. rewrite <- (opp_IZR 0) in * || idtac. destruct (Rle_dec (INR L) (IZR z)) as [G|G]; [apply A, G|]. rewrite B by lra. rewrite rtrunc_IZR. apply rceil_unique. lra.
Qed.
(** ** the cut-off of the high-pass filter *)
(** squared magnitude at frequency f of the digital Butterworth high-pass of a given order with cut-off fc (bilinear transform) *)
Definition butterworth (order : nat) (fc f sr : R) : R := 1 / (1 + (tan (PI * fc / sr) / tan (PI * f / sr)) ^ (2 * order)).
Theorem cutoff_spec g : 0 < g_fmin g < g_sr g / 2 -> 0 < cutoff g < g_fmin g /\ butterworth 8 (cutoff g) (g_fmin g) (g_sr g) = sqrt (99 / 100).
Proof.
  intros [F0 F1]. pose proof PI_RGT_0 as PP. unfold cutoff. set (a := PI * g_fmin g / g_sr g). set (c := 1 / sqrt (99 / 100) - 1).
  assert (S0 : 9 / 10 < sqrt (99 / 100) < 1). { split; [apply Rsqr_incrst_0; [rewrite Rsqr_sqrt by lra; unfold Rsqr; lra|lra|apply sqrt_pos]|]. apply Rlt_le_trans with (sqrt 1); [apply sqrt_lt_1; lra|rewrite sqrt_1; lra]. }
  assert (C0 : 0 < c < 1). { unfold c. assert (1 < 1 / sqrt (99 / 100) < 10 / 9); [|lra]. split; [apply Rmult_lt_reg_r with (sqrt (99 / 100)); [lra|]; unfold Rdiv; rewrite Rmult_assoc, Rinv_l by lra; lra|]. apply Rmult_lt_reg_r with (sqrt (99 / 100)); [lra|]; unfold Rdiv at 1; rewrite Rmult_assoc, Rinv_l by lra; lra. }
  assert (A0 : 0 < a < PI / 2). { unfold a. split; [apply Rdiv_lt_0_compat; [apply Rmult_lt_0_compat; lra|lra]|]. apply Rmult_lt_reg_r with (g_sr g); [lra|]. unfold Rdiv at 1. rewrite Rmult_assoc, Rinv_l by lra. nra. }
  assert (T0 : 0 < tan a) by (apply tan_gt_0; lra). set (k := Rpower c (1 / (2 * 8))).
  assert (K0 : 0 < k < 1). { split; [apply Rpower_pos|]. unfold k, Rpower. apply Rlt_le_trans with (exp 0); [|rewrite exp_0; lra]. apply exp_increasing. assert (ln c < ln 1) by (apply ln_increasing; lra). rewrite ln_1 in *. clearbody c. lra. }
  assert (W0 : 0 < tan a * k < tan a) by nra. cbv zeta.
  assert (X : atan (tan a) = a) by (apply atan_tan; lra). pose proof (atan_increasing _ _ (proj2 W0)) as U. rewrite X in U. pose proof (atan_increasing _ _ (proj1 W0)) as V. rewrite atan_0 in V.
  assert (SR : 0 < g_sr g) by lra. split; [split|].
  - apply Rdiv_lt_0_compat; [apply Rmult_lt_0_compat; lra|lra].
  - apply Rmult_lt_reg_r with PI; [lra|]. unfold Rdiv. rewrite Rmult_assoc, Rinv_l, Rmult_1_r by lra. apply Rlt_le_trans with (g_sr g * a); [apply Rmult_lt_compat_l; lra|]. right. unfold a. field. lra.
  - unfold butterworth. fold a. replace (PI * (g_sr g * atan (tan a * k) / PI) / g_sr g) with (atan (tan a * k)) by (field; lra). rewrite tan_atan. replace (tan a * k / tan a) with k by (field; lra).
    assert (KE : k ^ (2 * 8) = c). { unfold k. rewrite <- Rpower_pow by apply Rpower_pos. rewrite Rpower_mult. replace (1 / (2 * 8) * INR (2 * 8)) with 1 by (cbn [Nat.mul Nat.add INR]; lra). apply Rpower_1. lra. }
    rewrite KE. unfold c. field. lra.
Qed.
(** ** with IMRPhenomD as the approximant *)
Lemma pd_rowwise mc q chi1 chi2 dist phic incl f_ref : same_len (List.length mc) [q; chi1; chi2; dist; phic; incl] ->
  (forall i, (i < List.length mc)%nat -> physical (nth i mc 0) (nth i q 0) (nth i chi1 0) (nth i chi2 0)) ->
  rowwise (fun fs => pd_forward fs mc q chi1 chi2 dist phic incl f_ref)
    (fun i f => pd_one f (nth i mc 0) (nth i q 0) (nth i chi1 0) (nth i chi2 0) (nth i dist 0) (nth i phic 0) (nth i incl 0) f_ref) (List.length mc).
Proof.
  intros HS HP fs _. destruct (proj1 (pd_forward_spec fs mc q chi1 chi2 dist phic incl f_ref) HS HP) as (h & E & _). unfold pd_forward in *. destruct (forallb _ _); [|discriminate E]. destruct (existsb _ _); [discriminate E|]. reflexivity.
Qed.
(** a generator at 2048 Hz and a batch of two binaries meet the hypotheses *)
Example gen_ex : let g := mkgen 2048 8 20 (1 / 2) [1; - (1 / 2)] [1; -1] in let rs := [mkrow 30 20 0 (1 / 2); mkrow 2 1 0 0] in
  exists hc hp, gen_forward g (fun fs => pd_forward fs [21; 1] [2 / 3; 1 / 2] [0; 0] [1 / 2; 0] [100; 100] [0; 0] [0; 0] 20) rs = Ok (hc, hp) /\ exists n, shape hp = [2; n]%nat /\ shape hc = [2; n]%nat.
Proof.
  cbv zeta. destruct (gen_forward_spec (mkgen 2048 8 20 (1 / 2) [1; - (1 / 2)] [1; -1]) [mkrow 30 20 0 (1 / 2); mkrow 2 1 0 0] 1024) with (ap := fun i f => pd_one f (nth i [21; 1] 0) (nth i [2 / 3; 1 / 2] 0) (nth i [0; 0] 0) (nth i [1 / 2; 0] 0) (nth i [100; 100] 0) (nth i [0; 0] 0) (nth i [0; 0] 0) 20) (approx := fun fs => pd_forward fs [21; 1] [2 / 3; 1 / 2] [0; 0] [1 / 2; 0] [100; 100] [0; 0] [0; 0] 20) as (p & hc & hp & E & Sc & Sp & _).
  - unfold good_gen; cbn [g_sr g_fmin g_dur]; lra.
  - cbn [g_sr]. rewrite INR_IZR_INZ. cbn [Z.of_nat]. change (Z.of_nat 1024) with 1024%Z. lra.
  - discriminate.
  - intros r [<-|[<-|[]]]; unfold good_row; cbn [m_1 m_2 s_1 s_2]; lra.
  - reflexivity.
  - apply (pd_rowwise [21; 1] [2 / 3; 1 / 2] [0; 0] [1 / 2; 0] [100; 100] [0; 0] [0; 0] 20).
    + intros l Hl. repeat (destruct Hl as [<-|Hl]; [reflexivity|]). destruct Hl.
    + intros [|[|i]] Hi; [unfold physical; cbn; lra|unfold physical; cbn; lra|cbn in Hi; lia].
  - exists hc, hp. split; [exact E|]. eexists. split; [exact Sp|exact Sc].
Qed.
