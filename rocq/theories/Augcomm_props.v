(** Property C98: augmentations, injections and batches commute with whitening and leave SNRs unchanged. *)
From Coq Require Import String Permutation.
From Coquelicot Require Import Coquelicot.
From Verif Require Import Base Tensor Rutil Slicing_model Norm_model Norm_props Gw_model Gw_spec Gw_props Dft Snr_props Spectral_model Spectral_props Psd_props Fastpsd_props Fastpsd2_props Whiten_props Fit_model Fit_props WhitenMod_props Units_props.
Local Open Scope R_scope.

(** ** specification *)
(** the same tensor: same shape, same entries *)
Definition same_t {A} (a b : tensor A) : Prop := shape a = shape b /\ forall i, get a i = get b i.
(** doing [aug] before or after [op] gives the same *)
Definition commute (aug op : tensor R -> res (tensor R)) (X : tensor R) : Prop :=
  exists y r r1 r2, aug X = Ok y /\ op X = Ok r /\ op y = Ok r1 /\ aug r = Ok r2 /\ same_t r1 r2.
(** the result of [op] on a sum (X + S, entry by entry) is the sum of the results *)
Definition additive (op : tensor R -> res (tensor R)) (X S Y : tensor R) : Prop :=
  exists r s q, op X = Ok r /\ op S = Ok s /\ op Y = Ok q /\ shape q = shape r /\ shape s = shape r /\
    forall i, inb i (shape r) -> elt q i = elt r i + elt s i.
(** element b of the batch X and element b' of the batch Y (maybe of another size) are equal, entry by entry *)
Definition same_element (X Y : tensor R) (b b' : nat) : Prop := forall i, get X (b :: i) = get Y (b' :: i).
Definition batchwise (op : tensor R -> res (tensor R)) (X Y : tensor R) (b b' : nat) : Prop :=
  exists r q, op X = Ok r /\ op Y = Ok q /\ same_element r q b b'.
(** Y = X + S *)
Definition sum_of (X S Y : tensor R) : Prop := shape S = shape X /\ shape Y = shape X /\ forall i, inb i (shape X) -> elt Y i = elt X i + elt S i.

(** ** one series *)
Lemma rfft_rev n x k : (0 < n)%nat -> rfft n (fun t => x (n - 1 - t)%nat) k = Cmult (w n (Z.of_nat k)) (Cconj (rfft n x k)).
Proof.
  intros Hn. unfold rfft, dft. rewrite Cconj_Csum.
  assert (RV : forall m f, Csum m (fun t => f (m - 1 - t)%nat) = Csum m f).
  { clear. intros m f. induction m as [|m IH]; [reflexivity|].
    assert (A : Csum (S m) (fun t => f (S m - 1 - t)%nat) = Cplus (f m) (Csum m (fun t => f (m - 1 - t)%nat))).
    { clear IH. replace (S m) with (1 + m)%nat at 1 by lia. rewrite (Csum_app 1 m). cbn [Csum]. rewrite Cplus_0_l. f_equal; [f_equal; lia|].
      apply Csum_ext. intros i Hi. f_equal. lia. }
    rewrite A, IH. cbn [Csum]. apply Cplus_comm. }
  rewrite <- (RV n (fun t => Cconj _)). rewrite <- Csum_scal. apply Csum_ext. intros t Ht.
  rewrite Cconj_mult, Cconj_R, <- w_opp. rewrite Cmult_assoc, (Cmult_comm (w n (Z.of_nat k))), <- Cmult_assoc, <- w_plus. f_equal.
  rewrite <- (w_period n (- (Z.of_nat k * Z.of_nat t)) (Z.of_nat k) Hn). f_equal. nia.
Qed.
Lemma filtered_rev N sr H x t : (t < N)%nat -> filtered N sr H (fun u => x (N - 1 - u)%nat) t = filtered N sr H x (N - 1 - t)%nat.
Proof.
  intros Ht. unfold filtered. f_equal. rewrite (Rsum_rev N x). set (mu := Rsum N x / INR N). unfold irfft. f_equal. apply Rsum_ext. intros k Hk. f_equal.
  rewrite (rfft_rev N (fun u => x u - mu) k) by lia. set (Xk := rfft N (fun u => x u - mu) k).
  replace (w N (Z.of_nat k * Z.of_nat (N - 1 - t))) with (Cconj (w N (Z.of_nat k * Z.of_nat (t + 1)))).
  2:{ rewrite <- w_opp, <- (w_period N (- (Z.of_nat k * Z.of_nat (t + 1))) (Z.of_nat k)) by lia. f_equal. nia. }
  replace (w N (Z.of_nat k * Z.of_nat (t + 1))) with (Cmult (w N (Z.of_nat k)) (w N (Z.of_nat k * Z.of_nat t))) by (rewrite <- w_plus; f_equal; lia).
  destruct Xk as [a b], (w N (Z.of_nat k)) as [c d], (w N (Z.of_nat k * Z.of_nat t)) as [e f]. unfold Cmult, Cconj, RtoC, Re, Im. cbn. ring.
Qed.

(** ** operators that filter every series with a gain of its own *)
Definition filters (op : tensor R -> res (tensor R)) (sr : R) (B ch N off M : nat) (Hs : nat -> nat -> (nat -> R) -> Prop) : Prop :=
  (forall b c, (b < B)%nat -> (c < ch)%nat -> exists h, Hs b c h) /\
  forall X, shape X = [B; ch; N] -> exists r, op X = Ok r /\ shape r = [B; ch; M] /\
   forall b c h t, (b < B)%nat -> (c < ch)%nat -> (t < M)%nat -> Hs b c h -> elt r [b; c; t] = filtered N sr h (fun u => elt X [b; c; u]) (t + off).
(** the gains of [whiten] *)
Definition gain (N pad wl : nat) (W : nat -> R) (sr : R) (hp lp : option R) (P : nat -> R) (h : nat -> R) : Prop :=
  exists g, inv_amp (rbins N) sr hp lp P g /\ h = fun k => sqrt 2 * Cmod (response (rbins N) pad wl W g k).
Lemma gain_unique N pad wl W sr hp lp P h h' : (2 <= N)%nat -> gain N pad wl W sr hp lp P h -> gain N pad wl W sr hp lp P h' -> h = h'.
Proof.
  intros HN (g & G & ->) (g' & G' & ->). apply FunctionalExtensionality.functional_extensionality. intros k. do 2 f_equal. apply response_ext.
  - unfold rbins. pose proof (Nat.div_le_lower_bound N 2 1 ltac:(lia) ltac:(lia)). lia.
  - intros j Hj. eapply inv_amp_unique; eassumption.
Qed.
Lemma filters_of op sr B ch N off M pad wl W hp lp (P : nat -> nat -> nat -> R) : (2 <= N)%nat ->
  (forall X, shape X = [B; ch; N] -> exists r, op X = Ok r /\ shape r = [B; ch; M] /\
    forall b c, (b < B)%nat -> (c < ch)%nat -> exists g, inv_amp (rbins N) sr hp lp (P b c) g /\
     forall t, (t < M)%nat -> get r [b; c; t] = Some (filtered N sr (fun k => sqrt 2 * Cmod (response (rbins N) pad wl W g k)) (fun t => elt X [b; c; t]) (t + off))) ->
  filters op sr B ch N off M (fun b c => gain N pad wl W sr hp lp (P b c)).
Proof.
  intros HN K. split.
  - intros b c Hb Hc. destruct (K (mk [B; ch; N] (fun _ => 0)) eq_refl) as (r & _ & _ & G). destruct (G b c Hb Hc) as (g & I & _).
    eexists. exists g. split; [exact I|reflexivity].
  - intros X SX. destruct (K X SX) as (r & E & Sr & G). exists r. split; [exact E|]. split; [exact Sr|].
    intros b c h t Hb Hc Ht Hh. destruct (G b c Hb Hc) as (g & I & V). specialize (V t Ht). apply get_some in V as [_ ->].
    rewrite (gain_unique N pad wl W sr hp lp (P b c) h _ HN Hh (ex_intro _ g (conj I eq_refl))). reflexivity.
Qed.
Lemma same_t_of {A} (a b : tensor A) : shape a = shape b -> (forall i, inb i (shape a) -> elt a i = elt b i) -> same_t a b.
Proof.
  intros Sh V. split; [exact Sh|]. intros i. unfold get. rewrite <- Sh. destruct (inbb i (shape a)) eqn:H; [apply inbb_inb in H; rewrite V by exact H|]; reflexivity.
Qed.
Lemma filters_invert op sr B ch N off M Hs prob rand X : filters op sr B ch N off M Hs -> (0 < N)%nat -> shape X = [B; ch; N] -> commute (invert prob rand) op X.
Proof.
  intros [Hex F] HN SX. destruct (signal_inverter_spec prob rand X) as (y & Ey & Sy & Vy); [rewrite SX; discriminate|]. rewrite SX in Sy, Vy.
  destruct (F X SX) as (r & Er & Sr & Vr). destruct (F y Sy) as (r1 & E1 & S1 & V1).
  destruct (signal_inverter_spec prob rand r) as (r2 & E2 & S2 & V2); [rewrite Sr; discriminate|]. rewrite Sr in S2, V2.
  exists y, r, r1, r2. repeat (split; [assumption|]). apply same_t_of; [congruence|]. rewrite S1. intros i Hi.
  destruct i as [|b [|c [|t [|]]]]; cbn [inb] in Hi; try tauto. destruct Hi as (Hb & Hc & Ht & _). destruct (Hex b c Hb Hc) as [h Hh].
  rewrite (V1 b c h t Hb Hc Ht Hh). specialize (V2 [b; c; t] ltac:(cbn; tauto)). cbn [removelast] in V2.
  assert (Vy' : forall u, (u < N)%nat -> (rand [b; c] < prob -> elt y [b; c; u] = - elt X [b; c; u]) /\ (rand [b; c] >= prob -> elt y [b; c; u] = elt X [b; c; u])).
  { intros u Hu. apply (Vy [b; c; u]). cbn. tauto. }
  destruct (Rlt_dec (rand [b; c]) prob) as [L|L].
  - destruct V2 as [V2 _]. rewrite (V2 L), (Vr b c h t Hb Hc Ht Hh).
    rewrite (filtered_ext N sr h _ (fun u => -1 * elt X [b; c; u] + 0 * 0)) by (intros u Hu; destruct (Vy' u Hu) as [A _]; rewrite (A L); ring).
    rewrite (filtered_linear N sr h (-1) 0 (fun u => elt X [b; c; u]) (fun _ => 0)) by lia. ring.
  - apply Rnot_lt_ge in L. destruct V2 as [_ V2]. rewrite (V2 L), (Vr b c h t Hb Hc Ht Hh). apply filtered_ext. intros u Hu. destruct (Vy' u Hu) as [_ A]. apply (A L).
Qed.
Lemma filters_reverse op sr B ch N off M Hs prob rand X : filters op sr B ch N off M Hs -> M = (N - 2 * off)%nat -> shape X = [B; ch; N] -> commute (reverse prob rand) op X.
Proof.
  intros [Hex F] HM SX. destruct (signal_reverser_spec prob rand X) as (y & Ey & Sy & Vy); [rewrite SX; discriminate|]. rewrite SX in Sy, Vy. cbn [last] in Vy.
  destruct (F X SX) as (r & Er & Sr & Vr). destruct (F y Sy) as (r1 & E1 & S1 & V1).
  destruct (signal_reverser_spec prob rand r) as (r2 & E2 & S2 & V2); [rewrite Sr; discriminate|]. rewrite Sr in S2, V2. cbn [last] in V2.
  exists y, r, r1, r2. repeat (split; [assumption|]). apply same_t_of; [congruence|]. rewrite S1. intros i Hi.
  destruct i as [|b [|c [|t [|]]]]; cbn [inb] in Hi; try tauto. destruct Hi as (Hb & Hc & Ht & _). destruct (Hex b c Hb Hc) as [h Hh].
  rewrite (V1 b c h t Hb Hc Ht Hh). specialize (V2 [b; c] t ltac:(cbn; tauto)). cbn [app] in V2.
  assert (Vy' : forall u, (u < N)%nat -> (rand [b; c] < prob -> elt y [b; c; u] = elt X [b; c; (N - 1 - u)%nat]) /\ (rand [b; c] >= prob -> elt y [b; c; u] = elt X [b; c; u])).
  { intros u Hu. apply (Vy [b; c] u). cbn. tauto. }
  destruct (Rlt_dec (rand [b; c]) prob) as [L|L].
  - destruct V2 as [V2 _]. rewrite (V2 L), (Vr b c h (M - 1 - t)%nat Hb Hc ltac:(lia) Hh).
    rewrite (filtered_ext N sr h _ (fun u => elt X [b; c; (N - 1 - u)%nat])) by (intros u Hu; destruct (Vy' u Hu) as [A _]; apply (A L)).
    rewrite (filtered_rev N sr h (fun u => elt X [b; c; u])) by lia. f_equal. lia.
  - apply Rnot_lt_ge in L. destruct V2 as [_ V2]. rewrite (V2 L), (Vr b c h t Hb Hc Ht Hh). apply filtered_ext. intros u Hu. destruct (Vy' u Hu) as [_ A]. apply (A L).
Qed.
Lemma filters_additive op sr B ch N off M Hs X S Y : filters op sr B ch N off M Hs -> (0 < N)%nat -> shape X = [B; ch; N] -> sum_of X S Y -> additive op X S Y.
Proof.
  intros [Hex F] HN SX (SS & SY & V). rewrite SX in SS, SY, V.
  destruct (F X SX) as (r & Er & Sr & Vr). destruct (F S SS) as (s & Es & Ss & Vs). destruct (F Y SY) as (q & Eq & Sq & Vq).
  exists r, s, q. repeat (split; [assumption|]). rewrite Sr, Ss, Sq. repeat (split; [reflexivity|]). intros i Hi.
  destruct i as [|b [|c [|t [|]]]]; cbn [inb] in Hi; try tauto. destruct Hi as (Hb & Hc & Ht & _). destruct (Hex b c Hb Hc) as [h Hh].
  rewrite (Vr b c h t Hb Hc Ht Hh), (Vs b c h t Hb Hc Ht Hh), (Vq b c h t Hb Hc Ht Hh).
  rewrite (filtered_ext N sr h _ (fun u => 1 * elt X [b; c; u] + 1 * elt S [b; c; u])) by (intros u Hu; rewrite V by (cbn; tauto); ring).
  rewrite (filtered_linear N sr h 1 1 (fun u => elt X [b; c; u]) (fun u => elt S [b; c; u])) by lia. ring.
Qed.
Lemma filters_batch op sr B B' ch N off M Hs Hs' X Y b b' : filters op sr B ch N off M Hs -> filters op sr B' ch N off M Hs' ->
  shape X = [B; ch; N] -> shape Y = [B'; ch; N] -> (b < B)%nat -> (b' < B')%nat -> (forall c h, Hs b c h -> Hs' b' c h) -> same_element X Y b b' -> batchwise op X Y b b'.
Proof.
  intros [Hex F] [_ F'] SX SY Hb Hb' HH V. destruct (F X SX) as (r & Er & Sr & Vr). destruct (F' Y SY) as (q & Eq & Sq & Vq).
  exists r, q. split; [exact Er|]. split; [exact Eq|]. intros i. unfold get. rewrite Sr, Sq.
  assert (EQ : inbb (b :: i) [B; ch; M] = inbb (b' :: i) [B'; ch; M]).
  { apply eq_iff_eq_true. rewrite !inbb_inb. cbn [inb]. tauto. }
  rewrite <- EQ. destruct (inbb (b :: i) [B; ch; M]) eqn:H; [|reflexivity]. apply inbb_inb in H. clear EQ.
  destruct i as [|c [|t [|]]]; cbn [inb] in H; try tauto. destruct H as (_ & Hc & Ht & _). destruct (Hex b c Hb Hc) as [h Hh]. f_equal.
  rewrite (Vr b c h t Hb Hc Ht Hh), (Vq b' c h t Hb' Hc Ht (HH c h Hh)). apply filtered_ext. intros u Hu.
  specialize (V [c; u]). rewrite !get_inb in V by (rewrite ?SX, ?SY; cbn; tauto). injection V as V. exact V.
Qed.

(** ** the whitening operators *)
(** what is claimed of an operator on kernels of shape (B, ch, N): it commutes with SignalInverter and SignalReverser (with the
    same draws), whitening strain + signal is whitening both and adding, and the elements of a batch do not influence each other *)
Definition well_behaved (op : tensor R -> res (tensor R)) (B ch N : nat) : Prop :=
  (forall prob rand X, shape X = [B; ch; N] -> commute (invert prob rand) op X /\ commute (reverse prob rand) op X) /\
  (forall X S Y, shape X = [B; ch; N] -> sum_of X S Y -> additive op X S Y) /\
  (forall X Y b, shape X = [B; ch; N] -> shape Y = [B; ch; N] -> (b < B)%nat -> same_element X Y b b -> batchwise op X Y b b).
Lemma filters_well_behaved op sr B ch N off M Hs : filters op sr B ch N off M Hs -> (0 < N)%nat -> M = (N - 2 * off)%nat -> well_behaved op B ch N.
Proof.
  intros F HN HM. split; [|split].
  - intros prob rand X SX. split; [eapply filters_invert; eassumption|eapply filters_reverse; eassumption].
  - intros X S Y SX HS. eapply filters_additive; eassumption.
  - intros X Y b SX SY Hb HE. eapply (filters_batch op sr B B); try eassumption. trivial.
Qed.
Lemma crop_len (crop : bool) N pad : (if crop then N - 2 * pad else N)%nat = (N - 2 * (if crop then pad else 0))%nat.
Proof. destruct crop; lia. Qed.
Lemma whiten_filters fmax psd B ch N fd sr pad wl W hp lp (crop : bool) :
  psd_ok psd B ch -> 0 < sr -> fd_ok fd sr pad wl W -> (1 <= pad)%nat -> (2 * pad < N)%nat -> freq_ok hp -> freq_ok lp ->
  filters (fun X => whiten fmax X psd fd sr hp lp crop) sr B ch N (if crop then pad else 0) (if crop then N - 2 * pad else N)
    (fun b c => gain N pad wl W sr hp lp (eff_psd psd (rbins N) b c)).
Proof. intros HP Hsr Hfd Hpad HN Hh Hl. apply filters_of; [lia|]. intros X SX. apply whiten_spec; assumption. Qed.
Lemma whiten_module_filters fmax fdur sr hp lp psd (crop : bool) B ch N size :
  psd_ok psd B ch -> 0 < sr -> INR size <= fdur * sr < INR size + 1 -> (2 <= size)%nat -> (2 * (size / 2) < N)%nat -> freq_ok hp -> freq_ok lp ->
  filters (fun X => whiten_module fmax fdur sr hp lp X psd crop) sr B ch N (if crop then size / 2 else 0) (if crop then N - 2 * (size / 2) else N)
    (fun b c => gain N (size / 2) size (hann size) sr hp lp (eff_psd psd (rbins N) b c)).
Proof.
  intros HP Hsr Hs H2 HN Hh Hl. assert (P2 : (1 <= size / 2)%nat) by (apply Nat.div_le_lower_bound; lia).
  apply filters_of; [lia|]. intros X SX. apply whiten_module_spec; assumption.
Qed.
(** the PSD broadcasts over the batch: it has no batch axis *)
Lemma eff_psd_batch psd F b b' c k : (ndim psd <= 2)%nat -> eff_psd psd F b c k = eff_psd psd F b' c k.
Proof.
  intros H. unfold eff_psd, pad_ndim3. destruct psd as [s d]. unfold ndim in *. cbn [shape] in *.
  destruct s as [|n0 [|n1 [|n2 l]]]; cbn [List.length] in *; [reflexivity|reflexivity| |lia]. cbn [shape unsqueeze0]. reflexivity.
Qed.
Lemma gain_ext N pad wl W sr hp lp P P' h : (forall k, P k = P' k) -> gain N pad wl W sr hp lp P h -> gain N pad wl W sr hp lp P' h.
Proof. intros E (g & G & ->). exists g. split; [|reflexivity]. intros k Hk. rewrite <- E. apply G, Hk. Qed.

Theorem augment_whiten fmax psd B ch N fd sr pad wl W hp lp (crop : bool) :
  psd_ok psd B ch -> 0 < sr -> fd_ok fd sr pad wl W -> (1 <= pad)%nat -> (2 * pad < N)%nat -> freq_ok hp -> freq_ok lp ->
  well_behaved (fun X => whiten fmax X psd fd sr hp lp crop) B ch N /\
  (forall X Y B' b b', (ndim psd <= 2)%nat -> psd_ok psd B' ch -> shape X = [B; ch; N] -> shape Y = [B'; ch; N] -> (b < B)%nat -> (b' < B')%nat ->
     same_element X Y b b' -> batchwise (fun X => whiten fmax X psd fd sr hp lp crop) X Y b b').
Proof.
  intros HP Hsr Hfd Hpad HN Hh Hl. assert (F := whiten_filters fmax psd B ch N fd sr pad wl W hp lp crop HP Hsr Hfd Hpad HN Hh Hl). split.
  - eapply filters_well_behaved; [exact F|lia|apply crop_len].
  - intros X Y B' b b' Hd HP' SX SY Hb Hb' HE. eapply filters_batch; [exact F|apply whiten_filters; eassumption|eassumption|eassumption|eassumption|eassumption| |eassumption].
    intros c h. apply gain_ext. intros k. apply eff_psd_batch, Hd.
Qed.
Theorem augment_whiten_module fmax fdur sr hp lp psd (crop : bool) B ch N size :
  psd_ok psd B ch -> 0 < sr -> INR size <= fdur * sr < INR size + 1 -> (2 <= size)%nat -> (2 * (size / 2) < N)%nat -> freq_ok hp -> freq_ok lp ->
  well_behaved (fun X => whiten_module fmax fdur sr hp lp X psd crop) B ch N /\
  (forall X Y B' b b', (ndim psd <= 2)%nat -> psd_ok psd B' ch -> shape X = [B; ch; N] -> shape Y = [B'; ch; N] -> (b < B)%nat -> (b' < B')%nat ->
     same_element X Y b b' -> batchwise (fun X => whiten_module fmax fdur sr hp lp X psd crop) X Y b b').
Proof.
  intros HP Hsr Hs H2 HN Hh Hl. assert (F := whiten_module_filters fmax fdur sr hp lp psd crop B ch N size HP Hsr Hs H2 HN Hh Hl). split.
  - eapply filters_well_behaved; [exact F|lia|apply crop_len].
  - intros X Y B' b b' Hd HP' SX SY Hb Hb' HE. eapply filters_batch; [exact F|apply whiten_module_filters; eassumption|eassumption|eassumption|eassumption|eassumption| |eassumption].
    intros c h. apply gain_ext. intros k. apply eff_psd_batch, Hd.
Qed.
(** FixedWhiten: once fitted, kernels of any batch size *)
Theorem augment_fixed_whiten fmax f32 m ch N fdur bgs fl hp lp ov pad pad' P (crop : bool) : fw_for m ch N -> (0 < ch)%nat -> 0 < fw_sr m ->
  List.length bgs = ch -> fw_psds m N bgs fl ov P -> INR pad <= fdur * fw_sr m / 2 < INR pad + 1 -> (1 <= pad)%nat -> (2 * pad < N)%nat ->
  INR pad' <= f32 fdur * fw_sr m / 2 < INR pad' + 1 -> (1 <= pad')%nat -> (2 * pad' < N)%nat -> freq_ok hp -> freq_ok lp ->
  exists m', fw_fit f32 m fdur bgs fl hp lp ov = (m', Ok tt) /\
   (forall B, well_behaved (fun X => fw_forward fmax m' X crop) B ch N) /\
   (forall X Y B B' b b', shape X = [B; ch; N] -> shape Y = [B'; ch; N] -> (b < B)%nat -> (b' < B')%nat ->
     same_element X Y b b' -> batchwise (fun X => fw_forward fmax m' X crop) X Y b b').
Proof.
  intros Hm Hch Hsr L HP Hpad H1 H2 Hpad' H1' H2' Hh Hl.
  assert (K : forall X B, shape X = [B; ch; N] -> _) by (intros X B SX; exact (fixed_whiten_spec fmax f32 m ch N fdur bgs fl hp lp ov pad pad' P X B crop Hm Hch Hsr L HP Hpad H1 H2 Hpad' H1' H2' Hh Hl SX)).
  destruct (K (mk [0; ch; N]%nat (fun _ => 0)) 0%nat eq_refl) as (m' & _ & Em & _). exists m'. split; [exact Em|].
  assert (F : forall B, filters (fun X => fw_forward fmax m' X crop) (fw_sr m) B ch N (if crop then pad' else 0) (if crop then N - 2 * pad' else N)
    (fun _ c => gain N pad (2 * pad) (hann (2 * pad)) (fw_sr m) hp lp (P c))).
  { intros B. apply (filters_of _ (fw_sr m) B ch N _ _ pad (2 * pad) (hann (2 * pad)) hp lp (fun _ c => P c)); [lia|]. intros X SX.
    destruct (K X B SX) as (m2 & r & E2 & _ & Er & Sr & G). rewrite Em in E2. injection E2 as <-. exists r. split; [exact Er|]. split; [exact Sr|]. exact G. }
  split.
  - intros B. eapply filters_well_behaved; [apply F|lia|apply crop_len].
  - intros X Y B B' b b' SX SY Hb Hb' HE. eapply filters_batch; [apply F|apply F|eassumption|eassumption|eassumption|eassumption| |eassumption]. trivial.
Qed.

(** ** one series and its augmented version *)
Definition aug_row (N : nat) (x y : nat -> R) : Prop :=
  (forall t, (t < N)%nat -> y t = x t) \/ (forall t, (t < N)%nat -> y t = - x t) \/ (forall t, (t < N)%nat -> y t = x (N - 1 - t)%nat).
Lemma rfft_rev_mod n x k : (0 < n)%nat -> Cmod (rfft n (fun t => x (n - 1 - t)%nat) k) = Cmod (rfft n x k).
Proof. intros Hn. rewrite rfft_rev by assumption. rewrite Cmod_mult, w_mod, Cmod_conj. ring. Qed.
Lemma rfft_neg_mod n x k : Cmod (rfft n (fun t => - x t) k) = Cmod (rfft n x k).
Proof.
  rewrite (rfft_ext n _ (fun t => -1 * x t)) by (intros; ring). rewrite rfft_scal, Cmod_mult, Cmod_R, Rabs_left by lra. ring.
Qed.
Lemma aug_row_mod N x y k : (0 < N)%nat -> aug_row N x y -> Cmod (rfft N y k) = Cmod (rfft N x k).
Proof.
  intros HN [E|[E|E]]; rewrite (rfft_ext _ _ _ k E); [reflexivity|apply rfft_neg_mod|apply rfft_rev_mod; assumption].
Qed.
(** the augmentations act on rows *)
Definition augments (aug : tensor R -> res (tensor R)) : Prop := exists prob rand, aug = invert prob rand \/ aug = reverse prob rand.
Lemma augments_rows aug (X : tensor R) batch N : augments aug -> shape X = batch ++ [N] -> exists Y, aug X = Ok Y /\ shape Y = batch ++ [N] /\
  forall pre, inb pre batch -> aug_row N (fun t => elt X (pre ++ [t])) (fun t => elt Y (pre ++ [t])).
Proof.
  intros (prob & rand & H) SX. assert (NE : shape X <> []) by (rewrite SX; destruct batch; discriminate). destruct H as [-> | ->].
  - destruct (signal_inverter_spec prob rand X NE) as (y & Ey & Sy & Vy). rewrite SX in Sy, Vy. exists y. split; [exact Ey|]. split; [exact Sy|]. intros pre Hp.
    assert (V : forall t, (t < N)%nat -> (rand pre < prob -> elt y (pre ++ [t]) = - elt X (pre ++ [t])) /\ (rand pre >= prob -> elt y (pre ++ [t]) = elt X (pre ++ [t]))).
    { intros t Ht. specialize (Vy (pre ++ [t])). rewrite removelast_last in Vy. apply Vy. apply inb_app; [assumption|cbn; tauto]. }
    destruct (Rlt_dec (rand pre) prob) as [L|L]; [right; left|left; apply Rnot_lt_ge in L]; intros t Ht; apply (V t Ht), L.
  - destruct (signal_reverser_spec prob rand X NE) as (y & Ey & Sy & Vy). rewrite SX in Sy, Vy. rewrite last_last in Vy. exists y. split; [exact Ey|]. split; [exact Sy|]. intros pre Hp.
    assert (V : forall t, (t < N)%nat -> (rand pre < prob -> elt y (pre ++ [t]) = elt X (pre ++ [N - 1 - t]%nat)) /\ (rand pre >= prob -> elt y (pre ++ [t]) = elt X (pre ++ [t]))).
    { intros t Ht. apply (Vy pre t). apply inb_app; [assumption|cbn; tauto]. }
    destruct (Rlt_dec (rand pre) prob) as [L|L]; [right; right|left; apply Rnot_lt_ge in L]; intros t Ht; apply (V t Ht), L.
Qed.

(** ** SNRs *)
Theorem augment_snr aug responses psd sr hp lp B ni n : augments aug ->
  shape responses = [B; ni; n] -> (0 < n)%nat -> 0 < sr -> psd_ok psd B ni -> cut_ok hp (rbins n) -> cut_ok lp (rbins n) ->
  exists y r r' s s', aug responses = Ok y /\ compute_ifo_snr responses psd sr hp lp = Ok r /\ compute_ifo_snr y psd sr hp lp = Ok r' /\ same_t r' r /\
    compute_network_snr responses psd sr hp lp = Ok s /\ compute_network_snr y psd sr hp lp = Ok s' /\ same_t s' s.
Proof.
  intros HA Sr Hn Hsr HP Hh Hl.
  destruct (augments_rows aug responses [B; ni] n HA Sr) as (y & Ey & Sy & V). cbn [app] in Sy.
  destruct (ifo_snr_spec responses psd sr hp lp B ni n Sr Hn Hsr HP Hh Hl) as (r & E & S1 & G).
  destruct (ifo_snr_spec y psd sr hp lp B ni n Sy Hn Hsr HP Hh Hl) as (r' & E' & S2 & G').
  destruct (network_snr_spec responses psd sr hp lp B ni n Sr Hn Hsr HP Hh Hl) as (s & q & F & Fq & T1 & _ & L).
  destruct (network_snr_spec y psd sr hp lp B ni n Sy Hn Hsr HP Hh Hl) as (s' & q' & F' & Fq' & T2 & _ & L').
  rewrite E in Fq. injection Fq as <-. rewrite E' in Fq'. injection Fq' as <-.
  assert (Q : forall b i, (b < B)%nat -> (i < ni)%nat -> elt r' [b; i] = elt r [b; i]).
  { intros b i Hb Hi. specialize (G b i Hb Hi). specialize (G' b i Hb Hi). apply get_some in G as [_ ->]. apply get_some in G' as [_ ->].
    f_equal. apply snr_sq_ext. intros k Hk. split; [reflexivity|]. intros _. split; [reflexivity|]. apply (aug_row_mod n _ _ k Hn). apply (V [b; i]). cbn. tauto. }
  exists y, r, r', s, s'. split; [exact Ey|]. split; [exact E|]. split; [exact E'|]. split; [|split; [exact F|]; split; [exact F'|]].
  - apply same_t_of; [congruence|]. rewrite S2. intros i Hi. destruct i as [|b [|j [|]]]; cbn [inb] in Hi; try tauto. apply Q; tauto.
  - apply same_t_of; [congruence|]. rewrite T2. intros i Hi. destruct i as [|b [|]]; cbn [inb] in Hi; try tauto.
    assert (A := L b ltac:(tauto)). assert (A' := L' b ltac:(tauto)). apply get_some in A as [_ ->]. apply get_some in A' as [_ ->].
    f_equal. apply Rsum_ext. intros j Hj. rewrite Q by tauto. reflexivity.
Qed.

(** ** spectral densities *)
Lemma rev_map_seq {A} (f : nat -> A) n : Permutation (map (fun s => f (n - 1 - s)%nat) (seq 0 n)) (map f (seq 0 n)).
Proof.
  assert (E : map (fun s => f (n - 1 - s)%nat) (seq 0 n) = rev (map f (seq 0 n))); [|rewrite E; symmetry; apply Permutation_rev].
  apply nth_ext with (d := f 0%nat) (d' := f 0%nat).
  - rewrite rev_length, !map_length. reflexivity.
  - rewrite map_length, seq_length. intros i Hi. rewrite rev_nth by (rewrite map_length, seq_length; assumption). rewrite map_length, seq_length.
    rewrite (nth_indep _ (f 0%nat) ((fun s => f (n - 1 - s)%nat) 0%nat)) by (rewrite map_length, seq_length; assumption).
    rewrite (map_nth (fun s => f (n - 1 - s)%nat)), (map_nth f), !seq_nth by lia. f_equal. lia.
Qed.
Lemma rev_segment n w x off T f mu mu' : (0 < n)%nat -> (off + n <= T)%nat -> (forall t, (t < n)%nat -> w t = w (n - 1 - t)%nat) -> mu' = mu ->
  Cmod (rfft n (fun t => w t * (x (T - 1 - (off + t))%nat - mu')) f) = Cmod (rfft n (fun t => w t * (x (T - n - off + t)%nat - mu)) f).
Proof.
  intros Hn Ho Hw ->. rewrite <- (rfft_rev_mod n (fun t => w t * (x (T - n - off + t)%nat - mu))) by assumption. f_equal. apply rfft_ext. intros t Ht.
  rewrite <- Hw by assumption. do 3 f_equal. lia.
Qed.
Lemma nseg_rev T n stride s : (0 < stride)%nat -> (0 < n <= T)%nat -> ((T - n) mod stride = 0)%nat -> (s < nseg T n stride)%nat ->
  (T - n - s * stride = (nseg T n stride - 1 - s) * stride)%nat.
Proof.
  intros Hs Hn Hd H. unfold nseg in *. assert (D := Nat.div_mod (T - n) stride ltac:(lia)). rewrite Hd in D.
  replace ((T - n) / stride + 1 - 1 - s)%nat with ((T - n) / stride - s)%nat by lia. rewrite Nat.mul_sub_distr_r. nia.
Qed.
Lemma welch_rev avg n stride T w scale x f : (0 < stride)%nat -> (0 < n <= T)%nat -> ((T - n) mod stride = 0)%nat -> (forall t, (t < n)%nat -> w t = w (n - 1 - t)%nat) ->
  welch (aggregate avg) n stride T w scale (fun t => x (T - 1 - t)%nat) f = welch (aggregate avg) n stride T w scale x f.
Proof.
  intros Hs Hn Hd Hw. unfold welch. etransitivity; [|apply aggregate_perm, rev_map_seq]. apply aggregate_ext. intros s H. f_equal. f_equal.
  assert (A := nseg_inside T n stride s Hs Hn H). rewrite <- (nseg_rev T n stride s Hs Hn Hd H). unfold seg_power. f_equal.
  apply rev_segment; try assumption; try lia. unfold seg_mean. f_equal. rewrite <- (Rsum_rev n (fun t => x (T - n - s * stride + t)%nat)). apply Rsum_ext. intros t Ht. f_equal. lia.
Qed.
Lemma fast_rev avg n stride T w scale x f : (0 < stride)%nat -> (0 < n <= T)%nat -> ((T - n) mod stride = 0)%nat -> (forall t, (t < n)%nat -> w t = w (n - 1 - t)%nat) ->
  fast_csd (aggregate avg) n stride T w scale (fun t => x (T - 1 - t)%nat) (fun t => x (T - 1 - t)%nat) f = fast_csd (aggregate avg) n stride T w scale x x f.
Proof.
  intros Hs Hn Hd Hw. rewrite !fast_csd_self. f_equal. etransitivity; [|apply aggregate_perm, rev_map_seq]. apply aggregate_ext. intros s H. f_equal. f_equal.
  assert (A := nseg_inside T n stride s Hs Hn H). rewrite <- (nseg_rev T n stride s Hs Hn Hd H). unfold fast_seg.
  apply rev_segment; try assumption; try lia. f_equal. apply (Rsum_rev T x).
Qed.
(** the density of the augmented strain is that of the strain: always for inversion; for reversal when the window is symmetric and
    the segments reach the end of the series *)
Theorem augment_psd aug sr fl ov avg window fast m x batch T n v stride w : INR n <= fl * sr < INR n + 1 ->
  sd_create sr fl ov avg window fast = Ok m ->
  v = match ov with Some o => o | None => fl / 2 end ->
  w = match window with Some w => fun t => elt w [t] | None => hann_window n end -> match window with Some w => shape w = [n] | None => True end ->
  stride = Z.to_nat (Z.of_nat n - rtrunc (v * sr)) -> (0 < stride)%nat ->
  shape x = batch ++ [T] -> (List.length batch <= 2)%nat -> List.Forall (fun b => (0 < b)%nat) batch -> (0 < n <= T)%nat ->
  (exists prob rand, aug = invert prob rand \/
     aug = reverse prob rand /\ (forall t, (t < n)%nat -> w t = w (n - 1 - t)%nat) /\ ((T - n) mod stride = 0)%nat) ->
  exists y r r', aug x = Ok y /\ sd_forward m x None = Ok r /\ sd_forward m y None = Ok r' /\ same_t r' r.
Proof.
  intros Hn Em Hv Hw Sw Hst Hs Sx Hl Hb HT HA.
  assert (AUG : augments aug) by (destruct HA as (p & rd & [H|[H _]]); exists p, rd; tauto).
  destruct (augments_rows aug x batch T AUG Sx) as (y & Ey & Sy & V).
  assert (V' : forall pre, inb pre batch -> (forall t, (t < T)%nat -> elt y (pre ++ [t]) = elt x (pre ++ [t])) \/ (forall t, (t < T)%nat -> elt y (pre ++ [t]) = -1 * elt x (pre ++ [t]) + 0) \/
     (forall t, (t < T)%nat -> elt y (pre ++ [t]) = elt x (pre ++ [T - 1 - t]%nat)) /\ (forall t, (t < n)%nat -> w t = w (n - 1 - t)%nat) /\ ((T - n) mod stride = 0)%nat).
  { intros pre Hp. destruct HA as (p & rd & [H|[_ H]]).
    - assert (NE : shape x <> []) by (rewrite Sx; destruct batch; discriminate).
      destruct (signal_inverter_spec p rd x NE) as (y2 & Ey2 & _ & Vy). rewrite H in Ey. rewrite Ey in Ey2. injection Ey2 as <-. rewrite Sx in Vy.
      assert (VV : forall t, (t < T)%nat -> (rd pre < p -> elt y (pre ++ [t]) = - elt x (pre ++ [t])) /\ (rd pre >= p -> elt y (pre ++ [t]) = elt x (pre ++ [t]))).
      { intros t Ht. specialize (Vy (pre ++ [t])). rewrite removelast_last in Vy. apply Vy. apply inb_app; [assumption|cbn; tauto]. }
      destruct (Rlt_dec (rd pre) p) as [L|L]; [right; left|left; apply Rnot_lt_ge in L]; intros t Ht; destruct (VV t Ht) as [A A']; [rewrite (A L); ring|apply (A' L)].
    - destruct (V pre Hp) as [A|[A|A]]; [left; exact A|right; left|right; right; split; [exact A|exact H]]. intros t Ht. rewrite A by assumption. ring. }
  set (sc := 1 / (sr * Rsum n (fun t => w t ^ 2))).
  assert (K : exists r r', sd_forward m x None = Ok r /\ sd_forward m y None = Ok r' /\ shape r = batch ++ [rbins n] /\ shape r' = batch ++ [rbins n] /\
     (forall pre f, inb pre batch -> (f < rbins n)%nat -> elt r' (pre ++ [f]) = elt r (pre ++ [f]))).
  { destruct fast.
    - destruct (spectral_density_module_fast sr fl ov avg window m x None batch T n v stride w Hn Em Hv Hw Sw Hst Hs Sx Hl Hb HT I) as (r & E & Sr & G).
      destruct (spectral_density_module_fast sr fl ov avg window m y None batch T n v stride w Hn Em Hv Hw Sw Hst Hs Sy Hl Hb HT I) as (r' & E' & Sr' & G').
      exists r, r'. repeat (split; [assumption|]). intros pre f Hp Hf. specialize (G pre f Hp Hf). specialize (G' pre f Hp Hf).
      apply get_some in G as [_ ->]. apply get_some in G' as [_ ->]. fold sc. destruct (V' pre Hp) as [A|[A|(A & S1 & S2)]].
      + apply fast_csd_ext; assumption.
      + rewrite (fast_csd_ext avg n stride T w sc (fun t => -1 * elt x (pre ++ [t]) + 0) _ (fun t => -1 * elt x (pre ++ [t]) + 0) _ f Hs HT) by assumption.
        rewrite fast_csd_affine by lia. replace (-1 * -1) with 1 by ring. apply Cmult_1_l.
      + rewrite (fast_csd_ext avg n stride T w sc (fun t => elt x (pre ++ [T - 1 - t]%nat)) _ (fun t => elt x (pre ++ [T - 1 - t]%nat)) _ f Hs HT) by assumption.
        apply (fast_rev avg n stride T w sc (fun t => elt x (pre ++ [t]))); assumption.
    - destruct (spectral_density_module sr fl ov avg window m x batch T n v stride w Hn Em Hv Hw Sw Hst Hs Sx Hl Hb HT) as [(r & E & Sr & G) _].
      destruct (spectral_density_module sr fl ov avg window m y batch T n v stride w Hn Em Hv Hw Sw Hst Hs Sy Hl Hb HT) as [(r' & E' & Sr' & G') _].
      exists r, r'. repeat (split; [assumption|]). intros pre f Hp Hf. specialize (G pre f Hp Hf). specialize (G' pre f Hp Hf).
      apply get_some in G as [_ ->]. apply get_some in G' as [_ ->]. fold sc. f_equal. destruct (V' pre Hp) as [A|[A|(A & S1 & S2)]].
      + apply welch_ext; assumption.
      + rewrite <- (Rmult_1_l (welch _ _ _ _ _ _ (fun t => elt x (pre ++ [t])) _)). replace 1 with ((-1) ^ 2) by ring.
        rewrite <- (welch_affine avg n stride T w sc (-1) 0) by lia. apply welch_ext; assumption.
      + rewrite (welch_ext avg n stride T w sc _ (fun t => elt x (pre ++ [T - 1 - t]%nat))) by assumption.
        apply (welch_rev avg n stride T w sc (fun t => elt x (pre ++ [t]))); assumption. }
  destruct K as (r & r' & E & E' & Sr & Sr' & G). exists y, r, r'. repeat (split; [assumption|]). apply same_t_of; [congruence|]. rewrite Sr'. intros i Hi.
  assert (Li : i <> []). { intros ->. apply inb_length in Hi. rewrite app_length in Hi. cbn in Hi. lia. }
  assert (L := inb_length _ _ Hi). rewrite (app_removelast_last 0%nat Li) in Hi, L |- *. set (pre := removelast i) in *. set (f := last i 0%nat) in *. clearbody pre f.
  rewrite !app_length in L. cbn [List.length] in L. apply inb_app_inv in Hi as [Hp Hf]; [|lia]. cbn in Hf. apply proj1 in Hf. apply G; assumption.
Qed.

(** with the default window the density of a reversed strain is another one: torch's Hann window is not symmetric *)
Definition delta4 : tensor R := mk [1; 4]%nat (fun i => if (last i 0 =? 0)%nat then 1 else 0).
Definition never_less (_ : list nat) : R := 0.
Lemma hann4 : hann_window 4 0 = 0 /\ hann_window 4 1 = / 2 /\ hann_window 4 2 = 1 /\ hann_window 4 3 = / 2.
Proof.
  unfold hann_window, hann. cbn [Nat.eqb INR].
  replace (2 * PI * 0 / (1 + 1 + 1 + 1)) with 0 by field. replace (2 * PI * 1 / (1 + 1 + 1 + 1)) with (PI / 2) by field.
  replace (2 * PI * (1 + 1) / (1 + 1 + 1 + 1)) with PI by field. replace (2 * PI * (1 + 1 + 1) / (1 + 1 + 1 + 1)) with (3 * (PI / 2)) by field.
  rewrite cos_0, cos_PI2, cos_PI, cos_3PI2. repeat split; field.
Qed.
Lemma dc_power x : welch (aggregate "mean") 4 2 4 (hann_window 4) (1 / (4 * Rsum 4 (fun t => hann_window 4 t ^ 2))) x 0 =
  (Rsum 4 (fun t => hann_window 4 t * (x t - (x 0%nat + x 1%nat + x 2%nat + x 3%nat) / 4))) ^ 2 / 6.
Proof.
  destruct hann4 as (W0 & W1 & W2 & W3). unfold welch. change (nseg 4 4 2) with 1%nat. unfold aggregate. destruct (string_dec "mean" "mean") as [_|N]; [|congruence].
  unfold mean. cbn [Rsum Nat.mul]. unfold onesided. cbn [Nat.eqb]. rewrite W0, W1, W2, W3. unfold seg_power.
  assert (E : rfft 4 (fun t => hann_window 4 t * (x (0 + t)%nat - seg_mean 4 x 0)) 0 = RtoC (Rsum 4 (fun t => hann_window 4 t * (x t - (x 0%nat + x 1%nat + x 2%nat + x 3%nat) / 4)))).
  { unfold rfft, dft, seg_mean. cbn [Csum Rsum Nat.add INR]. change (Z.of_nat 0) with 0%Z. rewrite !Z.mul_0_l. change (- 0)%Z with 0%Z. rewrite !w_0. rewrite !Cmult_1_r. rewrite !RtoC_plus.
    replace ((0 + x 0%nat + x 1%nat + x 2%nat + x 3%nat) / (1 + 1 + 1 + 1)) with ((x 0%nat + x 1%nat + x 2%nat + x 3%nat) / 4) by field. reflexivity. }
  rewrite E, Cmod_R, pow2_abs. cbn [Rsum INR]. rewrite W0, W1, W2, W3. field.
Qed.
Theorem reversal_psd_refuted : exists m y r r', sd_create 4 1 None "mean" None false = Ok m /\ reverse 1 never_less delta4 = Ok y /\
  sd_forward m delta4 None = Ok r /\ sd_forward m y None = Ok r' /\ elt r [0; 0]%nat = RtoC (1 / 24) /\ elt r' [0; 0]%nat = RtoC 0.
Proof.
  destruct (spectral_density_create 4 1 None "mean" None false 4) as [[_ K] _]; [cbn; lra|discriminate|].
  destruct K as [m Em]; [split; [discriminate|]; split; [discriminate|left; reflexivity]|]. exists m.
  destruct (signal_reverser_spec 1 never_less delta4) as (y & Ey & Sy & Vy); [discriminate|]. exists y.
  assert (ST : rtrunc (1 / 2 * 4) = 2%Z) by (apply (rtrunc_nonneg _ 2); cbn; lra).
  destruct (spectral_density_module 4 1 None "mean" None m delta4 [1]%nat 4 4 (1 / 2) 2 (hann_window 4)) as [(r & Er & Sr & G) _];
    try exact I; try reflexivity; try assumption; try (cbn; lra); try (cbn; lia); [repeat constructor|].
  destruct (spectral_density_module 4 1 None "mean" None m y [1]%nat 4 4 (1 / 2) 2 (hann_window 4)) as [(r' & Er' & Sr' & G') _];
    try exact I; try reflexivity; try assumption; try (cbn; lra); try (cbn; lia); [repeat constructor|].
  exists r, r'. repeat (split; [assumption|]).
  specialize (G [0]%nat 0%nat ltac:(cbn; lia) ltac:(vm_compute; lia)). specialize (G' [0]%nat 0%nat ltac:(cbn; lia) ltac:(vm_compute; lia)). cbn [app] in G, G'.
  apply get_some in G as [_ ->]. apply get_some in G' as [_ ->]. rewrite !dc_power. destruct hann4 as (W0 & W1 & W2 & W3).
  assert (V : forall t, (t < 4)%nat -> elt y [0; t]%nat = elt delta4 [0; 3 - t]%nat).
  { intros t Ht. destruct (Vy [0]%nat t) as [A _]; [cbn; lia|]. cbn [app] in A. apply A. unfold never_less. lra. }
  cbn [Rsum]. rewrite W0, W1, W2, W3, !V by lia. cbn. split; f_equal; field.
Qed.

(** non-vacuity: the hypotheses are met by a batch of two one-channel kernels; the inverter flips the first one only *)
Example augment_ex fmax : exists y r r1 r2, invert (1 / 2) (fun i => INR (hd 0%nat i)) (mk [2; 1; 8]%nat (fun i => INR (last i 0%nat) ^ 2)) = Ok y /\
  whiten_module fmax 1 2 None None (mk [2; 1; 8]%nat (fun i => INR (last i 0%nat) ^ 2)) (mk [1; 2]%nat (fun _ => 1)) true = Ok r /\
  whiten_module fmax 1 2 None None y (mk [1; 2]%nat (fun _ => 1)) true = Ok r1 /\ invert (1 / 2) (fun i => INR (hd 0%nat i)) r = Ok r2 /\ same_t r1 r2 /\
  elt y [0; 0; 3]%nat = -9 /\ elt y [1; 0; 3]%nat = 9.
Proof.
  set (X := mk [2; 1; 8]%nat (fun i => INR (last i 0%nat) ^ 2)).
  destruct (augment_whiten_module fmax 1 2 None None (mk [1; 2]%nat (fun _ => 1)) true 2 1 8 2) as [(K & _ & _) _]; try exact I; try (cbn; lra); try (cbn; lia).
  - apply psd_ok_2d with (pf := 2%nat); [reflexivity|lia|]. intros; cbn; lra.
  - destruct (K (1 / 2) (fun i => INR (hd 0%nat i)) X eq_refl) as [(y & r & r1 & r2 & E1 & E2 & E3 & E4 & E5) _]. exists y, r, r1, r2. repeat (split; [assumption|]).
    destruct (signal_inverter_spec (1 / 2) (fun i => INR (hd 0%nat i)) X) as (y' & Ey & _ & V); [discriminate|]. rewrite E1 in Ey. injection Ey as <-.
    destruct (V [0; 0; 3]%nat) as [A _]; [cbn; lia|]. destruct (V [1; 0; 3]%nat) as [_ A']; [cbn; lia|]. cbn [removelast hd] in A, A'.
    rewrite A, A' by (cbn; lra). cbn. split; ring.
Qed.
