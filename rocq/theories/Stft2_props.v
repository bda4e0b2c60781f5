(** Property C92, continued: torchaudio's Spectrogram for every accepted combination of the keywords n_fft, win_length, hop_length, pad, power
    and normalized; and the refused ones. *)
From Coq Require Import String FunctionalExtensionality.
From Verif Require Import Base Tensor Rutil Gw_model Dft Spectral_model Spectral_props Fit_model Tone_props Dist_model Mspec_model Mspec_props Stft_model Stft_props.
From Coquelicot Require Import Complex.
Local Open Scope R_scope.

(** ** specification *)
(** position z of a series of L samples continued by mirroring at its first and last sample *)
Definition mirrored (L z : Z) : Z := (if z <? 0 then - z else if z <? L then z else 2 * (L - 1) - z)%Z.
(** sample z of a series x of len samples with pad zeros before and after *)
Definition padded (pad len : nat) (x : nat -> R) (z : Z) : R :=
  if ((Z.of_nat pad <=? z) && (z <? Z.of_nat (pad + len)))%Z then x (Z.to_nat (z - Z.of_nat pad)) else 0.
(** the periodic Hann window of w points; a single point is 1 *)
Definition hann1 (w m : nat) : R := if (w =? 1)%nat then 1 else (1 - cos (2 * PI * INR m / INR w)) / 2.
(** the divisor of the amplitude *)
Definition norm_of (n w : nat) (nm : snorm) : R :=
  match nm with NoNorm => 1 | FrameLength => sqrt (INR n) | WindowNorm => sqrt (Rsum w (fun m => hann1 w m ^ 2)) end.
(** bin f of frame t: w windowed samples in the middle of the n ones that start n//2 before sample t * hop of the padded series *)
Definition windowed_sum (n w hop pad len : nat) (x : nat -> R) (f t : nat) : C :=
  let left := ((n - w) / 2)%nat in
  Csum w (fun m => Cmult (RtoC (hann1 w m * padded pad len x (mirrored (Z.of_nat (len + 2 * pad)) (Z.of_nat (t * hop) + Z.of_nat (left + m) - Z.of_nat (n / 2)))))
                         (cis (- (2 * PI * INR f * INR (left + m) / INR n)))).

(** ** values *)
Lemma Csum_app' a b (g : nat -> C) : Csum (a + b) g = Cplus (Csum a g) (Csum b (fun i => g (a + i)%nat)).
Proof. induction b; [rewrite Nat.add_0_r; cbn; ring|]. rewrite Nat.add_succ_r. cbn. rewrite IHb. ring. Qed.
Lemma Csum_zero' n (g : nat -> C) : (forall i, (i < n)%nat -> g i = RtoC 0) -> Csum n g = RtoC 0.
Proof. intros H. induction n; [reflexivity|]. cbn. rewrite IHn by (intros; apply H; lia). rewrite H by lia. ring. Qed.
Lemma hann1_eq w m : hann_window w m = hann1 w m.
Proof. reflexivity. Qed.
Lemma mirror_padded r len pad x j : (r < len + 2 * pad)%nat -> (j < len + 2 * pad + 2 * r)%nat ->
  reflect r (len + 2 * pad) (zpad pad len x) j = padded pad len x (mirrored (Z.of_nat (len + 2 * pad)) (Z.of_nat j - Z.of_nat r)).
Proof.
  intros Hr Hj. assert (ZP : forall k, zpad pad len x k = padded pad len x (Z.of_nat k)).
  { intros k. unfold zpad, padded. destruct (Nat.ltb_spec k pad); [replace (Z.of_nat pad <=? Z.of_nat k)%Z with false by lia; reflexivity|].
    replace (Z.of_nat pad <=? Z.of_nat k)%Z with true by lia. destruct (Nat.ltb_spec k (pad + len)); [replace (Z.of_nat k <? Z.of_nat (pad + len))%Z with true by lia; cbn [andb]; f_equal; lia|].
    replace (Z.of_nat k <? Z.of_nat (pad + len))%Z with false by lia. reflexivity. }
  unfold reflect. rewrite !ZP. unfold mirrored.
  destruct (Nat.ltb_spec j r); [replace (_ <? 0)%Z with true by lia; f_equal; lia|]. replace (Z.of_nat j - Z.of_nat r <? 0)%Z with false by lia.
  destruct (Nat.ltb_spec j (r + (len + 2 * pad))); [replace (_ <? Z.of_nat _)%Z with true by lia|replace (_ <? Z.of_nat _)%Z with false by lia]; f_equal; lia.
Qed.
Theorem spectrogram_value n w hop pad q nm len x f t : (1 <= w <= n)%nat -> (1 <= hop)%nat -> (n / 2 < len + 2 * pad)%nat ->
  (t < sp_nt (spectrogram n w hop pad q nm) len)%nat ->
  exists a, a = Cmod (windowed_sum n w hop pad len x f t) / norm_of n w nm /\
    (q = 1 -> sp_row (spectrogram n w hop pad q nm) len x f t = a) /\
    (q = 2 -> sp_row (spectrogram n w hop pad q nm) len x f t = a ^ 2) /\
    (0 < a -> sp_row (spectrogram n w hop pad q nm) len x f t = Rpower a q) /\
    (a = 0 -> 0 < q -> sp_row (spectrogram n w hop pad q nm) len x f t = 0).
Proof.
  intros Hw Hh Hn Ht. eexists. split; [reflexivity|]. unfold spectrogram in *. cbn [sp_row sp_nt] in *.
  assert (ST : stft n w hop (len + 2 * pad) (zpad pad len x) f t = windowed_sum n w hop pad len x f t).
  { unfold stft, windowed_sum, rfft, dft. set (left := ((n - w) / 2)%nat). assert (L : (left + w <= n)%nat) by (unfold left; pose proof (Nat.div_le_upper_bound (n - w) 2 (n - w) ltac:(lia) ltac:(lia)); lia).
    assert (Hj : forall m, (m < n)%nat -> (t * hop + m < len + 2 * pad + 2 * (n / 2))%nat).
    { intros m Hm. unfold stft_frames in Ht. assert (D := Nat.div_mod n 2 ltac:(lia)). pose proof (Nat.mod_upper_bound n 2 ltac:(lia)).
      assert (t <= (len + 2 * pad + 2 * (n / 2) - n) / hop)%nat by lia. assert (DM := Nat.mul_div_le (len + 2 * pad + 2 * (n / 2) - n) hop ltac:(lia)). nia. }
    replace n with (left + (w + (n - left - w)))%nat at 1 by lia. rewrite Csum_app', Csum_app'.
    rewrite (Csum_zero' left) by (intros m Hm; unfold center_window; fold left; replace (m <? left)%nat with true by lia; rewrite Rmult_0_l; ring).
    rewrite (Csum_zero' (n - left - w)) by (intros m Hm; unfold center_window; fold left; replace (left + (w + m) <? left)%nat with false by lia; replace (left + (w + m) <? left + w)%nat with false by lia; rewrite Rmult_0_l; ring).
    rewrite Cplus_0_l, Cplus_0_r. apply Csum_ext. intros m Hm. f_equal.
    - unfold center_window. fold left. replace (left + m <? left)%nat with false by lia. replace (left + m <? left + w)%nat with true by lia.
      replace (left + m - left)%nat with m by lia. rewrite hann1_eq, mirror_padded by (try exact Hn; apply Hj; lia). f_equal. f_equal. f_equal. f_equal. lia.
    - unfold Dft.w. f_equal. rewrite opp_IZR, mult_IZR, <- !INR_IZR_INZ. unfold Rdiv. ring. }
  unfold spec_row. rewrite ST, Cmod_mult, Cmod_R. assert (NP : 0 <= norm_of n w nm) by (destruct nm; cbn [norm_of]; [lra|apply sqrt_pos|apply sqrt_pos]).
  assert (SC : Rabs (match nm with NoNorm => 1 | FrameLength => / sqrt (INR n) | WindowNorm => / sqrt (Rsum w (fun i => hann_window w i ^ 2)) end) = / norm_of n w nm).
  { destruct nm; cbn [norm_of]; [rewrite Rabs_R1, Rinv_1; reflexivity| |]; rewrite Rabs_pos_eq; try reflexivity.
    - destruct (Rle_lt_or_eq_dec 0 (sqrt (INR n)) (sqrt_pos _)) as [P|P]; [left; apply Rinv_0_lt_compat, P|rewrite <- P, Rinv_0; lra].
    - match goal with |- 0 <= / ?s => destruct (Rle_lt_or_eq_dec 0 s (sqrt_pos _)) as [P|P]; [left; apply Rinv_0_lt_compat, P|rewrite <- P, Rinv_0; lra] end. }
  rewrite SC, (Rmult_comm (/ _)). fold (Cmod (windowed_sum n w hop pad len x f t) / norm_of n w nm). set (a := _ / _).
  split; [intros ->; destruct (Req_EM_T 1 1); [reflexivity|congruence]|].
  split; [intros ->; destruct (Req_EM_T 2 1); [lra|]; destruct (Req_EM_T 2 2); [ring|congruence]|].
  split.
  - intros Pa. destruct (Req_EM_T q 1) as [->|]; [rewrite Rpower_1 by exact Pa; reflexivity|]. destruct (Req_EM_T q 2) as [->|]; [replace 2 with (1 + 1) by ring; rewrite Rpower_plus, Rpower_1 by exact Pa; reflexivity|].
    unfold tpow. destruct (Req_EM_T a 0); [lra|reflexivity].
  - intros Za Pq. rewrite Za. destruct (Req_EM_T q 1); [reflexivity|]. destruct (Req_EM_T q 2); [ring|]. unfold tpow. destruct (Req_EM_T 0 0); [|congruence]. destruct (Rlt_dec 0 q); [reflexivity|contradiction].
Qed.
(** the frames are those that fit into the padded and mirrored series; the bins are those up to the Nyquist frequency *)
Theorem spectrogram_size n w hop pad q nm len : (1 <= n)%nat -> (1 <= hop)%nat -> (n <= len + 2 * pad + 2 * (n / 2))%nat ->
  sp_nf (spectrogram n w hop pad q nm) = (n / 2 + 1)%nat /\
  forall t, (t < sp_nt (spectrogram n w hop pad q nm) len)%nat <-> (t * hop + n <= len + 2 * pad + 2 * (n / 2))%nat.
Proof.
  intros Hn Hh HL. split; [reflexivity|]. intros t. unfold spectrogram, stft_frames. cbn [sp_nt]. set (L := (len + 2 * pad + 2 * (n / 2))%nat) in *.
  assert (D := Nat.div_mod (L - n) hop ltac:(lia)). pose proof (Nat.mod_upper_bound (L - n) hop ltac:(lia)). set (q0 := ((L - n) / hop)%nat) in *. set (r := ((L - n) mod hop)%nat) in *. clearbody q0 r L.
  split; intros H0; nia.
Qed.

(** ** which dictionaries are accepted *)
Definition int_or (d : list (string * kwv)) (key : string) (default v : Z) (none_ok : bool) : Prop :=
  klookup key d = Some (KInt v) \/ (v = default /\ (klookup key d = None \/ (none_ok = true /\ klookup key d = Some KNone))).
Definition power_of (d : list (string * kwv)) (q : R) : Prop :=
  (klookup "power" d = None /\ q = 2) \/ (exists z, klookup "power" d = Some (KInt z) /\ q = IZR z) \/ klookup "power" d = Some (KReal q).
Definition normalization_of (d : list (string * kwv)) (nm : snorm) : Prop :=
  match nm with
  | NoNorm => klookup "normalized" d = None \/ klookup "normalized" d = Some (KBool false)
  | WindowNorm => klookup "normalized" d = Some (KBool true) \/ klookup "normalized" d = Some (KStr "window")
  | FrameLength => klookup "normalized" d = Some (KStr "frame_length")
  end.
Definition known_keys (d : list (string * kwv)) : Prop :=
  forall k v, In (k, v) d -> In k ["n_fft"; "win_length"; "hop_length"; "pad"; "power"; "normalized"]%string.
Lemma known_In k : known k = true <-> In k ["n_fft"; "win_length"; "hop_length"; "pad"; "power"; "normalized"]%string.
Proof.
  unfold known. rewrite existsb_exists. split.
  - intros (x & Hx & E). destruct (string_dec k x) as [->|]; [exact Hx|discriminate].
  - intros H. exists k. split; [exact H|]. destruct (string_dec k k); [reflexivity|congruence].
Qed.
Lemma known_all d : known_keys d -> forallb (fun kv => known (fst kv)) d = true.
Proof. intros H. apply forallb_forall. intros [k v] Hk. apply known_In. exact (H k v Hk). Qed.
Lemma kint_ok d key default v none_ok : int_or d key default v none_ok -> kint default none_ok (klookup key d) = Ok v.
Proof. intros [->|[-> [->|[-> ->]]]]; reflexivity. Qed.
Lemma kpower_ok d q : power_of d q -> kpower (klookup "power" d) = Ok q.
Proof. intros [[-> ->]|[[z [-> ->]]| ->]]; reflexivity. Qed.
Lemma knorm_ok d nm : normalization_of d nm -> knorm (klookup "normalized" d) = Ok nm.
Proof. destruct nm; [intros [->| ->]|intros ->|intros [->| ->]]; reflexivity. Qed.
Theorem spectrogram_options T d n w h p q nm : known_keys d ->
  int_or d "n_fft" 400 n false -> int_or d "win_length" n w true -> int_or d "hop_length" (w / 2) h true -> int_or d "pad" 0 p false -> power_of d q -> normalization_of d nm ->
  ((1 <= w <= n)%Z /\ (1 <= h)%Z /\ (n / 2 < Z.of_nat T + 2 * Z.max 0 p)%Z ->
     spectro_of T d = Ok (spectrogram (Z.to_nat n) (Z.to_nat w) (Z.to_nat h) (Z.to_nat p) q nm)) /\
  (~ ((1 <= w <= n)%Z /\ (1 <= h)%Z /\ (n / 2 < Z.of_nat T + 2 * Z.max 0 p)%Z) -> spectro_of T d = Err RuntimeError).
Proof.
  intros Hk Hn Hw Hh Hp Hq Hm. unfold spectro_of. rewrite known_all by exact Hk. cbn [negb]. rewrite (kint_ok _ _ _ _ _ Hn). cbn [bind]. rewrite (kint_ok _ _ _ _ _ Hw). cbn [bind]. rewrite (kint_ok _ _ _ _ _ Hh). cbn [bind]. rewrite (kint_ok _ _ _ _ _ Hp). cbn [bind]. rewrite (kpower_ok _ _ Hq). cbn [bind]. rewrite (knorm_ok _ _ Hm). cbn [bind].
  clear Hk Hn Hw Hh Hp Hq Hm. assert (E : Z.of_nat (T + 2 * Z.to_nat p) = (Z.of_nat T + 2 * Z.max 0 p)%Z) by lia. rewrite E. set (n2 := (n / 2)%Z). clearbody n2. split.
  - intros (H1 & H2 & H3). replace (w <? 0)%Z with false by lia. replace (n <? 1)%Z with false by lia. replace (_ <=? n2)%Z with false by lia. replace (w <? 1)%Z with false by lia. replace (n <? w)%Z with false by lia. replace (h <? 1)%Z with false by lia. reflexivity.
  - intros H. destruct (w <? 0)%Z; [reflexivity|]. destruct (n <? 1)%Z eqn:E1; [reflexivity|]. destruct (_ <=? n2)%Z eqn:E2; [reflexivity|]. destruct (w <? 1)%Z eqn:E3; [reflexivity|]. destruct (n <? w)%Z eqn:E4; [reflexivity|]. destruct (h <? 1)%Z eqn:E5; [reflexivity|]. exfalso. apply H. lia.
Qed.
(** an unknown keyword is a TypeError; so is an n_fft that is not an int *)
Theorem spectrogram_unknown T d k v : In (k, v) d -> ~ In k ["n_fft"; "win_length"; "hop_length"; "pad"; "power"; "normalized"]%string -> spectro_of T d = Err TypeError.
Proof.
  intros Hk Hn. unfold spectro_of. replace (forallb _ d) with false; [reflexivity|]. symmetry. apply Bool.not_true_iff_false. intros F. rewrite forallb_forall in F. specialize (F (k, v) Hk). cbn [fst] in F. apply known_In in F. contradiction.
Qed.
Theorem spectrogram_bad_norm T d n w h p q s : known_keys d ->
  int_or d "n_fft" 400 n false -> int_or d "win_length" n w true -> int_or d "hop_length" (w / 2) h true -> int_or d "pad" 0 p false -> power_of d q -> (0 <= w)%Z ->
  klookup "normalized" d = Some (KStr s) -> s <> "window"%string -> s <> "frame_length"%string -> spectro_of T d = Err ValueError.
Proof.
  intros Hk Hn Hw Hh Hp Hq W Hs N1 N2. unfold spectro_of. rewrite known_all by exact Hk. cbn [negb]. rewrite (kint_ok _ _ _ _ _ Hn). cbn [bind]. rewrite (kint_ok _ _ _ _ _ Hw). cbn [bind]. rewrite (kint_ok _ _ _ _ _ Hh). cbn [bind]. rewrite (kint_ok _ _ _ _ _ Hp). cbn [bind]. rewrite (kpower_ok _ _ Hq). cbn [bind].
  rewrite Hs. replace (w <? 0)%Z with false by lia. unfold knorm. destruct (string_dec s "window"); [contradiction|]. destruct (string_dec s "frame_length"); [contradiction|]. reflexivity.
Qed.
(** what [klookup] finds *)
Theorem klookup_spec key d : (forall v, klookup key d = Some v -> In (key, v) d) /\ (klookup key d = None <-> forall v, ~ In (key, v) d).
Proof.
  unfold klookup. destruct (List.find _ d) as [[k v]|] eqn:E.
  - apply List.find_some in E as [E1 E2]. cbn [fst] in E2. destruct (string_dec k key) as [->|]; [|discriminate]. split; [intros u [= <-]; exact E1|]. split; [discriminate|]. intros H. exfalso. exact (H v E1).
  - split; [discriminate|]. split; [|reflexivity]. intros _ v Hv. assert (F := List.find_none _ _ E (key, v) Hv). cbn [fst] in F. destruct (string_dec key key); [discriminate|congruence].
Qed.
(** ** a case with every keyword given *)
Example all_options : exists s, spectro_of 64 [("n_fft", KInt 32); ("win_length", KInt 16); ("hop_length", KInt 8); ("pad", KInt 4); ("power", KReal (1/2)); ("normalized", KStr "frame_length")]%string = Ok s /\ sp_nf s = 17%nat /\ sp_nt s 64 = 10%nat.
Proof.
  eexists. split.
  - apply (proj1 (spectrogram_options 64 [("n_fft", KInt 32); ("win_length", KInt 16); ("hop_length", KInt 8); ("pad", KInt 4); ("power", KReal (1/2)); ("normalized", KStr "frame_length")]%string 32 16 8 4 (1/2) FrameLength
      ltac:(intros k v H; cbn in H |- *; intuition congruence) (or_introl eq_refl) (or_introl eq_refl) (or_introl eq_refl) (or_introl eq_refl) (or_intror (or_intror eq_refl)) eq_refl)). vm_compute. repeat split; discriminate.
  - split; reflexivity.
Qed.
