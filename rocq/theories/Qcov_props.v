(** Property C103: gain, delay and reversal of the input of the Q-transform. *)
From Coq Require Import String Sorted Permutation.
From Coquelicot Require Import Complex.
From Verif Require Import Base Tensor Rutil Slicing_model Slicing_proofs2 Autoenc_model Norm_model Norm_props Dft Gw_model Gw_props Snr_props Spectral_model Spectral_props Trans_model Decim_props Whiten_props Qt_model Qt_props Qt2_props Qtr_props Qtr2_props Qtr3_props Qscan_props Prob Psd_props Noise_props Qnoise_props Augcomm_props.
Local Open Scope R_scope.

(** ** one row *)
Lemma band_sum_ext N W g g' n : (forall j, (j < W)%nat -> g j = g' j) -> band_sum N W g n = band_sum N W g' n.
Proof. intros H. unfold band_sum. f_equal. apply Csum_ext. intros j Hj. rewrite (H j Hj). reflexivity. Qed.
Lemma row_gain t h N T c x n : row_energy t h N T (fun s => c * x s) n = c ^ 2 * row_energy t h N T x n.
Proof.
  unfold row_energy. rewrite (band_sum_ext _ _ _ (band t (fun k => Cmult (RtoC c) (amplitude T x k)))).
  - rewrite qtile_scaling. f_equal. rewrite Cmod_R, <- Rsqr_pow2, <- Rsqr_abs, Rsqr_pow2. reflexivity.
  - intros j _. unfold band, amplitude. rewrite rfft_scal. ring.
Qed.
Definition neg_mod (n : nat) (i : nat) : nat := Z.to_nat (- Z.of_nat i mod Z.of_nat n).
Definition sub_mod (n : nat) (m : Z) (i : nat) : nat := Z.to_nat ((Z.of_nat i - m) mod Z.of_nat n).
Lemma w_mod_arg n a b : (0 < n)%nat -> w n (a * (b mod Z.of_nat n)) = w n (a * b).
Proof. intros Hn. rewrite <- (w_modulo n (a * (b mod _))), <- (w_modulo n (a * b)) by exact Hn. f_equal. apply Z.mul_mod_idemp_r. lia. Qed.
Lemma row_delay t k h N T x (d m : Z) n : fitting t h N -> inside_spectrum t k h T -> (0 < T)%nat -> (Z.of_nat N * d = m * Z.of_nat T)%Z ->
  row_energy t h N T (croll T d x) n = row_energy t h N T x (sub_mod N m n).
Proof.
  intros Fi In_ HT HD. assert (HN : (0 < N)%nat) by (destruct Fi as (_ & _ & _ & F); lia). unfold row_energy. f_equal.
  assert (P : forall j, (j < 2 * h + 1)%nat -> band t (amplitude T (croll T d x)) j = Cmult (w N (- ((Z.of_nat (k + 1 - h) + Z.of_nat j) * m))) (band t (amplitude T x) j)).
  { intros j Hj. unfold band. rewrite (tile_bins t k h N T j Fi In_) by lia. unfold amplitude. rewrite rfft_shift by exact HT.
    replace (w T (- (Z.of_nat (k + 1 - h + j) * d))) with (w N (- ((Z.of_nat (k + 1 - h) + Z.of_nat j) * m))); [ring|].
    unfold w. f_equal. rewrite !opp_IZR, !mult_IZR, Nat2Z.inj_add. apply (f_equal IZR) in HD. rewrite !mult_IZR, <- !INR_IZR_INZ in HD.
    assert (INR N <> 0) by (apply not_0_INR; lia). assert (INR T <> 0) by (apply not_0_INR; lia).
    replace (IZR m) with (INR N * IZR d / INR T) by (rewrite HD; field; assumption). field. split; assumption. }
  rewrite (band_sum_ext _ _ _ _ _ P). unfold band_sum. rewrite !Cmod_mult. f_equal.
  rewrite (Csum_ext _ _ (fun j => Cmult (w N (- (Z.of_nat (k + 1 - h) * m))) (Cmult (band t (amplitude T x) j) (w N (Z.of_nat j * Z.of_nat (sub_mod N m n)))))).
  - rewrite Csum_scal, Cmod_mult, w_mod, Rmult_1_l. reflexivity.
  - intros j Hj. unfold sub_mod. rewrite Z2Nat.id by (apply Z.mod_pos_bound; lia). rewrite w_mod_arg by exact HN.
    replace (- ((Z.of_nat (k + 1 - h) + Z.of_nat j) * m))%Z with (- (Z.of_nat (k + 1 - h) * m) + - (Z.of_nat j * m))%Z by ring. rewrite w_plus.
    replace (Z.of_nat j * (Z.of_nat n - m))%Z with (- (Z.of_nat j * m) + Z.of_nat j * Z.of_nat n)%Z by ring. rewrite w_plus. ring.
Qed.
Lemma rfft_neg n x k : (0 < n)%nat -> rfft n (fun t => x (neg_mod n t)) k = Cconj (rfft n x k).
Proof.
  intros Hn. rewrite (rfft_ext n _ (croll n 1 (fun t => x (n - 1 - t)%nat)) k).
  - rewrite rfft_shift, rfft_rev, Cmult_assoc, <- w_plus by exact Hn. replace (- (Z.of_nat k * 1) + Z.of_nat k)%Z with 0%Z by ring. rewrite w_0. ring.
  - intros t Ht. unfold croll, neg_mod. f_equal. destruct (Nat.eq_dec t 0) as [->|].
    + replace ((Z.of_nat 0 - 1) mod Z.of_nat n)%Z with (Z.of_nat n - 1)%Z by (apply (Z.mod_unique _ _ (-1)); lia). cbn. rewrite Z.mod_0_l by lia. lia.
    + rewrite (Z.mod_small (Z.of_nat t - 1)) by lia. replace ((- Z.of_nat t) mod Z.of_nat n)%Z with (Z.of_nat n - Z.of_nat t)%Z by (apply (Z.mod_unique _ _ (-1)); lia). lia.
Qed.
Lemma row_reverse t h N T x n : fitting t h N -> (0 < T)%nat -> row_energy t h N T (fun s => x (neg_mod T s)) n = row_energy t h N T x (neg_mod N n).
Proof.
  intros Fi HT. assert (HN : (0 < N)%nat) by (destruct Fi as (_ & _ & _ & F); lia). unfold row_energy. f_equal.
  rewrite (band_sum_ext _ _ _ (fun j => Cconj (band t (amplitude T x) j))).
  - unfold band_sum. rewrite !Cmod_mult. f_equal. rewrite <- (Cmod_conj (Csum _ _)), Cconj_Csum. f_equal. apply Csum_ext. intros j Hj.
    rewrite Cconj_mult, Cconj_conj. f_equal. unfold neg_mod. rewrite Z2Nat.id by (apply Z.mod_pos_bound; lia). rewrite w_mod_arg by exact HN.
    replace (Z.of_nat j * - Z.of_nat n)%Z with (- (Z.of_nat j * Z.of_nat n))%Z by ring. rewrite w_opp. reflexivity.
  - intros j Hj. unfold band, amplitude. rewrite rfft_neg by exact HT. rewrite !Cconj_mult, !Cconj_R. reflexivity.
Qed.
(** ** the normalisation of a row *)
Lemma sub_mod_perm n m : (0 < n)%nat -> Permutation (map (sub_mod n m) (seq 0 n)) (seq 0 n).
Proof. apply croll_perm. Qed.
Lemma neg_mod_perm n : (0 < n)%nat -> Permutation (map (neg_mod n) (seq 0 n)) (seq 0 n).
Proof.
  intros Hn. apply NoDup_Permutation_bis.
  - apply NoDup_map_inj_in; [|apply seq_NoDup]. intros x y Hx Hy E. apply in_seq in Hx. apply in_seq in Hy. unfold neg_mod in E.
    assert (K : forall z, (0 <= z < n)%nat -> Z.to_nat (- Z.of_nat z mod Z.of_nat n) = if (z =? 0)%nat then 0%nat else (n - z)%nat).
    { intros z Hz. destruct (Nat.eqb_spec z 0) as [->|]; [cbn; rewrite Z.mod_0_l by lia; reflexivity|]. replace ((- Z.of_nat z) mod Z.of_nat n)%Z with (Z.of_nat n - Z.of_nat z)%Z by (apply (Z.mod_unique _ _ (-1)); lia). lia. }
    rewrite !K in E by lia. destruct (Nat.eqb_spec x 0), (Nat.eqb_spec y 0); lia.
  - rewrite map_length. reflexivity.
  - intros x Hx. apply in_map_iff in Hx. destruct Hx as [t [<- Ht]]. apply in_seq. pose proof (Z.mod_pos_bound (- Z.of_nat t) (Z.of_nat n)). unfold neg_mod. lia.
Qed.
Lemma quantile_perm n f g : (0 < n)%nat -> Permutation (map f (seq 0 n)) (map g (seq 0 n)) -> quantile_half n f = quantile_half n g.
Proof.
  intros Hn HP. rewrite (quantile_half_spec n f (rsort (map f (seq 0 n))) Hn); [|apply rsort_sorted|apply Permutation_sym, rsort_perm].
  rewrite (quantile_half_spec n g (rsort (map f (seq 0 n))) Hn); [reflexivity|apply rsort_sorted|]. eapply perm_trans; [apply Permutation_sym, rsort_perm|exact HP].
Qed.
Lemma Rsum_perm n f g : Permutation (map f (seq 0 n)) (map g (seq 0 n)) -> Rsum n f = Rsum n g.
Proof.
  assert (K : forall n (f : nat -> R), Rsum n f = fold_right Rplus 0 (map f (seq 0 n))).
  { intros m u. induction m as [|m IH]; [reflexivity|]. rewrite seq_S, map_app. cbn [Rsum map]. rewrite IH, fold_right_app. cbn [fold_right Nat.add].
    assert (G : forall l a, fold_right Rplus a l = fold_right Rplus 0 l + a) by (induction l as [|y l IHl]; intros a; cbn; [ring|rewrite IHl; ring]). rewrite (G _ (u m + 0)). ring. }
  intros HP. rewrite !K. induction HP; cbn; [reflexivity|lra|lra|congruence].
Qed.
Lemma renorm_gain k N c e n : k <> NoNorm -> c <> 0 -> renorm k N (fun i => c ^ 2 * e i) n = renorm k N e n.
Proof.
  intros Hk Hc. assert (c ^ 2 <> 0) by (apply pow_nonzero; exact Hc). unfold renorm. destruct k; [contradiction| |].
  - rewrite quantile_half_scal by (apply pow2_ge_0). unfold Rdiv. rewrite Rinv_mult. set (y := / quantile_half N e). field. assumption.
  - rewrite Rsum_scal. replace (c ^ 2 * Rsum N e / INR N) with (c ^ 2 * (Rsum N e / INR N)) by (unfold Rdiv; ring). generalize (Rsum N e / INR N). intros q. unfold Rdiv. rewrite Rinv_mult. generalize (/ q). intros y. field. assumption.
Qed.
Lemma renorm_perm k N e p n : (0 < N)%nat -> Permutation (map p (seq 0 N)) (seq 0 N) -> renorm k N (fun i => e (p i)) n = renorm k N e (p n).
Proof.
  intros HN HP. assert (HM : Permutation (map (fun i => e (p i)) (seq 0 N)) (map e (seq 0 N))) by (rewrite <- (map_map p e); apply Permutation_map; exact HP).
  unfold renorm. destruct k; [reflexivity| |]; f_equal; [apply quantile_perm; assumption|]. f_equal. apply Rsum_perm. exact HM.
Qed.

(** ** the tiles of a batch *)
Definition series_of (X : tensor R) (b d : nat) (s : nat) : R := elt (pad_ndim3 X) [b; d; s].
(** X is a (batch, channel, time), (channel, time) or (time,) tensor *)
Definition holds3 (X : tensor R) (B D T : nat) : Prop := (0 < ndim X <= 3)%nat /\ shape (pad_ndim3 X) = [B; D; T].
(** the transform is one of T-sample series at its own sample rate *)
Definition made_for (m : qtransform) (T : nat) : Prop := List.Forall usable (tr_tiles m) /\ List.Forall (fun t => qt_dur t * qt_sr t = INR T) (tr_tiles m).
Lemma fitting_unique t h N h' N' : fitting t h N -> fitting t h' N' -> h = h' /\ N = N'.
Proof.
  intros (P & Hh & HN & Hf) (_ & Hh0 & HN0 & _). split; [|lia]. assert (h < h' + 1 /\ h' < h + 1)%nat; [|lia]. split; apply INR_lt; rewrite plus_INR; cbn [INR]; lra.
Qed.
(** two inputs whose rows are related: row n of the second is a times row p n of the first *)
Lemma qtiles_related m X X' B D T norm k (a : nat -> nat -> R) (p : nat -> nat -> nat) (good : qtile -> nat -> nat -> Prop) :
  made_for m T -> (0 < T)%nat -> holds3 X B D T -> holds3 X' B D T -> norm_kind norm k ->
  (forall t h N, In t (tr_tiles m) -> fitting t h N -> good t h N) ->
  (forall t h N b d n, good t h N -> fitting t h N -> (b < B)%nat -> (d < D)%nat -> (n < N)%nat -> (p N n < N)%nat /\
     renorm k N (row_energy t h N T (series_of X' b d)) n = a b d * renorm k N (row_energy t h N T (series_of X b d)) (p N n)) ->
  exists tiles tiles', compute_qtiles m X norm = Ok tiles /\ compute_qtiles m X' norm = Ok tiles' /\
    Forall2 (fun e e' => exists N, (0 < N)%nat /\ shape e = [B; D; N] /\ shape e' = [B; D; N] /\
      forall b d n, (b < B)%nat -> (d < D)%nat -> (n < N)%nat -> (p N n < N)%nat /\ elt e' [b; d; n] = a b d * elt e [b; d; p N n]) tiles tiles' /\
    List.length tiles = List.length (tr_tiles m).
Proof.
  intros [U ED] HT [Hn HS] [Hn' HS'] HK HG HR. assert (RT : List.Forall (fun t => rtrunc (qt_dur t * qt_sr t) <= Z.of_nat T)%Z (tr_tiles m)).
  { rewrite List.Forall_forall in *. intros t Ht. rewrite (ED t Ht), INR_IZR_INZ, rtrunc_IZR. lia. }
  destruct (qtiles_spec m X B D T norm k U Hn HS HT RT HK) as (tl & E & F). destruct (qtiles_spec m X' B D T norm k U Hn' HS' HT RT HK) as (tl' & E' & F').
  exists tl, tl'. split; [exact E|]. split; [exact E'|]. split; [|symmetry; eapply Forall2_len; exact F]. clear E E' RT U ED.
  revert tl' F' HG. induction F as [|t e ts es (h & N & Fi & Se & V) F IH]; intros tl' F' HG; inversion F' as [|t0 e' ts0 es' (h' & N' & Fi' & Se' & V') F2]; subst; [constructor|].
  constructor; [|apply IH; [exact F2|intros t0 h0 N0 Ht; apply HG; right; exact Ht]].
  destruct (fitting_unique t h N h' N' Fi Fi') as [<- <-]. exists N. split; [destruct Fi as (_ & _ & _ & Q); lia|]. split; [exact Se|]. split; [exact Se'|].
  intros b d n Hb Hd Hn0. destruct (HR t h N b d n (HG t h N (or_introl eq_refl) Fi) Fi Hb Hd Hn0) as [Hp Q]. split; [exact Hp|].
  specialize (V b d (p N n) Hb Hd Hp). specialize (V' b d n Hb Hd Hn0). apply get_some in V as [_ V]. apply get_some in V' as [_ V']. rewrite V, V'. exact Q.
Qed.
(** row by row: the second transform's energies are a times the first's, at the instants p *)
Definition rows_related (B D : nat) (a : nat -> nat -> R) (p : nat -> nat -> nat) (e e' : tensor R) : Prop := exists N, (0 < N)%nat /\ shape e = [B; D; N] /\ shape e' = [B; D; N] /\
  forall b d n, (b < B)%nat -> (d < D)%nat -> (n < N)%nat -> (p N n < N)%nat /\ elt e' [b; d; n] = a b d * elt e [b; d; p N n].
(** gain (and sign) of every series: squared without normalisation, gone with it *)
Theorem qtiles_gain m X X' B D T norm k (c : nat -> nat -> R) : made_for m T -> (0 < T)%nat -> holds3 X B D T -> holds3 X' B D T -> norm_kind norm k ->
  (forall b d s, (b < B)%nat -> (d < D)%nat -> (s < T)%nat -> series_of X' b d s = c b d * series_of X b d s) ->
  (k <> NoNorm -> forall b d, (b < B)%nat -> (d < D)%nat -> c b d <> 0) ->
  exists tiles tiles', compute_qtiles m X norm = Ok tiles /\ compute_qtiles m X' norm = Ok tiles' /\
    Forall2 (rows_related B D (fun b d => match k with NoNorm => c b d ^ 2 | _ => 1 end) (fun _ n => n)) tiles tiles' /\ List.length tiles = List.length (tr_tiles m).
Proof.
  intros M HT H H' HK HC HNZ. apply (qtiles_related m X X' B D T norm k _ _ (fun _ _ _ => True) M HT H H' HK); [auto|]. intros t h N b d n _ Fi Hb Hd Hn. split; [exact Hn|].
  rewrite (renorm_ext k N _ (fun i => c b d ^ 2 * row_energy t h N T (series_of X b d) i) n Hn).
  - destruct k; [reflexivity| |]; rewrite renorm_gain; try ring; try discriminate; apply HNZ; try assumption; discriminate.
  - intros i Hi. rewrite <- row_gain. apply row_energy_ext; [exact HT|]. intros s Hs. apply HC; assumption.
Qed.
(** a circular delay by d samples moves the tiles of a row of N instants by N d / T of them, when that is a whole number and the row's band is inside the spectrum *)
Theorem qtiles_delay m X X' B D T norm k (d : Z) (shift : nat -> Z) : made_for m T -> (0 < T)%nat -> holds3 X B D T -> holds3 X' B D T -> norm_kind norm k ->
  (forall b c s, (b < B)%nat -> (c < D)%nat -> (s < T)%nat -> series_of X' b c s = croll T d (series_of X b c) s) ->
  (forall t h N, In t (tr_tiles m) -> fitting t h N -> (exists j, inside_spectrum t j h T) /\ (Z.of_nat N * d = shift N * Z.of_nat T)%Z) ->
  exists tiles tiles', compute_qtiles m X norm = Ok tiles /\ compute_qtiles m X' norm = Ok tiles' /\
    Forall2 (rows_related B D (fun _ _ => 1) (fun N => sub_mod N (shift N))) tiles tiles' /\ List.length tiles = List.length (tr_tiles m).
Proof.
  intros M HT H H' HK HC HG. apply (qtiles_related m X X' B D T norm k _ _ _ M HT H H' HK HG). cbv beta. intros t h N b c n [[j In_] HD] Fi Hb Hc Hn.
  split; [unfold sub_mod; pose proof (Z.mod_pos_bound (Z.of_nat n - shift N) (Z.of_nat N) ltac:(lia)); lia|].
  rewrite <- (renorm_perm k N _ (sub_mod N (shift N))) by (try apply sub_mod_perm; lia). rewrite Rmult_1_l. apply renorm_ext; [exact Hn|]. intros i Hi.
  rewrite <- (row_delay t j h N T (series_of X b c) d (shift N) i Fi In_ HT HD). apply row_energy_ext; [exact HT|]. intros s Hs. apply HC; assumption.
Qed.
(** circular time reversal of the series is circular time reversal of every row *)
Theorem qtiles_reverse m X X' B D T norm k : made_for m T -> (0 < T)%nat -> holds3 X B D T -> holds3 X' B D T -> norm_kind norm k ->
  (forall b c s, (b < B)%nat -> (c < D)%nat -> (s < T)%nat -> series_of X' b c s = series_of X b c (neg_mod T s)) ->
  exists tiles tiles', compute_qtiles m X norm = Ok tiles /\ compute_qtiles m X' norm = Ok tiles' /\
    Forall2 (rows_related B D (fun _ _ => 1) neg_mod) tiles tiles' /\ List.length tiles = List.length (tr_tiles m).
Proof.
  intros M HT H H' HK HC. apply (qtiles_related m X X' B D T norm k _ _ (fun _ _ _ => True) M HT H H' HK); [auto|]. intros t h N b c n _ Fi Hb Hc Hn.
  split; [unfold neg_mod; pose proof (Z.mod_pos_bound (- Z.of_nat n) (Z.of_nat N) ltac:(lia)); lia|].
  rewrite <- (renorm_perm k N _ (neg_mod N)) by (try apply neg_mod_perm; lia). rewrite Rmult_1_l. apply renorm_ext; [exact Hn|]. intros i Hi.
  rewrite <- (row_reverse t h N T (series_of X b c) i Fi HT). apply row_energy_ext; [exact HT|]. intros s Hs. apply HC; assumption.
Qed.

(** ** the spectrogram and the scan *)
Lemma interp1_scal m n size a f j : interp1 m n size (fun i => a * f i) j = a * interp1 m n size f j.
Proof. destruct m; cbn [interp1]; unfold interp_lin, interp_cub; try ring. Qed.
Lemma related_shape B D a p e e' : rows_related B D a p e e' -> tile_shape B D e /\ tile_shape B D e'.
Proof. intros (N & HN & S1 & S2 & _). split; exists N; auto. Qed.
Lemma related_left B D a p ts ts' : Forall2 (rows_related B D a p) ts ts' -> List.Forall (tile_shape B D) ts /\ List.Forall (tile_shape B D) ts'.
Proof. induction 1 as [|e e' ts ts' H _ [I1 I2]]; [split; constructor|]. destruct (related_shape _ _ _ _ _ _ H). split; constructor; assumption. Qed.
Lemma shapes_nth B D ts : List.Forall (tile_shape B D) ts -> forall k q, nth_error ts k = Some q -> exists N, shape q = [B; D; N] /\ (0 < N)%nat.
Proof. intros F k q Hk. rewrite List.Forall_forall in F. apply F. eapply nth_error_In. exact Hk. Qed.
(** interpolation keeps a gain of every batch element and channel *)
Lemma spectrogram_gain m nf nt ts ts' B D a : ts <> [] -> (0 < B)%nat -> (0 < D)%nat -> (0 < nf)%nat -> (0 < nt)%nat -> Forall2 (rows_related B D a (fun _ n => n)) ts ts' ->
  exists out out', interpolate_tiles m nf nt (Some ts) = Ok out /\ interpolate_tiles m nf nt (Some ts') = Ok out' /\
    shape out = filter (fun d => negb (d =? 1)%nat) [B; D; nf; nt] /\ shape out' = shape out /\
    forall b d y z, (b < B)%nat -> (d < D)%nat -> (y < nf)%nat -> (z < nt)%nat ->
      exists v, get out (keep_coords [B; D; nf; nt] [b; d; y; z]) = Some v /\ get out' (keep_coords [B; D; nf; nt] [b; d; y; z]) = Some (a b d * v).
Proof.
  intros NE HB HD Hf Ht F. destruct (related_left _ _ _ _ _ _ F) as [S1 S2].
  assert (NE' : ts' <> []) by (intros ->; inversion F; congruence).
  destruct (spectrogram_spec m nf nt ts B D NE HB HD Hf Ht (shapes_nth _ _ _ S1)) as (out & E & So & V).
  destruct (spectrogram_spec m nf nt ts' B D NE' HB HD Hf Ht (shapes_nth _ _ _ S2)) as (out' & E' & So' & V').
  exists out, out'. split; [exact E|]. split; [exact E'|]. split; [exact So|]. split; [congruence|]. intros b d y z Hb Hd Hy Hz.
  eexists. split; [apply V; assumption|]. rewrite V' by assumption. f_equal. unfold resampled. rewrite <- (Forall2_len _ _ _ F), <- interp1_scal.
  assert (L0 : (0 < List.length ts)%nat) by (destruct ts; [congruence|cbn; lia]).
  apply interp1_ext; [exact L0|]. intros k Hk. rewrite <- interp1_scal.
  set (e := nth k ts (mk [] (fun _ => 0))). set (e' := nth k ts' (mk [] (fun _ => 0))).
  assert (RR : rows_related B D a (fun _ n => n) e e').
  { destruct (nth_error ts k) as [q|] eqn:Eq; [|apply nth_error_None in Eq; lia]. destruct (Forall2_nth _ _ _ _ _ F Eq) as (q' & Eq' & RR).
    unfold e, e'. rewrite (nth_error_nth _ _ _ Eq), (nth_error_nth _ _ _ Eq'). exact RR. }
  destruct RR as (N & HN & Se & Se' & Q). rewrite Se, Se'. cbn [last]. apply interp1_ext; [exact HN|]. intros i Hi. apply Q; assumption.
Qed.
(** QTransform: every spectrogram of the batch is multiplied by the square of its series' gain; with normalisation, unchanged *)
Theorem qtransform_gain m X X' B D T nf nt norm k (c : nat -> nat -> R) : made_for m T -> tr_tiles m <> [] -> tr_method m <> Spline -> (0 < T)%nat -> (0 < B)%nat -> (0 < D)%nat -> (0 < nf)%nat -> (0 < nt)%nat ->
  holds3 X B D T -> holds3 X' B D T -> norm_kind norm k ->
  (forall b d s, (b < B)%nat -> (d < D)%nat -> (s < T)%nat -> series_of X' b d s = c b d * series_of X b d s) ->
  (k <> NoNorm -> forall b d, (b < B)%nat -> (d < D)%nat -> c b d <> 0) ->
  exists out out' ts ts', qtr_forward m nf nt X norm = Ok (out, ts) /\ qtr_forward m nf nt X' norm = Ok (out', ts') /\
    shape out = filter (fun d => negb (d =? 1)%nat) [B; D; nf; nt] /\ shape out' = shape out /\
    forall b d y z, (b < B)%nat -> (d < D)%nat -> (y < nf)%nat -> (z < nt)%nat ->
      exists v, get out (keep_coords [B; D; nf; nt] [b; d; y; z]) = Some v /\
                get out' (keep_coords [B; D; nf; nt] [b; d; y; z]) = Some (match k with NoNorm => c b d ^ 2 * v | _ => v end).
Proof.
  intros M NE _ HT HB HD Hf Ht H H' HK HC HZ. destruct (qtiles_gain m X X' B D T norm k c M HT H H' HK HC HZ) as (ts & ts' & E & E' & F & L).
  assert (NT : ts <> []) by (intros ->; cbn in L; destruct (tr_tiles m); [congruence|discriminate]).
  destruct (spectrogram_gain (tr_method m) nf nt ts ts' B D _ NT HB HD Hf Ht F) as (out & out' & I & I' & So & So' & V).
  exists out, out', ts, ts'. unfold qtr_forward. rewrite E, E'. cbn [bind]. rewrite I, I'. cbn [bind]. split; [reflexivity|]. split; [reflexivity|]. split; [exact So|]. split; [exact So'|].
  intros b d y z Hb Hd Hy Hz. destruct (V b d y z Hb Hd Hy Hz) as (v & G & G'). exists v. split; [exact G|]. rewrite G'. destruct k; f_equal; ring.
Qed.
Lemma Forall2_firstn {A A'} (P : A -> A' -> Prop) n l l' : Forall2 P l l' -> Forall2 P (firstn n l) (firstn n l').
Proof. intros F. revert n. induction F; intros [|n]; cbn; constructor; auto. Qed.
Lemma Forall2_skipn {A A'} (P : A -> A' -> Prop) n l l' : Forall2 P l l' -> Forall2 P (skipn n l) (skipn n l').
Proof. intros F. revert n. induction F; intros [|n]; cbn; auto. Qed.
Lemma search_related {P : tensor R -> tensor R -> Prop} freqs fs ts ts' sel : Forall2 P ts ts' -> search_slice freqs fs ts = Ok sel ->
  exists sel', search_slice freqs fs ts' = Ok sel' /\ Forall2 P sel sel'.
Proof.
  intros F. unfold search_slice. destruct fs as [[lo hi]|]; [|intros E; injection E as <-; eauto].
  destruct (first_above_res freqs lo); [|discriminate]. destruct (first_above_res freqs hi); [|discriminate]. cbn [bind]. intros E; injection E as <-.
  eexists. split; [reflexivity|]. unfold pyslice. rewrite <- (Forall2_len _ _ _ F). apply Forall2_firstn, Forall2_skipn, F.
Qed.
Lemma max_scaled B D a ts ts' v : 0 < a -> Forall2 (rows_related B D (fun _ _ => a) (fun _ n => n)) ts ts' ->
  is_max (energies ts (fun _ _ => True)) v -> is_max (energies ts' (fun _ _ => True)) (a * v).
Proof.
  intros Ha F [(q & b & d & n & I & _ & G) U]. split.
  - apply In_nth_error in I. destruct I as [k I]. destruct (Forall2_nth _ _ _ _ _ F I) as (q' & I' & N & HN & S1 & S2 & Q). exists q', b, d, n.
    split; [eapply nth_error_In; exact I'|]. split; [trivial|]. apply get_some in G as [IB <-]. rewrite S1 in IB. cbn [inb] in IB. destruct IB as (Hb & Hd & Hn & _).
    rewrite get_inb by (rewrite S2; cbn; auto). f_equal. apply Q; assumption.
  - intros u (q' & b' & d' & n' & I' & _ & G'). assert (K : exists q0, In q0 ts /\ rows_related B D (fun _ _ => a) (fun _ n => n) q0 q').
    { clear -F I'. induction F as [|x y l l' Hxy F IH]; [destruct I'|]. destruct I' as [<-|I']; [exists x; split; [left; reflexivity|exact Hxy]|]. destruct (IH I') as (q0 & I0 & R0). exists q0. split; [right; exact I0|exact R0]. }
    destruct K as (q0 & I0 & N & HN & S1 & S2 & Q). apply get_some in G' as [IB <-]. rewrite S2 in IB. cbn [inb] in IB. destruct IB as (Hb & Hd & Hn & _).
    destruct (Q b' d' n' Hb Hd Hn) as [_ ->]. apply Rmult_le_compat_l; [lra|]. apply U. exists q0, b', d', n'. split; [exact I0|]. split; [trivial|]. apply get_inb. rewrite S1. cbn. auto.
Qed.
Lemma Forall2_choice {A A'} (P : A -> A' -> Prop) l : (forall x, In x l -> exists y, P x y) -> exists r, Forall2 P l r.
Proof.
  induction l as [|x l IH]; intros H; [exists []; constructor|]. destruct (H x (or_introl eq_refl)) as [y Hy]. destruct IH as [r Hr]; [intros z Hz; apply H; right; exact Hz|].
  exists (y :: r). constructor; assumption.
Qed.
Lemma nth_error_map_none {A A'} (f : A -> A') l i : nth_error l i = None -> nth_error (map f l) i = None.
Proof. intros H. apply nth_error_None. rewrite map_length. apply nth_error_None. exact H. Qed.
Lemma keep_coords_onto s ix : List.Forall (fun d => (0 < d)%nat) s -> inb ix (filter (fun d => negb (d =? 1)%nat) s) -> exists i, inb i s /\ ix = keep_coords s i.
Proof.
  intros F. revert ix. induction F as [|d s Hd F IH]; intros ix; cbn [filter]; [destruct ix; [exists []; split; trivial|intros []]|].
  destruct (Nat.eqb_spec d 1) as [->|Nd]; cbn [negb].
  - intros I. destruct (IH ix I) as (i & Ii & ->). exists (0%nat :: i). cbn. split; [split; [lia|exact Ii]|reflexivity].
  - destruct ix as [|x ix]; [intros []|]. intros [Hx I]. destruct (IH ix I) as (i & Ii & ->). exists (x :: i). cbn [inb keep_coords]. split; [split; assumption|].
    replace (d =? 1)%nat with false by lia. reflexivity.
Qed.
(** QScan: the same plane is chosen, and its spectrogram is multiplied by the same factor. The gain is common to the batch
    without normalisation (the plane is chosen over the whole batch), and may differ between series with it. *)
Theorem qscan_gain ms X X' B D T nf nt fsearch norm k (c : nat -> nat -> R) (g : R) out : ms <> [] -> List.Forall (fun m => made_for m T /\ tr_tiles m <> [] /\ tr_method m <> Spline) ms ->
  (0 < T)%nat -> (0 < B)%nat -> (0 < D)%nat -> (0 < nf)%nat -> (0 < nt)%nat -> holds3 X B D T -> holds3 X' B D T -> norm_kind norm k ->
  (forall b d s, (b < B)%nat -> (d < D)%nat -> (s < T)%nat -> series_of X' b d s = c b d * series_of X b d s) ->
  (forall b d, (b < B)%nat -> (d < D)%nat -> c b d <> 0) -> (k = NoNorm -> forall b d, (b < B)%nat -> (d < D)%nat -> c b d = g) ->
  qscan_forward ms nf nt X fsearch norm = Ok out ->
  exists out', qscan_forward ms nf nt X' fsearch norm = Ok out' /\ shape out' = shape out /\
    forall i v, get out i = Some v -> get out' i = Some (match k with NoNorm => g ^ 2 * v | _ => v end).
Proof.
  intros NE FM HT HB HD Hf Ht H H' HK HC HZ HG EQ. set (a := match k with NoNorm => g ^ 2 | _ => 1 end).
  assert (Ha : 0 < a). { unfold a. destruct k; try lra. assert (g <> 0) by (rewrite <- (HG eq_refl 0%nat 0%nat HB HD); apply HZ; assumption). assert (g ^ 2 <> 0) by (apply pow_nonzero; assumption). pose proof (pow2_ge_0 g). lra. }
  destruct (Forall2_choice (fun m pr => compute_qtiles m X norm = Ok (fst pr) /\ compute_qtiles m X' norm = Ok (snd pr) /\ Forall2 (rows_related B D (fun _ _ => a) (fun _ n => n)) (fst pr) (snd pr) /\ fst pr <> []) ms) as [all FA].
  { intros m Im. rewrite List.Forall_forall in FM. destruct (FM m Im) as (Mm & Nm & _).
    destruct (qtiles_gain m X X' B D T norm k c Mm HT H H' HK HC (fun _ => HZ)) as (ts & ts' & E & E' & F & L). exists (ts, ts'). cbn [fst snd].
    split; [exact E|]. split; [exact E'|]. split; [|intros ->; cbn in L; destruct (tr_tiles m); [congruence|discriminate]].
    clear -F HG. induction F as [|e e' l l' (N & HN & S1 & S2 & Q) F IH]; constructor; [|exact IH]. exists N. split; [exact HN|]. split; [exact S1|]. split; [exact S2|].
    intros b d n Hb Hd Hn. destruct (Q b d n Hb Hd Hn) as [Q1 Q2]. split; [exact Q1|]. rewrite Q2. unfold a. destruct k; [rewrite HG by auto; reflexivity|reflexivity|reflexivity]. }
  assert (SEL : Forall2 (fun m pr => exists sel, search_slice (tr_freqs m) fsearch (fst pr) = Ok sel /\ sel <> []) ms all).
  { unfold qscan_forward in EQ. assert (E1 : sequence (map (fun m => compute_qtiles m X norm) ms) = Ok (map fst all)).
    { clear -FA. induction FA as [|m t l l' (E & _) _ IH]; cbn; [reflexivity|]. rewrite E. cbn [bind]. rewrite IH. reflexivity. }
    rewrite E1 in EQ. cbn [bind] in EQ. destruct (sequence (map _ (combine ms (map fst all)))) as [es|] eqn:Es; [|discriminate]. clear EQ E1.
    apply sequence_map_inv in Es. clear -FA Es. revert es Es. induction FA as [|m t l l' _ FA IH]; intros es Es; cbn in Es; inversion Es as [|p q l0 l1 G Es']; subst; constructor; [|eapply IH; exact Es'].
    cbn [fst snd] in G. unfold get_max_energy in G. cbn -[search_slice sequence] in G. destruct (search_slice (tr_freqs m) fsearch (fst t)) as [sel|] eqn:E; [|discriminate]. exists sel. split; [reflexivity|]. intros ->. cbn in G. discriminate. }
  assert (F1 : Forall2 (fun m tiles => compute_qtiles m X norm = Ok tiles /\ List.Forall (tile_shape B D) tiles /\ exists sel, search_slice (tr_freqs m) fsearch tiles = Ok sel /\ sel <> []) ms (map fst all)).
  { clear -FA SEL. induction FA as [|m t l l' (E & E' & F & N) FA IH]; inversion SEL; subst; cbn; constructor; [|apply IH; assumption].
    split; [exact E|]. split; [apply (related_left _ _ _ _ _ _ F)|assumption]. }
  assert (F2 : Forall2 (fun m tiles => compute_qtiles m X' norm = Ok tiles /\ List.Forall (tile_shape B D) tiles /\ exists sel, search_slice (tr_freqs m) fsearch tiles = Ok sel /\ sel <> []) ms (map snd all)).
  { clear -FA SEL. induction FA as [|m t l l' (E & E' & F & N) FA IH]; inversion SEL as [|? ? ? ? (sel & Esel & Nsel) SEL']; subst; cbn; constructor; [|apply IH; assumption].
    split; [exact E'|]. split; [apply (related_left _ _ _ _ _ _ F)|]. destruct (search_related _ _ _ _ _ F Esel) as (sel' & Es' & Fs). exists sel'. split; [exact Es'|]. intros ->. inversion Fs; congruence. }
  destruct (qscan_selects ms nf nt X fsearch norm B D _ NE HB HD F1) as (i & m & ts & v & Em & Et & PM & MX & EO).
  destruct (qscan_selects ms nf nt X' fsearch norm B D _ NE HB HD F2) as (i' & m' & ts' & v' & Em' & Et' & PM' & MX' & EO').
  assert (SC : forall j mj pr u, nth_error ms j = Some mj -> nth_error all j = Some pr -> plane_max mj (fst pr) fsearch u -> plane_max mj (snd pr) fsearch (a * u)).
  { intros j mj pr u Hm Hp (sel & Es & MXs). destruct (Forall2_nth _ _ _ _ _ FA Hm) as (pr' & Hp' & _ & _ & F & _). rewrite Hp in Hp'. injection Hp' as <-.
    destruct (search_related _ _ _ _ _ F Es) as (sel' & Es' & Fs). exists sel'. split; [exact Es'|]. eapply max_scaled; eassumption. }
  assert (PU : forall mj tl u u', plane_max mj tl fsearch u -> plane_max mj tl fsearch u' -> u = u').
  { intros mj tl u u' (s1 & E1 & M1) (s2 & E2 & M2). rewrite E1 in E2. injection E2 as <-. eapply is_max_unique; eassumption. }
  destruct (nth_error all i) as [pr|] eqn:Ea; [|rewrite (nth_error_map_none fst all i Ea) in Et; discriminate].
  destruct (nth_error all i') as [pr'|] eqn:Ea'; [|rewrite (nth_error_map_none snd all i' Ea') in Et'; discriminate].
  rewrite (map_nth_error fst _ _ Ea) in Et. injection Et as <-. rewrite (map_nth_error snd _ _ Ea') in Et'. injection Et' as <-.
  assert (i = i').
  { pose proof (SC _ _ _ _ Em Ea PM) as S1. destruct (MX' i m (snd pr) _ Em (map_nth_error snd _ _ Ea) S1) as [L1 L1'].
    assert (EX : exists u, plane_max m' (fst pr') fsearch u).
    { destruct (Forall2_nth _ _ _ _ _ F1 Em') as (tl & Etl & _ & Ftl & sel & Esel & Nsel). rewrite (map_nth_error fst _ _ Ea') in Etl. injection Etl as <-.
      destruct (max_energy (tr_freqs m') (fst pr') fsearch sel B D Esel Nsel HB HD Ftl) as [[r [_ [_ M]]] _]. eexists. exists sel. split; [exact Esel|exact M]. }
    destruct EX as [u PMu]. pose proof (PU _ _ _ _ PM' (SC _ _ _ _ Em' Ea' PMu)) as ->.
    destruct (MX i' m' (fst pr') u Em' (map_nth_error fst _ _ Ea') PMu) as [L2 L2'].
    destruct (lt_eq_lt_dec i i') as [[Lt|Eq]|Lt]; [|exact Eq|]; exfalso; [specialize (L1' Lt); nra|specialize (L2' Lt); nra]. }
  subst i'. rewrite Em in Em'. injection Em' as <-. rewrite Ea in Ea'. injection Ea' as <-.
  destruct (Forall2_nth _ _ _ _ _ FA Em) as (pr0 & Hp0 & _ & _ & F & NT). rewrite Ea in Hp0. injection Hp0 as <-.
  destruct (spectrogram_gain (tr_method m) nf nt _ _ B D _ NT HB HD Hf Ht F) as (o & o' & I & I' & So & So' & V).
  rewrite EO, I in EQ. injection EQ as <-. exists o'. rewrite EO', I'. split; [reflexivity|]. split; [exact So'|]. intros ix w G.
  apply get_some in G as [IB EV]. rewrite So in IB.
  assert (KC : exists b d y z, (b < B)%nat /\ (d < D)%nat /\ (y < nf)%nat /\ (z < nt)%nat /\ ix = keep_coords [B; D; nf; nt] [b; d; y; z]).
  { destruct (keep_coords_onto [B; D; nf; nt] ix) as (j & Ij & ->); [repeat constructor; assumption|exact IB|]. destruct j as [|b [|d [|y [|z [|]]]]]; cbn [inb] in Ij; try tauto.
    destruct Ij as (Hb & Hd & Hy & Hz & _). exists b, d, y, z. auto. }
  destruct KC as (b & d & y & z & Hb & Hd & Hy & Hz & ->). destruct (V b d y z Hb Hd Hy Hz) as (u & G1 & G2). rewrite G2. apply get_some in G1 as [_ G1]. rewrite <- EV, G1. unfold a. destruct k; f_equal; ring.
Qed.

(** ** the hypotheses are met *)
(** the default transform of a T-sample series *)
Theorem default_made dur sr q mm method im T : 0 < dur -> 0 < sr -> 1 <= q < max_q dur sr -> 0 < mm <= / 2 -> known_method method = Some im -> INR T = dur * sr ->
  exists m, qtr_create dur sr q None mm method = Ok m /\ made_for m T /\ tr_tiles m <> [] /\ tr_method m = im.
Proof.
  intros Hd Hs Hq Hm Km HT.
  assert (Hhi : 0 < default_hi q sr). { unfold default_hi. pose proof sqrt11_pos. assert (0 < sqrt 11 / q) by (apply Rdiv_lt_0_compat; lra). apply Rdiv_lt_0_compat; lra. }
  destruct (qtr_construction dur sr q None mm method Hd Hs ltac:(lra) (proj1 Hm)) as [_ [_ [_ CC]]].
  destruct (CC (proj2 Hq) im Km Hhi) as [fs [Ef [NE Ec]]]. cbn [resolved_lo resolved_hi] in *. eexists. split; [exact Ec|]. cbn [tr_tiles tr_method]. split; [|split; [destruct fs; [congruence|discriminate]|reflexivity]].
  split; cbn [tr_tiles]; apply List.Forall_forall; intros t Ht; apply in_map_iff in Ht; destruct Ht as [f [<- Hf]].
  - apply (default_usable q dur sr mm fs f); try assumption; apply Hq.
  - cbn [qt_dur qt_sr]. symmetry. exact HT.
Qed.
(** one second at 1024 Hz, the row of 48 Hz at Q = 12 (64 instants): a delay of 32 samples is a shift of two instants *)
Example delay_ex : let m := mkqtr 12 (48, 48) [48] [mkqt 12 48 1 1024 (1/5)] Bilinear in
  made_for m 1024 /\ (forall t h N, In t (tr_tiles m) -> fitting t h N -> (exists j, inside_spectrum t j h 1024) /\ (Z.of_nat N * 32 = (Z.of_nat N / 32) * Z.of_nat 1024)%Z).
Proof.
  intros m. destruct inside_ex as (U & F & I & _). split.
  - split; cbn [tr_tiles m]; (apply List.Forall_cons; [|apply List.Forall_nil]); [exact U|]. cbn [qt_dur qt_sr]. rewrite INR_IZR_INZ. replace (Z.of_nat 1024) with 1024%Z by reflexivity. lra.
  - intros t h N [<-|[]] Fi. destruct (fitting_unique _ _ _ _ _ F Fi) as [<- <-]. split; [exists 48%nat; exact I|vm_compute; reflexivity].
Qed.
