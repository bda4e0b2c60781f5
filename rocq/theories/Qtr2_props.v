(** Property C47, second part: computing and interpolating the tiles. *)
From Coq Require Import String Sorted.
From Verif Require Import Base Tensor Rutil Slicing_model Autoenc_model Norm_model Norm_props Dft Gw_model Gw_props Snr_props Spectral_model Spectral_props Trans_model Decim_props Whiten_props Qt_model Qt_props Qt2_props Qtr_props.
From Coquelicot Require Import Complex.
Local Open Scope R_scope.

(** a tile whose row is not degenerate: enough tiles asked for, and a mismatch below 0.67 *)
Definition usable (t : qtile) : Prop := positive t /\ 44 * qt_mm t < 3 * PI ^ 2 /\ / 2 < wanted_tiles t.
Lemma usable_fitting t : usable t -> exists h N, fitting t h N.
Proof.
  intros [P [M W]]. destruct (window_half t P) as [h [Hh _]]. destruct (qtile_count t P) as [_ Q]. destruct (Q W) as [e [E _]].
  exists h, (2 ^ e)%nat. repeat split; try apply P; try apply Hh; try assumption. pose proof (qtile_fits t h P Hh M W). lia.
Qed.
(** in the default range every tile is usable (q at least 1, mismatch at most 1/2) *)
Lemma default_usable q dur sr mm fs f : 1 <= q -> 0 < dur -> 0 < sr -> 0 < mm <= / 2 -> q < max_q dur sr ->
  get_freqs q dur mm (default_lo q dur) (default_hi q sr) = Ok fs -> In f fs -> usable (mkqt q f dur sr mm).
Proof.
  intros Hq Hd Hs Hm Hx E Hf. pose proof PI_gt_3. pose proof PI_4.
  assert (L : default_lo q dur < default_hi q sr) by (apply (proj1 (max_q_meaning q dur sr ltac:(lra) Hd Hs)); assumption).
  assert (L0 : default_lo q dur * dur = 50 * q / (2 * PI)) by (unfold default_lo; field; lra).
  assert (Hlo : 0 < default_lo q dur) by (unfold default_lo; apply Rdiv_lt_0_compat; [lra|apply Rmult_lt_0_compat; lra]).
  destruct (qtr_frequency_range q dur mm _ _ fs f Hd (proj1 Hm) Hlo (Rlt_le _ _ L) E Hf) as [[B1 _] _].
  assert (F : 50 * q / (2 * PI) - 1 < f * dur).
  { rewrite <- L0. replace (default_lo q dur * dur - 1) with ((default_lo q dur - 1 / dur) * dur) by (field; lra). apply Rmult_lt_compat_r; assumption. }
  assert (G : 50 * q - 2 * PI < 2 * PI * (f * dur)).
  { apply (Rmult_lt_compat_l (2 * PI)) in F; [|lra]. replace (2 * PI * (50 * q / (2 * PI) - 1)) with (50 * q - 2 * PI) in F by (field; lra). assumption. }
  assert (Hfd : 0 < f * dur) by nra. assert (Hf0 : 0 < f) by nra.
  split; [repeat split; cbn; lra|]. split; [apply qtile_mismatch_half; cbn; lra|].
  unfold wanted_tiles. cbn [qt_f qt_q qt_dur qt_mm].
  assert (Sm : 0 < sqrt (mm / 3) < / 2).
  { split; [apply sqrt_lt_R0; lra|]. rewrite <- (sqrt_square (/ 2)) by lra. apply sqrt_lt_1_alt. lra. }
  set (s := sqrt (mm / 3)) in *. apply (Rmult_lt_reg_r (2 * s * q)); [apply Rmult_lt_0_compat; lra|].
  replace (2 * PI * f * dur / q / (2 * s) * (2 * s * q)) with (2 * PI * (f * dur)) by (field; lra). nra.
Qed.

(** ** the spectrum: bin k of the forward-normalised rfft, with all bins but DC doubled *)
Definition amplitude (T : nat) (x : nat -> R) (k : nat) : C := Cmult (RtoC ((if (k =? 0)%nat then 1 else 2) / INR T)) (rfft T x k).
Lemma qspectrum_spec X B D T : (0 < ndim X <= 3)%nat -> shape (pad_ndim3 X) = [B; D; T] -> (0 < T)%nat ->
  exists S, qspectrum X = Ok S /\ ndim S = ndim X /\ shape (pad_ndim3 S) = [B; D; rbins T] /\
    forall b d k, (b < B)%nat -> (d < D)%nat -> elt (pad_ndim3 S) [b; d; k] = amplitude T (fun s => elt (pad_ndim3 X) [b; d; s]) k.
Proof.
  intros Hn HS HT. unfold qspectrum. destruct X as [sh el]. unfold ndim in *. cbn [shape] in *.
  destruct sh as [|a [|b [|c [|? ?]]]]; cbn in Hn; try lia; cbn in HS; injection HS; intros; subst; cbn [List.length last].
  - replace (T =? 0)%nat with false by lia. cbn [Nat.eqb orb]. eexists. split; [reflexivity|]. split; [reflexivity|]. split; [reflexivity|].
    intros. unfold amplitude. cbn. f_equal.
  - replace (T =? 0)%nat with false by lia. cbn [Nat.eqb orb]. eexists. split; [reflexivity|]. split; [reflexivity|]. split; [reflexivity|].
    intros. unfold amplitude. cbn. f_equal.
  - replace (T =? 0)%nat with false by lia. cbn [Nat.eqb orb]. eexists. split; [reflexivity|]. split; [reflexivity|]. split; [reflexivity|].
    intros. unfold amplitude. cbn. f_equal.
Qed.
(** ** normalisations *)
Inductive nkind := NoNorm | ByMedian | ByMean.
Definition norm_kind (norm : option string) (k : nkind) : Prop :=
  match norm, k with
  | None, NoNorm => True
  | Some s, NoNorm => s = EmptyString
  | Some s, ByMedian => lower s = "median"%string
  | Some s, ByMean => lower s = "mean"%string
  | _, _ => False
  end.
Definition renorm (k : nkind) (N : nat) (e : nat -> R) (n : nat) : R :=
  match k with NoNorm => e n | ByMedian => e n / quantile_half N e | ByMean => e n / (Rsum N e / INR N) end.
(** the energies of the row of tile t for one time series *)
Definition row_energy (t : qtile) (h N T : nat) (x : nat -> R) (n : nat) : R := Cmod (band_sum N (2 * h + 1) (band t (amplitude T x)) n) ^ 2.

Lemma quantile_half_ext n f g : (forall i, (i < n)%nat -> f i = g i) -> quantile_half n f = quantile_half n g.
Proof.
  intros H. unfold quantile_half. replace (map f (seq 0 n)) with (map g (seq 0 n)); [reflexivity|].
  apply map_ext_in. intros i Hi. apply in_seq in Hi. symmetry. apply H. lia.
Qed.
Lemma renorm_ext k N e e' n : (n < N)%nat -> (forall i, (i < N)%nat -> e i = e' i) -> renorm k N e n = renorm k N e' n.
Proof. intros Hn H. unfold renorm. destruct k; rewrite H by assumption; [reflexivity| |]; f_equal; [apply quantile_half_ext; assumption|]. f_equal. apply Rsum_ext. assumption. Qed.
Lemma row_forward t h N X S B D T norm k : fitting t h N -> (0 < ndim X <= 3)%nat -> shape (pad_ndim3 X) = [B; D; T] -> (0 < T)%nat ->
  (rtrunc (qt_dur t * qt_sr t) <= Z.of_nat T)%Z -> norm_kind norm k -> qspectrum X = Ok S ->
  exists r, qtile_forward t S norm = Ok r /\ shape r = [B; D; N] /\
    forall b d n, (b < B)%nat -> (d < D)%nat -> (n < N)%nat ->
      get r [b; d; n] = Some (renorm k N (row_energy t h N T (fun s => elt (pad_ndim3 X) [b; d; s])) n).
Proof.
  intros Fi Hn HS HT HR HK ES. destruct (qspectrum_spec X B D T Hn HS HT) as [S' [E1 [E2 [E3 E4]]]]. rewrite ES in E1. injection E1 as <-.
  destruct (qtile_energy t S B D (rbins T) h N Fi ltac:(lia) E3) as [e [F1 [F2 F3]]].
  { unfold rbins. destruct (Z.le_gt_cases 0 (rtrunc (qt_dur t * qt_sr t))); [rewrite Nat2Z.inj_add, Nat2Z.inj_div; lia|].
    pose proof (Z.div_lt_upper_bound (rtrunc (qt_dur t * qt_sr t)) 2 0). lia. }
  assert (F4 : forall b d n, (b < B)%nat -> (d < D)%nat -> (n < N)%nat -> elt e [b; d; n] = row_energy t h N T (fun s => elt (pad_ndim3 X) [b; d; s]) n).
  { intros b d n Hb Hd Hn'. specialize (F3 b d n Hb Hd Hn'). apply get_some in F3. destruct F3 as [_ ->]. unfold row_energy. f_equal. f_equal.
    unfold band_sum. f_equal. apply Csum_ext. intros j _. unfold band. rewrite E4 by assumption. reflexivity. }
  destruct (qtile_normalised t S e B D N F1 F2) as [N0 [N1 [N2 _]]].
  assert (K : exists r, qtile_forward t S norm = Ok r /\ shape r = [B; D; N] /\ forall b d n, (b < B)%nat -> (d < D)%nat -> (n < N)%nat ->
     get r [b; d; n] = Some (renorm k N (fun m => elt e [b; d; m]) n)).
  { destruct k, norm as [s|]; cbn in HK; try contradiction.
    - subst s. exists e. repeat split; try assumption. intros. apply get_inb. rewrite F2. cbn; auto.
    - exists e. repeat split; try assumption. intros. apply get_inb. rewrite F2. cbn; auto.
    - exact (N1 s HK).
    - exact (N2 s HK). }
  destruct K as [r [K1 [K2 K3]]]. exists r. split; [assumption|]. split; [assumption|]. intros b d n Hb Hd Hn'. rewrite K3 by assumption. f_equal.
  apply renorm_ext; [assumption|]. intros i Hi. apply F4; assumption.
Qed.
Lemma sequence_ok_map {A B} (f : A -> res B) (P : A -> B -> Prop) l :
  (forall a, In a l -> exists b, f a = Ok b /\ P a b) -> exists r, sequence (map f l) = Ok r /\ Forall2 P l r.
Proof.
  induction l as [|a l IH]; intros H; cbn.
  - exists []. split; [reflexivity|constructor].
  - destruct (H a (or_introl eq_refl)) as [b [E Pb]]. destruct IH as [r [Er Fr]]; [intros; apply H; right; assumption|].
    rewrite E. cbn [bind]. rewrite Er. cbn [bind]. exists (b :: r). split; [reflexivity|constructor; assumption].
Qed.
(** the tiles: one row per frequency, in frequency order; each batch element and channel is transformed on its own *)
Theorem qtiles_spec m X B D T norm k : Forall usable (tr_tiles m) -> (0 < ndim X <= 3)%nat -> shape (pad_ndim3 X) = [B; D; T] -> (0 < T)%nat ->
  Forall (fun t => rtrunc (qt_dur t * qt_sr t) <= Z.of_nat T)%Z (tr_tiles m) -> norm_kind norm k ->
  exists tiles, compute_qtiles m X norm = Ok tiles /\
    Forall2 (fun t tile => exists h N, fitting t h N /\ shape tile = [B; D; N] /\
      forall b d n, (b < B)%nat -> (d < D)%nat -> (n < N)%nat ->
        get tile [b; d; n] = Some (renorm k N (row_energy t h N T (fun s => elt (pad_ndim3 X) [b; d; s])) n)) (tr_tiles m) tiles.
Proof.
  intros U Hn HS HT HR HK. unfold compute_qtiles. destruct (qspectrum_spec X B D T Hn HS HT) as [S [ES _]]. rewrite ES. cbn [bind].
  apply sequence_ok_map. intros t Ht. rewrite Forall_forall in U, HR. destruct (usable_fitting t (U t Ht)) as [h [N Fi]].
  destruct (row_forward t h N X S B D T norm k Fi Hn HS HT (HR t Ht) HK ES) as [r [R1 [R2 R3]]].
  exists r. split; [assumption|]. exists h, N. auto.
Qed.
(** more than three axes: ValueError (there is always at least one tile); empty or 0-d input: RuntimeError;
    unknown normalisation: ValueError *)
Theorem qtiles_errors m X norm : tr_tiles m <> [] ->
  ((3 < ndim X)%nat -> (0 < last (shape X) 0)%nat -> compute_qtiles m X norm = Err ValueError) /\
  ((ndim X = 0 \/ last (shape X) 0 = 0)%nat -> compute_qtiles m X norm = Err RuntimeError).
Proof.
  intros NE. destruct (tr_tiles m) as [|t ts] eqn:Et; [congruence|]. unfold compute_qtiles, qspectrum. rewrite Et. split.
  - intros H3 HL. replace (last (shape X) 0 =? 0)%nat with false by lia. replace (ndim X =? 0)%nat with false by lia. cbn [orb bind map sequence].
    match goal with |- context [qtile_forward t ?y norm] => destruct (qtile_errors t y norm) as [Q _] end.
    rewrite Q; [reflexivity|]. unfold ndim in *. cbn [shape]. rewrite app_length. cbn.
    destruct (shape X) as [|a s] eqn:E; [cbn in H3; lia|]. rewrite (app_removelast_last 0%nat (l := a :: s)) in H3 by discriminate. rewrite app_length in H3. cbn in H3 |- *. lia.
  - intros [H|H]; rewrite H; cbn; [|rewrite orb_true_r]; reflexivity.
Qed.
