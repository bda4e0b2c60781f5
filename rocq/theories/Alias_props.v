(** Property C96: what decimation does to the spectrum of a segment. *)
From Coq Require Import String.
From Coquelicot Require Import Coquelicot.
From Verif Require Import Base Tensor Rutil Norm_model Gw_model Dft Snr_props Whiten_props Trans_model Decim_props Tone_props.
From Verif Require Qnoise_props.
Local Open Scope R_scope.

(** ** sums over multiples *)
Lemma Csum_multiples M n (f : nat -> C) : (0 < M)%nat -> Csum (n * M) (fun t => if (t mod M =? 0)%nat then f t else RtoC 0) = Csum n (fun s => f (M * s)%nat).
Proof.
  intros HM. induction n as [|n IH]; [reflexivity|]. replace (S n * M)%nat with (n * M + M)%nat by lia. rewrite Csum_app, IH. cbn [Csum]. f_equal.
  rewrite (Csum_single M 0); [|exact HM|].
  - rewrite Nat.add_0_r, Nat.mod_mul by lia. cbn [Nat.eqb]. f_equal. lia.
  - intros i Hi Ni. rewrite Nat.add_comm, Nat.mod_add, Nat.mod_small by lia. replace (i =? 0)%nat with false by lia. reflexivity.
Qed.
Lemma w_scale n M z : (0 < n)%nat -> (0 < M)%nat -> w (n * M) (Z.of_nat M * z) = w n z.
Proof.
  intros H1 H2. unfold w. f_equal. rewrite mult_IZR, mult_INR, <- INR_IZR_INZ. assert (0 < INR n) by (apply lt_0_INR, H1). assert (0 < INR M) by (apply lt_0_INR, H2). field. lra.
Qed.
(** the spectrum of every M-th sample is the mean of the M images of the spectrum *)
Lemma fold_spectrum M n x k : (0 < M)%nat -> (0 < n)%nat ->
  rfft n (fun s => x (M * s)%nat) k = Cmult (RtoC (/ INR M)) (Csum M (fun j => rfft (n * M) x (k + j * n))).
Proof.
  intros HM Hn. assert (PM : 0 < INR M) by (apply lt_0_INR, HM). unfold rfft, dft. rewrite Csum_swap.
  rewrite (Csum_ext (n * M) _ (fun t => Cmult (RtoC (INR M)) (if (t mod M =? 0)%nat then Cmult (RtoC (x t)) (w (n * M) (- (Z.of_nat k * Z.of_nat t))) else RtoC 0))).
  - rewrite Csum_scal, Cmult_assoc, <- RtoC_mult, Rinv_l, Cmult_1_l by lra. rewrite (Csum_multiples M n (fun t => Cmult (RtoC (x t)) (w (n * M) (- (Z.of_nat k * Z.of_nat t)))) HM).
    apply Csum_ext. intros s _. f_equal. rewrite <- (w_scale n M) by assumption. f_equal. lia.
  - intros t _. rewrite (Csum_ext M _ (fun j => Cmult (Cmult (RtoC (x t)) (w (n * M) (- (Z.of_nat k * Z.of_nat t)))) (w M (Z.of_nat j * - Z.of_nat t)))).
    2:{ intros j _. rewrite <- Cmult_assoc. f_equal. rewrite <- (w_scale M n) by assumption. rewrite (Nat.mul_comm M n), <- w_plus. f_equal. lia. }
    rewrite Csum_scal, w_orth by assumption.
    assert (E : ((- Z.of_nat t) mod Z.of_nat M =? 0)%Z = (t mod M =? 0)%nat).
    { destruct (Nat.eqb_spec (t mod M) 0) as [E0|E0].
      - apply Z.eqb_eq. apply Z.mod_opp_l_z; [lia|]. rewrite <- Nat2Z.inj_mod, E0. reflexivity.
      - apply Z.eqb_neq. intros E1. apply E0. apply Nat2Z.inj. rewrite Nat2Z.inj_mod. rewrite <- (Z.opp_involutive (Z.of_nat t)). apply Z.mod_opp_l_z; [lia|exact E1]. }
    rewrite E. destruct (t mod M =? 0)%nat; ring.
Qed.
(** a series of T samples without content at or above b cycles (bin b) *)
Definition below (T : nat) (x : nat -> R) (n : nat) : Prop := forall b, (n <= 2 * b)%nat -> (2 * b <= T)%nat -> rfft T x b = RtoC 0.
Lemma below_upper T x n b : below T x n -> (n <= 2 * b)%nat -> (2 * b + n <= 2 * T)%nat -> rfft T x b = RtoC 0.
Proof.
  intros H H1 H2. destruct (Nat.le_gt_cases (2 * b) T) as [L|L]; [apply H; assumption|].
  replace b with (T - (T - b))%nat by lia. rewrite rfft_herm by lia. rewrite H by lia. apply Cconj_R.
Qed.
Lemma sampling M n x k : (0 < M)%nat -> (0 < n)%nat -> below (n * M) x n -> (2 * k < n)%nat ->
  rfft (n * M) x k = Cmult (RtoC (INR M)) (rfft n (fun s => x (M * s)%nat) k).
Proof.
  intros HM Hn HB Hk. assert (PM : 0 < INR M) by (apply lt_0_INR, HM). rewrite fold_spectrum by assumption. rewrite Cmult_assoc, <- RtoC_mult, Rinv_r, Cmult_1_l by lra.
  rewrite (Csum_single M 0); [f_equal; lia|exact HM|]. intros j Hj Nj. apply (below_upper _ _ n); [exact HB| |]; nia.
Qed.
(** ** C96 *)
(** in split mode, for every segment of the schedule and every series: y[k] = x[first + step k]; its spectrum is the mean of the step images of the
    spectrum of the segment (aliasing: there is no anti-aliasing filter); for a segment without content at or above half of the new rate, it is
    the unchanged spectrum (divided by the step), so that such segments with the same output are the same. *)
Theorem decimator_spectrum sr r l g gs (x : tensor R) pre T : List.Forall2 (row_for sr) (r :: l) (g :: gs) -> two_samples (g :: gs) ->
  s_first g = 0%nat -> T = s_stop (last (g :: gs) g) -> List.Forall (fun h => (s_stop h <= T)%nat) (g :: gs) -> shape x = (pre ++ [T])%list ->
  exists m ys, dec_create (Z.of_nat sr) (r :: l) true = Ok m /\ dec_forward m x = Ok (inr ys) /\
    List.Forall2 (fun h y => let n := s_count h in let M := s_step h in shape y = (pre ++ [n])%list /\ s_stop h = (s_first h + n * M)%nat /\ (0 < n)%nat /\ (0 < M)%nat /\
      forall p, inb p pre -> let X t := elt x (p ++ [(s_first h + t)%nat])%list in let Y k := elt y (p ++ [k])%list in
        (forall k, rfft n Y k = Cmult (RtoC (/ INR M)) (Csum M (fun j => rfft (n * M) X (k + j * n)))) /\
        (below (n * M) X n -> forall k, (2 * k < n)%nat -> rfft (n * M) X k = Cmult (RtoC (INR M)) (rfft n Y k)) /\
        (below (n * M) X n -> forall X', below (n * M) X' n -> (forall k, (k < n)%nat -> X' (M * k)%nat = Y k) -> forall t, (t < n * M)%nat -> X' t = X t)) (g :: gs) ys.
Proof.
  intros F T2 F0 HT FT Sx. destruct (decimator_split sr r l g gs x pre T F T2 F0 HT FT Sx) as (m & ys & E1 & E2 & F2). exists m, ys. split; [exact E1|]. split; [exact E2|].
  assert (RF : List.Forall (fun h => exists r, row_for sr r h) (g :: gs)).
  { clear - F. induction F as [|a b la lb H F' IH]; constructor; [exists a; exact H|exact IH]. }
  assert (F3 : List.Forall2 (fun h y => (exists r, row_for sr r h) /\ (s_stop h <= T)%nat /\ shape y = (pre ++ [s_count h])%list /\
     forall p k, inb p pre -> (k < s_count h)%nat -> get y (p ++ [k])%list = get x (p ++ [(s_first h + s_step h * k)%nat])%list) (g :: gs) ys).
  { clear - F2 RF FT. induction F2 as [|h y lh ly H F' IH]; constructor.
    - inversion RF; inversion FT; subst. destruct H as [V1 V2]. repeat split; assumption.
    - apply IH; [inversion FT|inversion RF]; assumption. }
  clear - F3 Sx. induction F3 as [|h y lh ly H F' IH]; constructor; [|exact IH].
  destruct H as ((r0 & R1 & R2 & R3 & (k0 & R4 & R5) & R6 & R7) & HS & Sy & V). cbv zeta. set (n := s_count h) in *. set (M := s_step h) in *.
  assert (HM : (0 < M)%nat) by nia. assert (EQ : s_stop h = (s_first h + n * M)%nat) by nia.
  split; [exact Sy|]. split; [exact EQ|]. split; [exact R6|]. split; [exact HM|]. intros p Hp.
  assert (Y : forall k, (k < n)%nat -> elt y (p ++ [k])%list = elt x (p ++ [(s_first h + M * k)%nat])%list).
  { intros k Hk. specialize (V p k Hp Hk). rewrite !get_inb in V; [injection V as V; exact V| |].
    - rewrite Sx. apply inb_app; [exact Hp|]. cbn. split; [nia|exact I].
    - rewrite Sy. apply inb_app; [exact Hp|]. cbn. split; [exact Hk|exact I]. }
  set (X := fun t => elt x (p ++ [(s_first h + t)%nat])%list).
  assert (YX : forall k, rfft n (fun k => elt y (p ++ [k])%list) k = rfft n (fun s => X (M * s)%nat) k) by (intros k; apply rfft_ext; intros t Ht; apply Y, Ht).
  split; [intros k; rewrite YX; apply fold_spectrum; assumption|]. split; [intros HB k Hk; rewrite YX; apply sampling; assumption|].
  intros HB X' HB' HX t Ht. change (X' t = X t). rewrite <- (irfft_rfft (n * M) X t Ht), <- (irfft_rfft (n * M) X' t Ht). apply irfft_ext. intros k Hk.
  destruct (Nat.lt_ge_cases (2 * k) n) as [L|L].
  - rewrite (sampling M n X k), (sampling M n X' k) by assumption. f_equal. rewrite <- YX. apply rfft_ext. exact HX.
  - assert (2 * k <= n * M)%nat by (unfold rbins in Hk; pose proof (Nat.div_mod_eq (n * M) 2); lia). rewrite HB, HB' by assumption. reflexivity.
Qed.
(** two sinusoids whose frequencies differ by a multiple of the new rate (n cycles in the n M samples) come out identical, sample by sample: a schedule of
    one row, any number of series *)
Lemma tone_alias M n a j A phi s : (0 < M)%nat -> (0 < n)%nat -> tone (n * M) (a + j * n) A phi (M * s) = tone (n * M) a A phi (M * s).
Proof.
  intros HM Hn. assert (PM : 0 < INR M) by (apply lt_0_INR, HM). assert (Pn : 0 < INR n) by (apply lt_0_INR, Hn). unfold tone. f_equal.
  symmetry. rewrite <- (cos_period _ (j * s)). f_equal. rewrite plus_INR, !mult_INR. field. lra.
Qed.
Theorem decimator_alias_refuted sr r g (x x' : tensor R) pre a j A phi : row_for sr r g -> s_first g = 0%nat ->
  shape x = pre ++ [s_stop g] -> shape x' = pre ++ [s_stop g] ->
  (forall p t, inb p pre -> (t < s_stop g)%nat -> elt x (p ++ [t]) = tone (s_stop g) a A phi t /\ elt x' (p ++ [t]) = tone (s_stop g) (a + j * s_count g) A phi t) ->
  exists m y y', dec_create (Z.of_nat sr) [r] false = Ok m /\ dec_forward m x = Ok (inl y) /\ dec_forward m x' = Ok (inl y') /\
    shape y = pre ++ [s_count g] /\ shape y' = pre ++ [s_count g] /\
    forall p k, inb p pre -> (k < s_count g)%nat -> get y (p ++ [k]) = get y' (p ++ [k]) /\ get y' (p ++ [k]) = Some (A * cos (2 * PI * INR a * INR k / INR (s_count g) + phi)).
Proof.
  intros RF F0 Sx Sx' V. pose proof RF as (R1 & R2 & R3 & (k0 & R4 & R5) & R6 & R7). set (n := s_count g) in *. set (M := s_step g) in *.
  assert (HM : (0 < M)%nat) by nia. assert (EQ : s_stop g = (n * M)%nat) by nia.
  assert (F : Forall2 (row_for sr) [r] [g]) by (constructor; [exact RF|constructor]).
  assert (T2 : two_samples [g]) by (exact I).
  destruct (decimator_concat sr r [] g [] x pre (s_stop g) F T2 I F0 eq_refl Sx) as (m & y & E1 & E2 & H).
  destruct (decimator_concat sr r [] g [] x' pre (s_stop g) F T2 I F0 eq_refl Sx') as (m' & y' & E1' & E2' & H'). rewrite E1 in E1'. injection E1' as <-.
  cbv zeta in H, H'. cbn [map concat] in H, H'. rewrite app_nil_r in H, H'. unfold seg_picks, picks in H, H'. rewrite map_length, seq_length in H, H'. fold n M in H, H'.
  destruct H as [Sy G]. destruct H' as [Sy' G']. exists m, y, y'. do 5 (split; [assumption|]). intros p k Hp Hk.
  rewrite G, G' by assumption. rewrite (nth_indep _ 0%nat ((fun k => (s_first g + M * k)%nat) 0%nat)) by (rewrite map_length, seq_length; exact Hk).
  rewrite (map_nth (fun k => (s_first g + M * k)%nat)), seq_nth by exact Hk. rewrite F0, !Nat.add_0_l.
  assert (HK : (M * k < s_stop g)%nat) by nia. rewrite !get_inb by (rewrite ?Sx, ?Sx'; apply inb_app; [exact Hp|cbn; split; [exact HK|exact I]]).
  destruct (V p (M * k)%nat Hp HK) as [-> ->]. rewrite EQ, tone_alias by assumption. split; [reflexivity|]. f_equal. unfold tone. f_equal. f_equal. f_equal.
  rewrite !mult_INR. assert (0 < INR M) by (apply lt_0_INR, HM). assert (0 < INR n) by (apply lt_0_INR, R6). field. lra.
Qed.
(** example: 16 samples a second, kept at 4 a second for one second: a sinusoid of 5 Hz looks like one of 1 Hz; 1 Hz is below 2 Hz *)
Example alias_ex : row_for 16 (mkrow 0 1 4) (mkseg 0 16 4) /\ below 16 (tone 16 1 1 0) 4 /\ (forall k, tone 16 (1 + 1 * 4) 1 0 (4 * k) = tone 16 1 1 0 (4 * k)).
Proof.
  split; [|split].
  - unfold row_for. cbn [s_first s_stop s_step r_start r_end r_rate]. split; [cbn [INR]; lra|]. split; [lra|]. split; [lia|]. split; [exists 4%nat; split; [cbn [INR]; lra|lia]|]. unfold s_count; cbn; lia.
  - intros b H1 H2. rewrite Qnoise_props.tone_plain by lia. replace (b =? 1)%nat with false by lia. reflexivity.
  - intros k. apply (tone_alias 4 4 1 1 1 0 k); lia.
Qed.
