(** Property C104: what the rest of the batch does to a Q-scan. *)
From Coq Require Import String Sorted Permutation.
From Coquelicot Require Import Complex.
From Verif Require Import Base Tensor Rutil Slicing_model Slicing_proofs2 Autoenc_model Norm_model Norm_props Dft Gw_model Gw_props Snr_props Spectral_model Spectral_props Trans_model Decim_props Whiten_props Qt_model Qt_props Qt2_props Qtr_props Qtr2_props Qtr3_props Qscan_props Prob Psd_props Noise_props Qnoise_props Augcomm_props Tone_props Qcov_props.
Local Open Scope R_scope.

(** ** the transform of one plane treats every series by itself *)
Lemma qtiles_rows m X Y B B' D T norm k (b b' : nat) : made_for m T -> (0 < T)%nat -> holds3 X B D T -> holds3 Y B' D T -> norm_kind norm k -> (b < B)%nat -> (b' < B')%nat ->
  (forall d s, (d < D)%nat -> (s < T)%nat -> series_of Y b' d s = series_of X b d s) ->
  exists ts ts', compute_qtiles m X norm = Ok ts /\ compute_qtiles m Y norm = Ok ts' /\ List.length ts = List.length (tr_tiles m) /\
    Forall2 (fun e e' => exists N, (0 < N)%nat /\ shape e = [B; D; N] /\ shape e' = [B'; D; N] /\ forall d n, (d < D)%nat -> (n < N)%nat -> elt e' [b'; d; n] = elt e [b; d; n]) ts ts'.
Proof.
  intros [U ED] HT [Hn HS] [Hn' HS'] HK Hb Hb' HE. assert (RT : List.Forall (fun t => rtrunc (qt_dur t * qt_sr t) <= Z.of_nat T)%Z (tr_tiles m)).
  { rewrite List.Forall_forall in *. intros t Ht. rewrite (ED t Ht), INR_IZR_INZ, rtrunc_IZR. lia. }
  destruct (qtiles_spec m X B D T norm k U Hn HS HT RT HK) as (tl & E & F). destruct (qtiles_spec m Y B' D T norm k U Hn' HS' HT RT HK) as (tl' & E' & F').
  exists tl, tl'. split; [exact E|]. split; [exact E'|]. split; [symmetry; eapply Forall2_len; exact F|]. clear E E' RT U ED.
  revert tl' F'. induction F as [|t e ts es (h & N & Fi & Se & V) F IH]; intros tl' F'; inversion F' as [|t0 e' ts0 es' (h' & N' & Fi' & Se' & V') F2]; subst; [constructor|].
  constructor; [|apply IH; exact F2]. destruct (fitting_unique t h N h' N' Fi Fi') as [<- <-]. exists N. split; [destruct Fi as (_ & _ & _ & Q); lia|]. split; [exact Se|]. split; [exact Se'|].
  intros d n Hd Hn0. specialize (V b d n Hb Hd Hn0). specialize (V' b' d n Hb' Hd Hn0). apply get_some in V as [_ V]. apply get_some in V' as [_ V']. rewrite V, V'. apply renorm_ext; [exact Hn0|].
  intros i Hi. apply row_energy_ext; [exact HT|]. intros s Hs. apply HE; assumption.
Qed.
Theorem qtransform_row_local m X Y B B' D T nf nt norm k (b b' : nat) : made_for m T -> tr_tiles m <> [] -> tr_method m <> Spline -> (0 < T)%nat -> (0 < D)%nat -> (0 < nf)%nat -> (0 < nt)%nat ->
  holds3 X B D T -> holds3 Y B' D T -> norm_kind norm k -> (b < B)%nat -> (b' < B')%nat ->
  (forall d s, (d < D)%nat -> (s < T)%nat -> series_of Y b' d s = series_of X b d s) ->
  exists out out' ts ts', qtr_forward m nf nt X norm = Ok (out, ts) /\ qtr_forward m nf nt Y norm = Ok (out', ts') /\
    forall d y z, (d < D)%nat -> (y < nf)%nat -> (z < nt)%nat -> exists v, get out (keep_coords [B; D; nf; nt] [b; d; y; z]) = Some v /\ get out' (keep_coords [B'; D; nf; nt] [b'; d; y; z]) = Some v.
Proof.
  intros M NE _ HT HD Hf Ht H H' HK Hb Hb' HE. destruct (qtiles_rows m X Y B B' D T norm k b b' M HT H H' HK Hb Hb' HE) as (ts & ts' & E & E' & L & F).
  assert (NT : ts <> []) by (intros ->; cbn in L; destruct (tr_tiles m); [congruence|discriminate]).
  assert (NT' : ts' <> []) by (intros ->; inversion F; congruence).
  assert (S1 : List.Forall (tile_shape B D) ts /\ List.Forall (tile_shape B' D) ts').
  { clear -F. induction F as [|e e' l l' (N & HN & A & A' & _) F [I1 I2]]; [split; constructor|]. split; constructor; try assumption; exists N; auto. }
  destruct S1 as [S1 S2].
  destruct (spectrogram_spec (tr_method m) nf nt ts B D NT ltac:(lia) HD Hf Ht (shapes_nth _ _ _ S1)) as (out & I & _ & V).
  destruct (spectrogram_spec (tr_method m) nf nt ts' B' D NT' ltac:(lia) HD Hf Ht (shapes_nth _ _ _ S2)) as (out' & I' & _ & V').
  exists out, out', ts, ts'. unfold qtr_forward. rewrite E, E'. cbn [bind]. rewrite I, I'. cbn [bind]. split; [reflexivity|]. split; [reflexivity|]. intros d y z Hd Hy Hz.
  eexists. split; [apply V; assumption|]. rewrite V' by assumption. f_equal. unfold resampled. rewrite <- (Forall2_len _ _ _ F).
  assert (L0 : (0 < List.length ts)%nat) by (destruct ts; [congruence|cbn; lia]). apply interp1_ext; [exact L0|]. intros j Hj.
  set (e := nth j ts (mk [] (fun _ => 0))). set (e' := nth j ts' (mk [] (fun _ => 0))).
  assert (RR : exists N, (0 < N)%nat /\ shape e = [B; D; N] /\ shape e' = [B'; D; N] /\ forall d n, (d < D)%nat -> (n < N)%nat -> elt e' [b'; d; n] = elt e [b; d; n]).
  { destruct (nth_error ts j) as [q|] eqn:Eq; [|apply nth_error_None in Eq; lia]. destruct (Forall2_nth _ _ _ _ _ F Eq) as (q' & Eq' & RR).
    unfold e, e'. rewrite (nth_error_nth _ _ _ Eq), (nth_error_nth _ _ _ Eq'). exact RR. }
  destruct RR as (N & HN & Se & Se' & Q). rewrite Se, Se'. cbn [last]. apply interp1_ext; [exact HN|]. intros i Hi. apply Q; assumption.
Qed.

(** ** the scan does not: a loud series chooses the plane for all *)
(** the searched energies of one series on one plane *)
Definition own_energy (m : qtransform) (X : tensor R) (fsearch : option (R * R)) (b : nat) (u : R) : Prop :=
  exists tiles sel, compute_qtiles m X None = Ok tiles /\ search_slice (tr_freqs m) fsearch tiles = Ok sel /\ energies sel (fun b' _ => b' = b) u.
(** on its own, series b is loudest on plane j, strictly: the energy peak is found there and nowhere else *)
Definition loudest_on (ms : list qtransform) (X : tensor R) (fsearch : option (R * R)) (b j : nat) (peak : R) : Prop := 0 < peak /\
  (exists m, nth_error ms j = Some m /\ own_energy m X fsearch b peak) /\
  forall i m u, i <> j -> nth_error ms i = Some m -> own_energy m X fsearch b u -> u < peak.
Lemma finite_bound {A} (P : A -> R -> Prop) (l : list A) : (forall x, In x l -> exists U, forall u, P x u -> u <= U) -> exists U, 0 <= U /\ forall x u, In x l -> P x u -> u <= U.
Proof.
  induction l as [|x l IH]; intros H; [exists 0; split; [lra|intros x u []]|]. destruct (H x (or_introl eq_refl)) as [U HU]. destruct IH as (V & HV & IV); [intros y Hy; apply H; right; exact Hy|].
  exists (Rmax U V). split; [eapply Rle_trans; [exact HV|apply Rmax_r]|]. intros y u [<-|Hy] Hu; [eapply Rle_trans; [apply HU; exact Hu|apply Rmax_l]|eapply Rle_trans; [apply (IV y u Hy Hu)|apply Rmax_r]].
Qed.
Theorem qscan_loud_companion ms X B D T nf nt fsearch b1 j peak : ms <> [] -> List.Forall (fun m => made_for m T /\ tr_tiles m <> [] /\ tr_method m <> Spline) ms ->
  (0 < T)%nat -> (0 < D)%nat -> (0 < nf)%nat -> (0 < nt)%nat -> holds3 X B D T -> (b1 < B)%nat -> is_ok (qscan_forward ms nf nt X fsearch None) -> loudest_on ms X fsearch b1 j peak ->
  exists c0, 0 < c0 /\ forall c Y, c0 < c -> holds3 Y B D T ->
    (forall b d s, (b < B)%nat -> (d < D)%nat -> (s < T)%nat -> series_of Y b d s = if (b =? b1)%nat then c * series_of X b d s else series_of X b d s) ->
    exists m out tiles, nth_error ms j = Some m /\ qtr_forward m nf nt Y None = Ok (out, tiles) /\ qscan_forward ms nf nt Y fsearch None = Ok out.
Proof.
  intros NE FM HT HD Hf Ht H Hb1 [out0 EQ] (Hpk & (mj & Ej & OWN) & OTH). assert (HB : (0 < B)%nat) by lia.
  (* the tiles of X, and what is searched of them *)
  assert (FA : exists all, Forall2 (fun m tiles => compute_qtiles m X None = Ok tiles /\ List.Forall (tile_shape B D) tiles /\ tiles <> []) ms all).
  { apply Forall2_choice. intros m Im. rewrite List.Forall_forall in FM. destruct (FM m Im) as (Mm & Nm & _).
    destruct (qtiles_gain m X X B D T None NoNorm (fun _ _ => 1) Mm HT H H) as (ts & ts9 & E & _ & F & L); [exact I|intros; ring|congruence|]. exists ts. split; [exact E|].
    split; [apply (related_left _ _ _ _ _ _ F)|intros ->; cbn in L; destruct (tr_tiles m); [congruence|discriminate]]. }
  destruct FA as [all FA].
  assert (SEL : Forall2 (fun m tiles => exists sel, search_slice (tr_freqs m) fsearch tiles = Ok sel /\ sel <> []) ms all).
  { unfold qscan_forward in EQ. assert (E1 : sequence (map (fun m => compute_qtiles m X None) ms) = Ok all).
    { clear -FA. induction FA as [|m t l l' (E & _) _ IH]; cbn; [reflexivity|]. rewrite E. cbn [bind]. rewrite IH. reflexivity. }
    rewrite E1 in EQ. cbn [bind] in EQ. destruct (sequence (map _ (combine ms all))) as [es|] eqn:Es; [|discriminate]. clear EQ E1.
    apply sequence_map_inv in Es. clear -FA Es. revert es Es. induction FA as [|m t l l' _ FA IH]; intros es Es; cbn in Es; inversion Es as [|p q l0 l1 G Es']; subst; constructor; [|eapply IH; exact Es'].
    cbn [fst snd] in G. unfold get_max_energy in G. cbn -[search_slice sequence] in G. destruct (search_slice (tr_freqs m) fsearch t) as [sel|] eqn:E; [|discriminate]. exists sel. split; [reflexivity|]. intros ->. cbn in G. discriminate. }
  (* a bound on all energies of X *)
  destruct (finite_bound (fun p u => exists sel, search_slice (tr_freqs (fst p)) fsearch (snd p) = Ok sel /\ energies sel (fun _ _ => True) u) (combine ms all)) as (U & HU & BU).
  { intros [m ts] Ip. cbn [fst snd]. apply In_nth_error in Ip. destruct Ip as [i Ip]. apply combine_nth_error_inv in Ip. destruct Ip as [Im It].
    destruct (Forall2_nth _ _ _ _ _ FA Im) as (t & It' & _ & Sh & _). rewrite It in It'. injection It' as <-.
    destruct (Forall2_nth _ _ _ _ _ SEL Im) as (t & It' & sel & Es & Ns). rewrite It in It'. injection It' as <-.
    destruct (max_energy (tr_freqs m) ts fsearch sel B D Es Ns HB HD Sh) as [[r [_ [_ [_ M]]]] _]. eexists. intros u (sel' & Es' & G). rewrite Es in Es'. injection Es' as <-. apply M. exact G. }
  exists (Rmax 1 (U / peak)). split; [eapply Rlt_le_trans; [|apply Rmax_l]; lra|]. intros c Y Hc HY EY.
  assert (C1 : 1 < c) by (eapply Rle_lt_trans; [apply Rmax_l|exact Hc]). assert (C2 : U < c ^ 2 * peak).
  { assert (U / peak < c) by (eapply Rle_lt_trans; [apply Rmax_r|exact Hc]). assert (U < c * peak) by (replace U with (U / peak * peak) by (field; lra); apply Rmult_lt_compat_r; assumption). assert (0 < (c - 1) * (c * peak)) by (apply Rmult_lt_0_compat; [lra|apply Rmult_lt_0_compat; lra]). replace (c ^ 2 * peak) with (c * peak + (c - 1) * (c * peak)) by ring. lra. }
  set (a := fun b (_ : nat) => if (b =? b1)%nat then c ^ 2 else 1).
  assert (FP : exists prs, Forall2 (fun m pr => compute_qtiles m X None = Ok (fst pr) /\ compute_qtiles m Y None = Ok (snd pr) /\ Forall2 (rows_related B D a (fun _ n => n)) (fst pr) (snd pr)) ms prs).
  { apply Forall2_choice. intros m Im. rewrite List.Forall_forall in FM. destruct (FM m Im) as (Mm & Nm & _).
    destruct (qtiles_gain m X Y B D T None NoNorm (fun b _ => if (b =? b1)%nat then c else 1) Mm HT H HY) as (ts & ts' & E & E' & F & _); [exact I| |congruence|].
    { intros b d s Hb Hd Hs. rewrite EY by assumption. destruct (b =? b1)%nat; ring. }
    exists (ts, ts'). cbn [fst snd]. split; [exact E|]. split; [exact E'|]. clear -F. induction F as [|e e' l l' (N & HN & A & A' & Q) F IH]; constructor; [|exact IH]. exists N. split; [exact HN|]. split; [exact A|]. split; [exact A'|].
    intros b d n Hb Hd Hn. destruct (Q b d n Hb Hd Hn) as [Q1 Q2]. split; [exact Q1|]. rewrite Q2. unfold a. destruct (b =? b1)%nat; ring. }
  destruct FP as [prs FP].
  assert (EA : all = map fst prs).
  { clear -FA FP. revert all FA. induction FP as [|m pr l l' (E & _) FP IH]; intros all FA; inversion FA as [|x y l0 l1 (E0 & _) F0]; subst; cbn; [reflexivity|]. f_equal; [congruence|apply IH; assumption]. }
  subst all.
  assert (F2 : Forall2 (fun m tiles => compute_qtiles m Y None = Ok tiles /\ List.Forall (tile_shape B D) tiles /\ exists sel, search_slice (tr_freqs m) fsearch tiles = Ok sel /\ sel <> []) ms (map snd prs)).
  { clear -FP SEL. induction FP as [|m t l l' (E & E' & F) FP IH]; inversion SEL as [|? ? ? ? (sel & Esel & Nsel) SEL']; subst; cbn; constructor; [|apply IH; assumption].
    split; [exact E'|]. split; [apply (related_left _ _ _ _ _ _ F)|]. destruct (search_related _ _ _ _ _ F Esel) as (sel' & Es' & Fs). exists sel'. split; [exact Es'|]. intros ->. inversion Fs; congruence. }
  destruct (qscan_selects ms nf nt Y fsearch None B D _ NE HB HD F2) as (i & m & ts & v & Em & Et & PM & MX & EO).
  (* the energy of plane j reaches c^2 peak *)
  assert (UP : c ^ 2 * peak <= v).
  { destruct OWN as (tl & sel & Ec & Es & (q & b & d & n & Iq & -> & G)). destruct (Forall2_nth _ _ _ _ _ FP Ej) as (pr & Ep & E & E' & F). rewrite Ec in E. injection E as ->.
    destruct (search_related _ _ _ _ _ F Es) as (sel' & Es' & Fs). destruct (Forall2_nth _ _ _ _ _ F2 Ej) as (t' & Et' & _ & Sh' & sel2 & Es2 & Ns2). rewrite (map_nth_error snd _ _ Ep) in Et'. injection Et' as <-.
    rewrite Es' in Es2. injection Es2 as <-. destruct (max_energy (tr_freqs mj) (snd pr) fsearch sel' B D Es' Ns2 HB HD Sh') as [[r [_ [_ M]]] _].
    eapply Rle_trans; [|apply (MX j mj (snd pr) _ Ej (map_nth_error snd _ _ Ep)); exists sel'; split; [exact Es'|exact M]].
    apply M. apply In_nth_error in Iq. destruct Iq as [kq Iq]. destruct (Forall2_nth _ _ _ _ _ Fs Iq) as (q' & Iq' & N & HN & A & A' & Q). exists q', b1, d, n. split; [eapply nth_error_In; exact Iq'|]. split; [trivial|].
    apply get_some in G as [IB <-]. rewrite A in IB. cbn [inb] in IB. destruct IB as (_ & Hd & Hn & _). rewrite get_inb by (rewrite A'; cbn; auto). f_equal. destruct (Q b1 d n Hb1 Hd Hn) as [_ ->]. unfold a. rewrite Nat.eqb_refl. reflexivity. }
  assert (IJ : i = j).
  { destruct (Nat.eq_dec i j) as [|NIJ]; [assumption|exfalso]. destruct PM as (sel' & Es' & [(q' & b & d & n & Iq' & _ & G') _]).
    destruct (Forall2_nth _ _ _ _ _ FP Em) as (pr & Ep & E & E' & F). rewrite (map_nth_error snd _ _ Ep) in Et. injection Et as <-.
    destruct (Forall2_nth _ _ _ _ _ SEL Em) as (t & It' & sel & Es & Ns). rewrite (map_nth_error fst _ _ Ep) in It'. injection It' as <-.
    destruct (search_related _ _ _ _ _ F Es) as (sel2 & Es2 & Fs). rewrite Es' in Es2. injection Es2 as <-.
    assert (K : exists q0, In q0 sel /\ rows_related B D a (fun _ n => n) q0 q').
    { clear -Fs Iq'. induction Fs as [|x y l l' Hxy F IH]; [destruct Iq'|]. destruct Iq' as [<-|I']; [exists x; split; [left; reflexivity|exact Hxy]|]. destruct (IH I') as (q0 & I0 & R0). exists q0. split; [right; exact I0|exact R0]. }
    destruct K as (q0 & I0 & N & HN & A & A' & Q). apply get_some in G' as [IB EV]. rewrite A' in IB. cbn [inb] in IB. destruct IB as (Hb & Hd & Hn & _).
    destruct (Q b d n Hb Hd Hn) as [_ QE]. rewrite QE in EV. unfold a in EV.
    assert (G0 : get q0 [b; d; n] = Some (elt q0 [b; d; n])) by (apply get_inb; rewrite A; cbn; auto). set (e0 := elt q0 [b; d; n]) in *.
    destruct (Nat.eqb_spec b b1) as [->|NB].
    - assert (e0 < peak). { apply (OTH i m e0 NIJ Em). exists (fst pr), sel. split; [exact E|]. split; [exact Es|]. exists q0, b1, d, n. auto. }
      assert (0 < c ^ 2) by (apply pow_lt; lra). nra.
    - assert (e0 <= U). { apply (BU (m, fst pr)); [eapply nth_error_In; apply (combine_nth_error _ _ i); [exact Em|apply map_nth_error; exact Ep]|]. cbn [fst snd]. exists sel. split; [exact Es|]. exists q0, b, d, n. auto. }
      lra. }
  subst i. rewrite Em in Ej. injection Ej as <-.
  destruct (Forall2_nth _ _ _ _ _ F2 Em) as (t & Et' & Ec & Sh & _). rewrite Et in Et'. injection Et' as <-.
  assert (NT : ts <> []). { destruct (Forall2_nth _ _ _ _ _ F2 Em) as (t & Et' & _ & _ & sel & Es & Ns). rewrite Et in Et'. injection Et' as <-. intros ->. apply Ns. unfold search_slice in Es. destruct fsearch as [[lo hi]|]; [|congruence]. destruct (first_above_res (tr_freqs m) lo); [|discriminate]. destruct (first_above_res (tr_freqs m) hi); [|discriminate]. cbn [bind] in Es. injection Es as <-. unfold pyslice. rewrite skipn_nil, firstn_nil. reflexivity. }
  destruct (spectrogram_spec (tr_method m) nf nt ts B D NT HB HD Hf Ht (shapes_nth _ _ _ Sh)) as (out & Io & _).
  exists m, out, ts. split; [exact Em|]. unfold qtr_forward. rewrite Ec. cbn [bind]. rewrite Io. cbn [bind]. split; [reflexivity|]. rewrite EO. exact Io.
Qed.

(** ** two planes that disagree *)
Definition row12 : qtile := mkqt 12 48 1 1024 (1/5).
Definition row24 : qtile := mkqt 24 48 1 1024 (1/5).
Lemma row24_fits : fitting row24 6 32 /\ usable row24 /\ inside_spectrum row24 48 6 1024.
Proof.
  assert (P : positive row24) by (repeat split; cbn; lra).
  assert (S11 : 3.3 <= sqrt 11 < 3.32) by (apply sqrt_bounds; lra).
  assert (H : INR 6 <= half_width row24 < INR 6 + 1) by (unfold half_width; cbn [row24 qt_f qt_dur qt_q]; rewrite INR_IZR_INZ; change (Z.of_nat 6) with 6%Z; split; lra).
  assert (Sm : 0.25 <= sqrt (1/5/3) < 0.26) by (apply sqrt_bounds; lra).
  assert (W : 16 < wanted_tiles row24 <= 32).
  { pose proof PI_gt_3. pose proof PI_4. unfold wanted_tiles. cbn [row24 qt_f qt_dur qt_q qt_mm].
    set (s := sqrt (1/5/3)) in *. replace (2 * PI * 48 * 1 / 24 / (2 * s)) with (2 * PI / s) by (field; lra).
    assert (E : 2 * PI / s * s = 2 * PI) by (field; lra). set (y := 2 * PI / s) in *. split; nra. }
  split; [|split].
  - repeat split; try (apply P); try (apply H); [|lia].
    destruct (qtile_count row24 P) as [_ Q]. destruct Q as [e [-> [L1 L2]]]; [lra|].
    assert (e <= 5)%nat by (apply L2; cbn; lra).
    assert (~ (e <= 4)%nat) by (intros L; assert (2 ^ e <= 2 ^ 4) by (apply Rle_pow; [lra|lia]); cbn in *; lra).
    assert (e = 5)%nat by lia. subst e. reflexivity.
  - split; [exact P|]. pose proof PI_gt_3. split; [cbn [row24 qt_mm]; nra|lra].
  - assert (E1 : INR 48 = 48) by (rewrite INR_IZR_INZ; reflexivity). assert (E2 : INR 1024 = 1024) by (rewrite INR_IZR_INZ; reflexivity).
    unfold inside_spectrum. cbn [row24 qt_f qt_dur qt_sr]. rewrite E1, E2. repeat split; try lra; lia.
Qed.
(** one row: what the transform stores *)
Lemma one_row m t h N T X B D : tr_tiles m = [t] -> usable t -> qt_dur t * qt_sr t = INR T -> fitting t h N -> (0 < T)%nat -> shape X = [B; D; T] ->
  exists e, compute_qtiles m X None = Ok [e] /\ shape e = [B; D; N] /\ (0 < N)%nat /\
    forall b d n, (b < B)%nat -> (d < D)%nat -> (n < N)%nat -> elt e [b; d; n] = row_energy t h N T (fun s => elt X [b; d; s]) n.
Proof.
  intros Em U ED Fi HT HS. assert (P3 : pad_ndim3 X = X) by (unfold pad_ndim3, ndim; rewrite HS; reflexivity).
  destruct (qtiles_spec m X B D T None NoNorm) as (tl & E & F); try assumption; try exact I; rewrite ?P3; try assumption.
  - rewrite Em. constructor; [exact U|constructor].
  - unfold ndim. rewrite HS. cbn. lia.
  - rewrite Em. apply List.Forall_cons; [|apply List.Forall_nil]. rewrite ED, INR_IZR_INZ, rtrunc_IZR. lia.
  - rewrite Em in F. inversion F as [|t0 e ts es (h' & N' & Fi' & Se & V) F2]; subst. inversion F2; subst. destruct (fitting_unique t h N h' N' Fi Fi') as [<- <-].
    exists e. split; [exact E|]. split; [exact Se|]. split; [destruct Fi as (_ & _ & _ & Q); lia|]. intros b d n Hb Hd Hn. specialize (V b d n Hb Hd Hn). apply get_some in V as [_ V]. rewrite V. cbn [renorm]. rewrite P3. reflexivity.
Qed.
Definition plane12 : qtransform := mkqtr 12 (48, 48) [48] [row12] Bilinear.
Definition plane24 : qtransform := mkqtr 24 (48, 48) [48] [row24] Bilinear.
(** a sinusoid of 40 Hz alone, and next to one of 49 Hz of the same amplitude *)
Definition alone40 : tensor R := mk [1; 1; 1024]%nat (fun i => match i with [_; _; s] => tone 1024 40 1 0 s | _ => 0 end).
Definition with49 : tensor R := mk [2; 1; 1024]%nat (fun i => match i with [b; _; s] => tone 1024 (if (b =? 0)%nat then 40 else 49) 1 0 s | _ => 0 end).
(** alone its spectrogram is positive everywhere; next to the other it vanishes identically *)
Theorem qscan_row_local_refuted nf nt : (0 < nf)%nat -> (0 < nt)%nat ->
  (forall s, (s < 1024)%nat -> elt with49 [0; 0; s]%nat = elt alone40 [0; 0; s]%nat) /\
  exists out out', qscan_forward [plane12; plane24] nf nt alone40 None None = Ok out /\ qscan_forward [plane12; plane24] nf nt with49 None None = Ok out' /\
    forall y z, (y < nf)%nat -> (z < nt)%nat -> exists v, 0 < v /\ get out (keep_coords [1; 1; nf; nt] [0; 0; y; z])%nat = Some v /\ get out' (keep_coords [2; 1; nf; nt] [0; 0; y; z])%nat = Some 0.
Proof.
  intros Hf Ht. split; [intros s _; reflexivity|].
  destruct inside_ex as (U1 & F1 & I1 & _). destruct row24_fits as (F2 & U2 & I2). fold row12 in U1, F1, I1.
  assert (ED1 : qt_dur row12 * qt_sr row12 = INR 1024) by apply I1. assert (ED2 : qt_dur row24 * qt_sr row24 = INR 1024) by apply I2.
  assert (T0 : (0 < 1024)%nat) by lia.
  set (c := 1 ^ 2 * (315 * 12 / (128 * sqrt 11 * 48)) / INR 1024 ^ 2). assert (S11 : 3.3 <= sqrt 11 < 3.32) by (apply sqrt_bounds; lra).
  assert (PT : 0 < INR 1024) by (apply lt_0_INR; lia).
  assert (C0 : 0 < c). { unfold c. apply Rdiv_lt_0_compat; [|apply pow_lt, PT]. apply Rmult_lt_0_compat; [lra|]. apply Rdiv_lt_0_compat; [lra|]. repeat apply Rmult_lt_0_compat; lra. }
  assert (HW : half_width row12 = 4 * sqrt 11) by (unfold half_width; cbn [row12 qt_f qt_dur qt_q]; field).
  set (g40 := (1 - (-9 / (4 * sqrt 11)) ^ 2) ^ 4).
  assert (G40 : 0 < g40 <= 1).
  { assert (SQ : (-9 / (4 * sqrt 11)) ^ 2 = 81 / 176). { unfold Rdiv. rewrite Rpow_mult_distr, pow_inv, Rpow_mult_distr, pow2_sqrt by lra. lra. }
    unfold g40. rewrite SQ. split; [apply pow_lt; lra|]. rewrite <- (pow1 4). apply pow_incr. lra. }
  assert (E40a : forall n, row_energy row12 13 64 1024 (tone 1024 40 1 0) n = c * g40).
  { intros n. rewrite (row_tone row12 48 13 64 1024 40 1 0 n F1 I1) by lia. cbn [Nat.leb Nat.sub Nat.add andb]. rewrite HW. cbn [row12 qt_q qt_f]. unfold c, g40. f_equal. f_equal. f_equal. f_equal. f_equal. rewrite !INR_IZR_INZ. rewrite <- minus_IZR. reflexivity. }
  assert (E49a : forall n, row_energy row12 13 64 1024 (tone 1024 49 1 0) n = c).
  { intros n. rewrite (row_tone row12 48 13 64 1024 49 1 0 n F1 I1) by lia. cbn [Nat.leb Nat.sub Nat.add andb]. cbn [row12 qt_q qt_f]. fold c. replace (INR 49 - INR 49) with 0 by ring. unfold Rdiv. rewrite Rmult_0_l. change ((36 <=? 49)%nat && (49 <=? 62)%nat)%bool with true. cbv iota. ring. }
  assert (E40b : forall n, row_energy row24 6 32 1024 (tone 1024 40 1 0) n = 0).
  { intros n. rewrite (row_tone row24 48 6 32 1024 40 1 0 n F2 I2) by lia. reflexivity. }
  assert (E49b : forall n, row_energy row24 6 32 1024 (tone 1024 49 1 0) n = 2 * c).
  { intros n. rewrite (row_tone row24 48 6 32 1024 49 1 0 n F2 I2) by lia. cbn [Nat.leb Nat.sub Nat.add andb]. cbn [row24 qt_q qt_f]. replace (INR 49 - INR 49) with 0 by ring. change ((43 <=? 49)%nat && (49 <=? 55)%nat)%bool with true. cbv iota. unfold c. pose proof (half_width_pos row24 (proj1 U2)). field. split; [lra|split; lra]. }
  destruct (one_row plane12 row12 13 64 1024 alone40 1 1 eq_refl U1 ED1 F1 T0 eq_refl) as (ea & Ca & Sa & _ & Va).
  destruct (one_row plane24 row24 6 32 1024 alone40 1 1 eq_refl U2 ED2 F2 T0 eq_refl) as (eb & Cb & Sb & _ & Vb).
  destruct (one_row plane12 row12 13 64 1024 with49 2 1 eq_refl U1 ED1 F1 T0 eq_refl) as (ea' & Ca' & Sa' & _ & Va').
  destruct (one_row plane24 row24 6 32 1024 with49 2 1 eq_refl U2 ED2 F2 T0 eq_refl) as (eb' & Cb' & Sb' & _ & Vb').
  assert (TS : forall B D N e, shape e = [B; D; N] -> (0 < N)%nat -> tile_shape B D e) by (intros B D N e H1 H2; exists N; auto).
  assert (SO : forall m e B D N, shape e = [B; D; N] -> (0 < N)%nat -> forall X, compute_qtiles m X None = Ok [e] -> compute_qtiles m X None = Ok [e] /\ List.Forall (tile_shape B D) [e] /\ exists sel, search_slice (tr_freqs m) None [e] = Ok sel /\ sel <> []).
  { intros m e B D N H1 H2 X H3. split; [exact H3|]. split; [apply List.Forall_cons; [eapply TS; eassumption|apply List.Forall_nil]|]. exists [e]. split; [reflexivity|discriminate]. }
  destruct (qscan_selects [plane12; plane24] nf nt alone40 None None 1 1 [[ea]; [eb]]) as (i & m & ts & v & Em & Et & PM & MX & EO); try lia; try discriminate.
  { constructor; [eapply (SO plane12 ea); [exact Sa|lia|exact Ca]|]. constructor; [eapply (SO plane24 eb); [exact Sb|lia|exact Cb]|constructor]. }
  destruct (qscan_selects [plane12; plane24] nf nt with49 None None 2 1 [[ea']; [eb']]) as (i' & m' & ts' & v' & Em' & Et' & PM' & MX' & EO'); try lia; try discriminate.
  { constructor; [eapply (SO plane12 ea'); [exact Sa'|lia|exact Ca']|]. constructor; [eapply (SO plane24 eb'); [exact Sb'|lia|exact Cb']|constructor]. }
  assert (ALL : forall e B D N (P : R -> Prop), shape e = [B; D; N] -> (forall b d n, (b < B)%nat -> (d < D)%nat -> (n < N)%nat -> P (elt e [b; d; n])) -> forall u, energies [e] (fun _ _ => True) u -> P u).
  { intros e B D N P HS HP u (q & b & d & n & [<-|[]] & _ & G). apply get_some in G as [IB <-]. rewrite HS in IB. cbn [inb] in IB. apply HP; tauto. }
  (* alone: the first plane *)
  assert (I0 : i = 0%nat).
  { destruct i as [|[|i]]; [reflexivity| |destruct i; discriminate]. injection Em as <-. injection Et as <-. exfalso.
    assert (PA : plane_max plane12 [ea] None (c * g40)).
    { exists [ea]. split; [reflexivity|]. split.
      - exists ea, 0%nat, 0%nat, 0%nat. split; [left; reflexivity|]. split; [trivial|]. rewrite get_inb by (rewrite Sa; cbn; lia). rewrite Va by lia. f_equal. apply E40a.
      - intros u Hu. apply (ALL ea 1%nat 1%nat 64%nat (fun u => u <= c * g40) Sa); [|exact Hu]. intros b d n Hb Hd Hn. rewrite Va by assumption. right. apply E40a. }
    destruct (MX 0%nat plane12 [ea] _ eq_refl eq_refl PA) as [L _]. destruct PM as (sel & Es & [Hv _]). injection Es as <-.
    assert (v = 0). { apply (ALL eb 1%nat 1%nat 32%nat (fun u => u = 0) Sb); [|exact Hv]. intros b d n Hb Hd Hn. rewrite Vb by assumption. apply E40b. }
    assert (0 < c * g40) by (apply Rmult_lt_0_compat; lra). lra. }
  subst i. injection Em as <-. injection Et as <-.
  (* together: the second *)
  assert (I1' : i' = 1%nat).
  { destruct i' as [|[|i']]; [|reflexivity|destruct i'; discriminate]. injection Em' as <-. injection Et' as <-. exfalso.
    assert (R49 : forall n, (n < 32)%nat -> elt eb' [1; 0; n]%nat = 2 * c) by (intros n Hn; rewrite Vb' by lia; apply E49b).
    assert (R40 : forall n, (n < 32)%nat -> elt eb' [0; 0; n]%nat = 0) by (intros n Hn; rewrite Vb' by lia; apply E40b).
    assert (PB : plane_max plane24 [eb'] None (2 * c)).
    { exists [eb']. split; [reflexivity|]. split.
      - exists eb', 1%nat, 0%nat, 0%nat. split; [left; reflexivity|]. split; [trivial|]. rewrite get_inb by (rewrite Sb'; cbn; lia). f_equal. apply R49. lia.
      - intros u Hu. apply (ALL eb' 2%nat 1%nat 32%nat (fun u => u <= 2 * c) Sb'); [|exact Hu]. intros b d n Hb Hd Hn. replace d with 0%nat by lia. destruct b as [|[|b]]; [rewrite R40 by assumption; lra|rewrite R49 by assumption; lra|lia]. }
    destruct (MX' 1%nat plane24 [eb'] _ eq_refl eq_refl PB) as [L _]. destruct PM' as (sel & Es & [Hv _]). injection Es as <-.
    assert (v' <= c). { apply (ALL ea' 2%nat 1%nat 64%nat (fun u => u <= c) Sa'); [|exact Hv]. intros b d n Hb Hd Hn. rewrite Va' by assumption. destruct b as [|[|b]]; [|right; apply E49a|lia].
      cbn [with49 elt Nat.eqb]. eapply Rle_trans; [right; apply E40a|]. rewrite <- (Rmult_1_r c) at 2. apply Rmult_le_compat_l; lra. }
    lra. }
  subst i'. injection Em' as <-. injection Et' as <-.
  assert (SN : forall (e : tensor R) B D N, shape e = [B; D; N] -> (0 < N)%nat -> forall k q, nth_error [e] k = Some q -> exists N, shape q = [B; D; N] /\ (0 < N)%nat).
  { intros e B D N H1 H2 [|[|k]] q Hq; try discriminate. injection Hq as <-. eauto. }
  destruct (spectrogram_spec Bilinear nf nt [ea] 1 1) as (out & Io & _ & V); try lia; try discriminate; [eapply SN; [exact Sa|lia]|].
  destruct (spectrogram_spec Bilinear nf nt [eb'] 2 1) as (out' & Io' & _ & V'); try lia; try discriminate; [eapply SN; [exact Sb'|lia]|].
  exists out, out'. split; [rewrite EO; exact Io|]. split; [rewrite EO'; exact Io'|]. intros y z Hy Hz. exists (c * g40). split; [apply Rmult_lt_0_compat; lra|].
  assert (CONST : forall (e : tensor R) (N : nat) b B u, (0 < N)%nat -> shape e = [B; 1; N]%nat -> (forall n, (n < N)%nat -> elt e [b; 0; n]%nat = u) ->
     resampled Bilinear nf nt 1 (fun k => last (shape (nth k [e] (mk [] (fun _ => 0)))) 0%nat) (fun k l => elt (nth k [e] (mk [] (fun _ => 0))) [b; 0; l]%nat) y z = u).
  { intros e N b B u HN HS HU. unfold resampled. etransitivity; [|apply (interp_const Bilinear 1 nf u y); [lia|exact Hy]]. apply interp1_ext; [lia|]. intros k Hk. replace k with 0%nat by lia. cbn [nth]. rewrite HS. cbn [last].
    etransitivity; [|apply (interp_const Bilinear N nt u z); [exact HN|exact Hz]]. apply interp1_ext; [exact HN|]. exact HU. }
  split; [rewrite V by lia|rewrite V' by lia]; f_equal; cbn [List.length].
  - apply (CONST ea 64%nat 0%nat 1%nat); [lia|exact Sa|]. intros n Hn. rewrite Va by lia. apply E40a.
  - apply (CONST eb' 32%nat 0%nat 2%nat); [lia|exact Sb'|]. intros n Hn. rewrite Vb' by lia. apply E40b.
Qed.
(** the second series above is strictly loudest on the second plane, so the hypotheses of [qscan_loud_companion] are met *)
Example loudest_ex : exists peak, loudest_on [plane12; plane24] with49 None 1 1 peak /\ is_ok (qscan_forward [plane12; plane24] 3 4 with49 None None) /\
  holds3 with49 2 1 1024 /\ List.Forall (fun m => made_for m 1024 /\ tr_tiles m <> [] /\ tr_method m <> Spline) [plane12; plane24].
Proof.
  destruct inside_ex as (U1 & F1 & I1 & _). destruct row24_fits as (F2 & U2 & I2). fold row12 in U1, F1, I1.
  assert (ED1 : qt_dur row12 * qt_sr row12 = INR 1024) by apply I1. assert (ED2 : qt_dur row24 * qt_sr row24 = INR 1024) by apply I2.
  assert (T0 : (0 < 1024)%nat) by lia. assert (PT : 0 < INR 1024) by (apply lt_0_INR; lia). assert (S11 : 3.3 <= sqrt 11 < 3.32) by (apply sqrt_bounds; lra).
  set (c := 1 ^ 2 * (315 * 12 / (128 * sqrt 11 * 48)) / INR 1024 ^ 2).
  assert (C0 : 0 < c). { unfold c. apply Rdiv_lt_0_compat; [|apply pow_lt, PT]. apply Rmult_lt_0_compat; [lra|]. apply Rdiv_lt_0_compat; [lra|]. repeat apply Rmult_lt_0_compat; lra. }
  assert (E49a : forall n, row_energy row12 13 64 1024 (tone 1024 49 1 0) n = c).
  { intros n. rewrite (row_tone row12 48 13 64 1024 49 1 0 n F1 I1) by lia. cbn [Nat.leb Nat.sub Nat.add andb]. cbn [row12 qt_q qt_f]. fold c. replace (INR 49 - INR 49) with 0 by ring. unfold Rdiv. rewrite Rmult_0_l. change ((36 <=? 49)%nat && (49 <=? 62)%nat)%bool with true. cbv iota. ring. }
  assert (E49b : forall n, row_energy row24 6 32 1024 (tone 1024 49 1 0) n = 2 * c).
  { intros n. rewrite (row_tone row24 48 6 32 1024 49 1 0 n F2 I2) by lia. cbn [Nat.leb Nat.sub Nat.add andb]. cbn [row24 qt_q qt_f]. replace (INR 49 - INR 49) with 0 by ring. change ((43 <=? 49)%nat && (49 <=? 55)%nat)%bool with true. cbv iota. unfold c. pose proof (half_width_pos row24 (proj1 U2)). field. split; [lra|split; lra]. }
  destruct (one_row plane12 row12 13 64 1024 with49 2 1 eq_refl U1 ED1 F1 T0 eq_refl) as (ea & Ca & Sa & _ & Va).
  destruct (one_row plane24 row24 6 32 1024 with49 2 1 eq_refl U2 ED2 F2 T0 eq_refl) as (eb & Cb & Sb & _ & Vb).
  exists (2 * c). split; [|split; [|split]].
  - split; [lra|]. split.
    + exists plane24. split; [reflexivity|]. exists [eb], [eb]. split; [exact Cb|]. split; [reflexivity|]. exists eb, 1%nat, 0%nat, 0%nat. split; [left; reflexivity|]. split; [reflexivity|]. rewrite get_inb by (rewrite Sb; cbn; lia). rewrite Vb by lia. f_equal. apply E49b.
    + intros [|[|i]] m u Ni Em (ts & sel & Ec & Es & (q & b & d & n & Iq & -> & G)); [|lia|destruct i; discriminate]. injection Em as <-. rewrite Ca in Ec. injection Ec as <-. injection Es as <-.
      destruct Iq as [<-|[]]. apply get_some in G as [IB <-]. rewrite Sa in IB. cbn [inb] in IB. rewrite Va by tauto. eapply Rle_lt_trans; [right; apply E49a|lra].
  - destruct (qscan_row_local_refuted 3 4 ltac:(lia) ltac:(lia)) as (_ & out & out' & _ & E & _). exists out'. exact E.
  - split; [unfold ndim; cbn; lia|reflexivity].
  - apply List.Forall_cons; [|apply List.Forall_cons; [|apply List.Forall_nil]]; (split; [split; cbn [tr_tiles plane12 plane24]; (apply List.Forall_cons; [assumption|apply List.Forall_nil])|split; discriminate]).
Qed.
