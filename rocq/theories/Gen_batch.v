(** Property C102: what the rest of the batch does to a waveform of TimeDomainCBCWaveformGenerator. *)
From Coq Require Import Reals Lra ZArith Lia Permutation.
From Coquelicot Require Import Coquelicot.
From Verif Require Import Base Tensor Rutil Dft Gw_model Gw_props Conv_model Conv_props Wave_model Wave_props Bounds_props Qt_model Qt_props Qt2_props Iir_model Iir_props Gen_model Gen_row Gen_props Gen_main.
From Verif Require Import Tf2_model Tf2_props Phd_model Phd_main Php_geom Php_model Php_core Php_main Php_final Gen_appr.
Local Open Scope R_scope.

(** ** specification *)
(** the number of samples (rounded to the nearest integer) that the generator's bound on the duration of one binary amounts to *)
Definition samples (g : gen) (r : row) : Z := rround (row_time g r * g_sr g).
(** the frame of a batch: the smallest power of two that is no shorter than any of its binaries *)
Definition frame (g : gen) (rs : list row) (L : nat) : Prop := (exists p, L = (2 ^ p)%nat) /\
  (forall r, In r rs -> (samples g r <= Z.of_nat L)%Z) /\ (exists r, In r rs /\ (Z.of_nat L < 2 * samples g r)%Z).
(** an approximant that looks at every binary by itself *)
Definition each (ap : row -> R -> C * C) (rs : list row) (fs : list R) : res (list (list (C * C))) := Ok (map (fun r => map (ap r) fs) rs).

Theorem frame_exists g rs : good_gen g -> rs <> [] -> (forall r, In r rs -> good_row r) -> exists L, frame g rs L.
Proof.
  intros Hg Hne Hrs. destruct (resolution g rs Hg Hne Hrs) as (p & _ & A & r & I & _ & B). exists (2 ^ p)%nat. split; [exists p; reflexivity|]. split; [exact A|exists r; split; assumption].
Qed.
Theorem frame_one g rs L L' : frame g rs L -> frame g rs L' -> L = L'.
Proof. intros ([p ->] & A & B) ([p' ->] & A' & B'). f_equal. eapply frame_unique; eassumption. Qed.
Theorem frame_smallest g rs L p : frame g rs L -> (forall r, In r rs -> (samples g r <= Z.of_nat (2 ^ p))%Z) -> (L <= 2 ^ p)%nat.
Proof.
  intros ([p' ->] & A & r & I & B) H. specialize (H r I). destruct (Nat.le_gt_cases p' p) as [G|G]; [apply Nat.pow_le_mono_r; lia|]. exfalso.
  assert (2 ^ S p <= 2 ^ p')%nat by (apply Nat.pow_le_mono_r; lia). cbn [Nat.pow] in H0. lia.
Qed.
Lemma frame_incl g rs rs' L : frame g rs L -> (forall r, In r rs <-> In r rs') -> frame g rs' L.
Proof. intros (P & A & r & I & B) H. split; [exact P|]. split; [intros x Hx; apply A, H, Hx|]. exists r. split; [apply H, I|exact B]. Qed.

Lemma frame_pos g rs L : frame g rs L -> (0 < L)%nat.
Proof. intros ([p ->] & _). pose proof (Nat.pow_nonzero 2 p ltac:(lia)). lia. Qed.
Lemma each_rowwise ap rs : rowwise (each ap rs) (fun i => ap (nth i rs (mkrow 0 0 0 0))) (List.length rs).
Proof.
  intros fs _. unfold each. f_equal. apply nth_ext with (d := []) (d' := []); [rewrite !map_length, seq_length; reflexivity|]. intros i Hi. rewrite map_length in Hi.
  rewrite (nth_indep _ _ (map (ap (mkrow 0 0 0 0)) fs)) by (rewrite map_length; exact Hi). rewrite map_nth with (f := fun r => map (ap r) fs).
  rewrite (nth_indep (map _ (seq _ _)) [] (map (ap (nth 0 rs (mkrow 0 0 0 0))) fs)) by (rewrite map_length, seq_length; exact Hi). rewrite (map_nth (fun i => map (ap (nth i rs (mkrow 0 0 0 0))) fs)). rewrite seq_nth by exact Hi. reflexivity.
Qed.

Section Local.
Variables (g : gen) (q : nat).
Hypothesis Hg : good_gen g.
Hypothesis Hq : g_sr g = 2 * INR q.
Hypothesis Hab : List.length (g_a g) = List.length (g_b g).

(** what gen_forward returns, in terms of the frame *)
Lemma forward_frame rs approx ap L : rs <> [] -> (forall r, In r rs -> good_row r) -> rowwise approx ap (List.length rs) -> frame g rs L ->
  let len := Z.to_nat (Z.of_nat L + rtrunc (g_dur g * g_sr g - INR L)) in
  exists hc hp, gen_forward g approx rs = Ok (hc, hp) /\ shape hc = [List.length rs; len] /\ shape hp = [List.length rs; len] /\
  forall i r t, nth_error rs i = Some r -> (t < len)%nat ->
    elt hc [i; t] = filtfilt (g_a g) (g_b g) len (at_end 0 L len (series g L r (fun f => fst (ap i f)))) t /\
    elt hp [i; t] = filtfilt (g_a g) (g_b g) len (at_end 0 L len (series g L r (fun f => snd (ap i f)))) t.
Proof.
  intros Hne Hrs Hap HF. destruct (gen_forward_spec g rs q Hg Hq Hne Hrs Hab approx ap Hap) as (p & hc & hp & E & S1 & S2 & A & B & V). cbv zeta.
  assert (EL : L = (2 ^ p)%nat) by (apply (frame_one g rs); [exact HF|]; split; [exists p; reflexivity|]; split; assumption). rewrite EL.
  exists hc, hp. repeat split; try assumption; apply (V i r t); assumption.
Qed.
Lemma series_ext L r h h' t : 0 < row_fstart g r -> (0 < L)%nat -> (forall f, 0 < f -> h f = h' f) -> series g L r h t = series g L r h' t.
Proof.
  intros Hf HL H. assert (SP : 0 < g_sr g) by (destruct Hg; lra). rewrite (series_scal g L r h' h 1 t Hf SP HL); [ring|]. intros f Hf'. rewrite (H f Hf'), Cmult_1_l. reflexivity.
Qed.
(** ** the waveform of a binary depends on its companions only through the frame *)
Theorem gen_row_local rs rs' approx approx' ap ap' L : rs <> [] -> rs' <> [] -> (forall r, In r rs -> good_row r) -> (forall r, In r rs' -> good_row r) ->
  rowwise approx ap (List.length rs) -> rowwise approx' ap' (List.length rs') -> frame g rs L -> frame g rs' L ->
  exists o o' n, gen_forward g approx rs = Ok o /\ gen_forward g approx' rs' = Ok o' /\
    shape (fst o) = [List.length rs; n] /\ shape (snd o) = [List.length rs; n] /\ shape (fst o') = [List.length rs'; n] /\ shape (snd o') = [List.length rs'; n] /\
    forall i j r t, nth_error rs i = Some r -> nth_error rs' j = Some r -> (forall f, 0 < f -> ap i f = ap' j f) -> (t < n)%nat ->
      elt (fst o) [i; t] = elt (fst o') [j; t] /\ elt (snd o) [i; t] = elt (snd o') [j; t].
Proof.
  intros Hne Hne' Hrs Hrs' Hap Hap' HF HF'. destruct (forward_frame rs approx ap L Hne Hrs Hap HF) as (hc & hp & E & S1 & S2 & V). destruct (forward_frame rs' approx' ap' L Hne' Hrs' Hap' HF') as (hc' & hp' & E' & S1' & S2' & V').
  set (n := Z.to_nat _) in *. exists (hc, hp), (hc', hp'), n. cbn [fst snd]. do 6 (split; [assumption|]). intros i j r t Hi Hj H Ht.
  destruct (V i r t Hi Ht) as [A B]. destruct (V' j r t Hj Ht) as [A' B']. rewrite A, B, A', B'.
  assert (F : 0 < row_fstart g r) by (apply fstart_range; [apply Hrs; eapply nth_error_In; exact Hi|apply Hg]). pose proof (frame_pos g rs L HF) as LP.
  split; apply filtfilt_ext; try assumption; intros s Hs; unfold at_end; destruct (s + L <? n)%nat; try reflexivity; apply series_ext; try assumption; intros f Hf; rewrite (H f Hf); reflexivity.
Qed.
(** reordering a batch reorders the waveforms; so does repeating binaries *)
Theorem gen_reordered rs rs' ap : rs <> [] -> (forall r, In r rs -> good_row r) -> (forall r, In r rs <-> In r rs') ->
  exists o o' n, gen_forward g (each ap rs) rs = Ok o /\ gen_forward g (each ap rs') rs' = Ok o' /\
    shape (fst o) = [List.length rs; n] /\ shape (snd o) = [List.length rs; n] /\ shape (fst o') = [List.length rs'; n] /\ shape (snd o') = [List.length rs'; n] /\
    forall i j r t, nth_error rs i = Some r -> nth_error rs' j = Some r -> (t < n)%nat ->
      elt (fst o) [i; t] = elt (fst o') [j; t] /\ elt (snd o) [i; t] = elt (snd o') [j; t].
Proof.
  intros Hne Hrs HI. destruct (frame_exists g rs Hg Hne Hrs) as [L HF]. pose proof (frame_incl g rs rs' L HF HI) as HF'.
  assert (Hne' : rs' <> []) by (destruct rs as [|r0 rs0]; [contradiction|]; intros ->; apply (HI r0); left; reflexivity).
  destruct (gen_row_local rs rs' _ _ _ _ L Hne Hne' Hrs ltac:(intros r Hr; apply Hrs, HI, Hr) (each_rowwise ap rs) (each_rowwise ap rs') HF HF') as (o & o' & n & E & E' & A1 & A2 & A3 & A4 & V).
  exists o, o', n. do 6 (split; [assumption|]). intros i j r t Hi Hj Ht. apply (V i j r t Hi Hj); [|exact Ht]. intros f _. rewrite (nth_error_nth _ _ _ Hi), (nth_error_nth _ _ _ Hj). reflexivity.
Qed.
(** binaries that fit into the frame of the others can be added without changing them *)
Theorem gen_companion_fits rs new ap L : rs <> [] -> (forall r, In r (rs ++ new) -> good_row r) -> frame g rs L -> (forall r, In r new -> (samples g r <= Z.of_nat L)%Z) ->
  exists o o' n, gen_forward g (each ap rs) rs = Ok o /\ gen_forward g (each ap (rs ++ new)) (rs ++ new) = Ok o' /\
    shape (fst o) = [List.length rs; n] /\ shape (snd o) = [List.length rs; n] /\ shape (fst o') = [(List.length rs + List.length new)%nat; n] /\ shape (snd o') = [(List.length rs + List.length new)%nat; n] /\
    forall i t, (i < List.length rs)%nat -> (t < n)%nat -> elt (fst o) [i; t] = elt (fst o') [i; t] /\ elt (snd o) [i; t] = elt (snd o') [i; t].
Proof.
  intros Hne Hrs HF Hnew. assert (HF' : frame g (rs ++ new) L).
  { destruct HF as (P & A & r & I & B). split; [exact P|]. split; [intros x Hx; apply in_app_iff in Hx as [Hx|Hx]; [apply A, Hx|apply Hnew, Hx]|]. exists r. split; [apply in_app_iff; left; exact I|exact B]. }
  assert (Hne' : rs ++ new <> []) by (destruct rs; [contradiction|discriminate]).
  destruct (gen_row_local rs (rs ++ new) _ _ _ _ L Hne Hne' ltac:(intros r Hr; apply Hrs, in_app_iff; left; exact Hr) Hrs (each_rowwise ap rs) (each_rowwise ap (rs ++ new)) HF HF') as (o & o' & n & E & E' & A1 & A2 & A3 & A4 & V).
  exists o, o', n. rewrite app_length in A3, A4. do 6 (split; [assumption|]). intros i t Hi Ht. destruct (nth_error rs i) as [r|] eqn:Ei; [|apply nth_error_None in Ei; lia].
  assert (Ej : nth_error (rs ++ new) i = Some r) by (rewrite nth_error_app1 by exact Hi; exact Ei). apply (V i i r t Ei Ej); [|exact Ht]. intros f _. rewrite (nth_error_nth _ _ _ Ei), (nth_error_nth _ _ _ Ej). reflexivity.
Qed.
End Local.

(** ** a companion that does not fit: the waveform is sampled on another frequency grid *)
Lemma gain_pos (n : Z) (j : Z) : (0 < j < n)%Z -> 0 < 1 / 2 - 1 / 2 * cos (PI * IZR j / IZR n).
Proof.
  intros [H0 H1]. apply IZR_lt in H0, H1. pose proof PI_RGT_0 as P. assert (cos (PI * IZR j / IZR n) < cos 0); [|rewrite cos_0 in H; lra].
  apply cos_decreasing_1; try lra.
  - apply Rlt_le, Rdiv_lt_0_compat; [apply Rmult_lt_0_compat|]; lra.
  - apply Rmult_le_reg_r with (IZR n); [lra|]. unfold Rdiv. rewrite Rmult_assoc, Rinv_l by lra. nra.
  - apply Rdiv_lt_0_compat; [apply Rmult_lt_0_compat|]; lra.
Qed.
Lemma start_gain_pos g t : (0 < t)%Z -> 0 < start_gain g t.
Proof. intros H. unfold start_gain. destruct (Z.ltb_spec t (ntaper_start g)); [apply gain_pos; lia|lra]. Qed.
Lemma end_gain_pos g r j : (0 < j)%Z -> 0 < end_gain g r j.
Proof. intros H. unfold end_gain. destruct (Z.ltb_spec j (ntaper_end g r)); [apply gain_pos; lia|lra]. Qed.
(** a heavy companion: 6 / f_isco exceeds any duration *)
Lemma heavy g T : good_gen g -> exists r, good_row r /\ T < row_time g r.
Proof.
  intros Hg. pose proof solar_near as [S0 _]. pose proof PI_RGT_0 as PP. set (k := secs (kg 1 + kg 1) * solar).
  assert (K0 : 0 < k). { apply Rmult_lt_0_compat; [apply secs_pos; pose proof (kg_pos 1 ltac:(lra)); lra|lra]. }
  set (m := (Rabs T + 1) / (27 * PI * k)). assert (D : 0 < 27 * PI * k) by (apply Rmult_lt_0_compat; lra). assert (M : 0 < m) by (apply Rdiv_lt_0_compat; [pose proof (Rabs_pos T); lra|exact D]).
  exists (mkrow m m 0 0). assert (G : good_row (mkrow m m 0 0)) by (unfold good_row; cbn [m_1 m_2 s_1 s_2]; lra). split; [exact G|].
  assert (Hf : 0 < g_fmin g) by apply Hg. pose proof (row_time_long g _ G Hf) as RT. destruct (fmin_range g _ G Hf) as (F0 & F1 & _). rewrite (isco_secs _ G) in F1. cbn [m_1 m_2] in F1.
  replace (secs (kg m + kg m) * solar) with (m * k) in F1 by (unfold k, secs, kg; unfold Rdiv; ring).
  replace (27 * PI * (m * k)) with (Rabs T + 1) in F1 by (unfold m; field; repeat split; lra). 
  apply Rle_lt_trans with (6 / row_fmin g (mkrow m m 0 0)); [|exact RT]. set (f := row_fmin _ _) in *. pose proof (Rle_abs T). pose proof (Rabs_pos T). set (t := Rabs T + 1) in *.
  apply Rle_trans with t; [unfold t; lra|]. apply Rmult_le_reg_r with f; [exact F0|]. replace (6 / f * f) with 6 by (field; lra). apply Rle_trans with (t * (1 / t)); [apply Rmult_le_compat_l; [unfold t; lra|exact F1]|]. replace (t * (1 / t)) with 1 by (field; unfold t; lra). lra.
Qed.

(** for every binary there is a companion, and an approximant that treats every binary by itself, with which the binary's waveform is
    identically zero on its own and not zero next to the companion *)
Theorem gen_companion_refuted g q r : good_gen g -> g_sr g = 2 * INR q -> g_fmin g < g_sr g / 2 -> 1 <= g_dur g * g_sr g ->
  List.length (g_a g) = List.length (g_b g) -> nth 0 (g_a g) 0 <> 0 -> nth 0 (g_b g) 0 <> 0 -> good_row r ->
  exists r' ap o o' n n', good_row r' /\ gen_forward g (each ap [r]) [r] = Ok o /\ gen_forward g (each ap [r; r']) [r; r'] = Ok o' /\
    shape (fst o) = [1%nat; n] /\ shape (snd o) = [1%nat; n] /\ shape (fst o') = [2%nat; n'] /\ shape (snd o') = [2%nat; n'] /\
    (forall t, (t < n)%nat -> elt (fst o) [0%nat; t] = 0 /\ elt (snd o) [0%nat; t] = 0) /\
    (exists t, (t < n')%nat /\ elt (fst o') [0%nat; t] <> 0) /\ (exists t, (t < n')%nat /\ elt (snd o') [0%nat; t] <> 0).
Proof.
  intros Hg Hq Hny HD Hab Ha Hb Hr. assert (SP : 0 < g_sr g) by (destruct Hg; lra).
  assert (Hr1 : forall x, In x [r] -> good_row x) by (intros x [<-|[]]; exact Hr).
  destruct (frame_exists g [r] Hg ltac:(discriminate) Hr1) as [L HF]. set (X := 3 / 2 * g_sr g / (g_sr g / 2 - g_fmin g)).
  assert (X0 : 0 < X) by (apply Rdiv_lt_0_compat; lra).
  destruct (heavy g ((INR L + X + 2) / g_sr g) Hg) as (r' & Hr' & HT).
  assert (TS : INR L + X + 2 < row_time g r' * g_sr g). { apply Rmult_lt_compat_r with (r := g_sr g) in HT; [|exact SP]. replace ((INR L + X + 2) / g_sr g * g_sr g) with (INR L + X + 2) in HT by (field; lra). exact HT. }
  assert (Hr2 : forall x, In x [r; r'] -> good_row x) by (intros x [<-|[<-|[]]]; assumption).
  destruct (frame_exists g [r; r'] Hg ltac:(discriminate) Hr2) as [L' HF'].
  assert (LL : INR L + X + 1 < INR L'). { destruct HF' as (_ & A & _). specialize (A r' (or_intror (or_introl eq_refl))). unfold samples in A. apply IZR_le in A. rewrite <- INR_IZR_INZ in A. pose proof (rround_near (row_time g r' * g_sr g)). lra. }
  assert (L0 : (0 < L)%nat) by (apply (frame_pos g [r]); exact HF). assert (LT : (L < L')%nat) by (apply INR_lt; lra).
  assert (DIV : exists d, L' = (L * (2 * d))%nat /\ (0 < d)%nat).
  { destruct HF as ([p ->] & _). destruct HF' as ([p' ->] & _). assert (p < p')%nat by (apply Nat.nle_gt; intros G; apply (Nat.pow_le_mono_r 2) in G; lia).
    exists (2 ^ (p' - p - 1))%nat. split; [|pose proof (Nat.pow_nonzero 2 (p' - p - 1) ltac:(lia)); lia]. rewrite <- (Nat.pow_succ_r' 2), <- Nat.pow_add_r. f_equal. lia. }
  destruct DIV as (d & DIV & D0).
  assert (E4 : exists m, L' = (4 * m)%nat /\ (0 < m)%nat).
  { assert (N12 : (2 < L')%nat). { destruct HF' as (_ & A & _). specialize (A r (or_introl eq_refl)). unfold samples in A. apply IZR_le in A. rewrite <- INR_IZR_INZ in A. pose proof (rround_near (row_time g r * g_sr g)) as N.
      pose proof (row_time_long g r Hr ltac:(apply Hg)) as T. destruct (fmin_range g r Hr ltac:(apply Hg)) as (F0 & _ & F2).
      assert (12 < row_time g r * g_sr g). { apply Rle_lt_trans with (6 / row_fmin g r * g_sr g); [|apply Rmult_lt_compat_r; lra]. apply Rmult_le_reg_r with (row_fmin g r); [exact F0|]. replace (6 / row_fmin g r * g_sr g * row_fmin g r) with (6 * g_sr g) by (field; lra). nra. }
      apply INR_lt. cbn [INR]. lra. }
    destruct HF' as ([p ->] & _). destruct p as [|[|p]]; [cbn in N12; lia|cbn in N12; lia|]. exists (2 ^ p)%nat. split; [cbn [Nat.pow]; lia|pose proof (Nat.pow_nonzero 2 p ltac:(lia)); lia]. }
  destruct E4 as (m & E4 & M0). set (k0 := (2 * m - 1)%nat). assert (HL' : (L' / 2 = 2 * m)%nat) by (rewrite E4; replace (4 * m)%nat with (2 * m * 2)%nat by lia; apply Nat.div_mul; lia).
  set (df := g_sr g / INR L'). assert (NL' : 0 < INR L') by (apply lt_0_INR; lia). assert (DF : 0 < df) by (apply Rdiv_lt_0_compat; assumption). set (f0 := INR k0 * df).
  set (u := Z.to_nat ((Z.of_nat (L' - 1) - - rround (g_rpad g * g_sr g)) mod Z.of_nat L')).
  set (c := w L' (- (Z.of_nat k0 * Z.of_nat u))). set (h := fun f => if Req_EM_T f f0 then c else RtoC 0).
  exists r', (fun _ f => (h f, h f)).
  destruct (forward_frame g q Hg Hq Hab [r] _ _ L ltac:(discriminate) Hr1 (each_rowwise (fun _ f => (h f, h f)) [r]) HF) as (hc & hp & E & S1 & S2 & V).
  destruct (forward_frame g q Hg Hq Hab [r; r'] _ _ L' ltac:(discriminate) Hr2 (each_rowwise (fun _ f => (h f, h f)) [r; r']) HF') as (hc' & hp' & E' & S1' & S2' & V').
  set (n := Z.to_nat (Z.of_nat L + _)) in *. set (n' := Z.to_nat (Z.of_nat L' + _)) in *. exists (hc, hp), (hc', hp'), n, n'. cbn [fst snd].
  split; [exact Hr'|]. split; [exact E|]. split; [exact E'|]. do 4 (split; [assumption|]).
  (* alone *)
  assert (Z0 : forall t, series g L r h t = 0).
  { intros t. unfold series. replace (croll _ _ _ t) with 0; [ring|]. symmetry. unfold croll, irfft. rewrite Rsum_0; [ring|]. intros k Hk. replace (spectrum g L r h k) with (RtoC 0); [cbn; ring|].
    unfold spectrum. destruct (k =? L / 2)%nat; [reflexivity|]. unfold h. destruct (Req_EM_T _ f0) as [EF|_]; [exfalso|apply injective_projections; cbn; ring].
    unfold f0, df in EF. assert (NL : 0 < INR L) by (apply lt_0_INR; lia). assert (KK : INR k * INR L' = INR k0 * INR L).
    { apply Rmult_eq_reg_l with (g_sr g / (INR L * INR L')); [|apply Rgt_not_eq, Rdiv_lt_0_compat; [lra|apply Rmult_lt_0_compat; lra]]. transitivity (INR k * (g_sr g / INR L)); [field; lra|]. rewrite EF. field. lra. }
    rewrite <- !mult_INR in KK. apply INR_eq in KK. rewrite DIV in KK. assert (k * (2 * d) = k0)%nat by nia. unfold k0 in H. lia. }
  assert (W : forall (x : nat -> R) l t, (forall s, (s < l)%nat -> x s = 0) -> (t < l)%nat -> filtfilt (g_a g) (g_b g) l x t = 0).
  { intros x l t Hx Ht. rewrite (filtfilt_ext _ _ l x (fun s => 0 * 0 + 0 * 0) t); [|intros s Hs; rewrite (Hx s Hs); ring|exact Ht]. rewrite (filtfilt_linear (g_a g) (g_b g) l (fun _ => 0) (fun _ => 0)). ring. }
  split.
  { intros t Ht. destruct (V 0%nat r t eq_refl Ht) as [A B]. rewrite A, B. cbn [fst snd]. split; apply W; try assumption; intros s _; unfold at_end; destruct (s + L <? n)%nat; try reflexivity; apply Z0. }
  (* with the companion *)
  assert (N1 : (1 <= n')%nat).
  { destruct (out_length (g_dur g * g_sr g) L' ltac:(lra)) as (_ & A & B). unfold n'. destruct (Rle_dec (INR L') (g_dur g * g_sr g)) as [G|G].
    - rewrite (A G). destruct (rtrunc_spec (g_dur g * g_sr g)) as [C0 _]. specialize (C0 ltac:(lra)). assert (0 < rtrunc (g_dur g * g_sr g))%Z by (apply lt_IZR; lra). lia.
    - rewrite B by lra. pose proof (rceil_spec (g_dur g * g_sr g)) as C1. assert (0 < rceil (g_dur g * g_sr g))%Z by (apply lt_IZR; lra). lia. }
  assert (TP : taper g L' r k0 = 1).
  { destruct HF' as (P & A & _). refine (proj2 (proj2 (proj2 (taper_spec g [r; r'] Hg ltac:(discriminate) Hr2 L' A P r (or_introl eq_refl)))) k0 _). fold df.
    destruct (fmin_range g r Hr ltac:(apply Hg)) as (_ & _ & F2). apply Rle_trans with (g_fmin g + df / 2); [lra|].
    assert (HK : INR k0 * df = g_sr g / 2 - df). { unfold k0. rewrite minus_INR by lia. rewrite mult_INR. unfold df. rewrite E4, mult_INR. cbn [INR]. field. apply not_0_INR. lia. }
    rewrite HK. assert (3 / 2 * df <= g_sr g / 2 - g_fmin g); [|lra]. unfold df. apply Rmult_le_reg_r with (INR L'); [lra|]. replace (3 / 2 * (g_sr g / INR L') * INR L') with (X * (g_sr g / 2 - g_fmin g)) by (unfold X; field; lra).
    rewrite (Rmult_comm (g_sr g / 2 - g_fmin g)). apply Rmult_le_compat_r; [lra|]. pose proof (pos_INR L). lra. }
  assert (POS : 0 < series g L' r h (L' - 1)).
  { unfold series. apply Rmult_lt_0_compat; [apply Rmult_lt_0_compat; [apply start_gain_pos; lia|apply end_gain_pos; lia]|]. apply Rmult_lt_0_compat; [exact SP|]. unfold croll. fold u. unfold irfft. apply Rmult_lt_0_compat; [apply Rinv_0_lt_compat; exact NL'|].
    assert (HK : (k0 < rbins L')%nat) by (unfold rbins, k0; rewrite HL'; lia).
    rewrite (Rsum_single (rbins L') k0); [|exact HK|].
    - unfold spectrum. replace (k0 =? L' / 2)%nat with false by (symmetry; apply Nat.eqb_neq; unfold k0; rewrite HL'; lia). fold df. unfold h. fold f0. destruct (Req_EM_T f0 f0) as [_|]; [|contradiction]. rewrite TP, Cmult_1_l. unfold c. rewrite <- w_plus.
      replace (- (Z.of_nat k0 * Z.of_nat u) + Z.of_nat k0 * Z.of_nat u)%Z with 0%Z by ring. rewrite w_0. cbn. unfold hw. destruct (_ || _)%bool; lra.
    - intros k Hk Hne. unfold spectrum. destruct (k =? L' / 2)%nat; [cbn; ring|]. fold df. unfold h. destruct (Req_EM_T (INR k * df) f0) as [EF|_]; [|cbn; ring].
      exfalso. apply Hne. unfold f0 in EF. apply Rmult_eq_reg_r in EF; [|lra]. apply INR_eq in EF. exact EF. }
  assert (K : forall y : nat -> R, (forall t, (t < n')%nat -> y t = filtfilt (g_a g) (g_b g) n' (at_end 0 L' n' (series g L' r h)) t) -> exists t, (t < n')%nat /\ y t <> 0).
  { intros y Hy. destruct (Classical_Prop.classic (exists t, (t < n')%nat /\ y t <> 0)) as [Y|NY]; [exact Y|exfalso].
    assert (A : at_end 0 L' n' (series g L' r h) (n' - 1) = 0).
    { apply (filtfilt_definite (g_a g) (g_b g) n' _ Ha Hb); [|lia]. apply Rsum_0. intros t Ht. rewrite <- Hy by exact Ht. destruct (Req_dec (y t) 0) as [->|NZ]; [ring|]. exfalso. apply NY. exists t. split; assumption. }
    unfold at_end in A. destruct (Nat.ltb_spec (n' - 1 + L') n') as [|G]; [lia|]. replace (n' - 1 + L' - n')%nat with (L' - 1)%nat in A by lia. lra. }
  split; apply K; intros t Ht; destruct (V' 0%nat r t eq_refl Ht) as [A B]; [rewrite A|rewrite B]; reflexivity.
Qed.

(** ** the approximants of the library *)
(** i and j index the same parameters *)
Definition same_at (ls ls' : list (list R)) (i j : nat) : Prop := Forall2 (fun l l' => nth i l 0 = nth j l' 0) ls ls'.
Theorem generated_row_local g q0 rs rs' L mc q chi1 chi2 dist phic incl mc' q' chi1' chi2' dist' phic' incl' f_ref :
  good_gen g -> g_sr g = 2 * INR q0 -> List.length (g_a g) = List.length (g_b g) -> rs <> [] -> rs' <> [] -> (forall r, In r rs -> good_row r) -> (forall r, In r rs' -> good_row r) ->
  same_len (List.length rs) [mc; q; chi1; chi2; dist; phic; incl] -> same_len (List.length rs') [mc'; q'; chi1'; chi2'; dist'; phic'; incl'] ->
  (forall i, (i < List.length rs)%nat -> physical (nth i mc 0) (nth i q 0) (nth i chi1 0) (nth i chi2 0)) ->
  (forall i, (i < List.length rs')%nat -> physical (nth i mc' 0) (nth i q' 0) (nth i chi1' 0) (nth i chi2' 0)) ->
  frame g rs L -> frame g rs' L ->
  let local A A' := exists o o' n, gen_forward g A rs = Ok o /\ gen_forward g A' rs' = Ok o' /\
    shape (fst o) = [List.length rs; n] /\ shape (snd o) = [List.length rs; n] /\ shape (fst o') = [List.length rs'; n] /\ shape (snd o') = [List.length rs'; n] /\
    forall i j r t, nth_error rs i = Some r -> nth_error rs' j = Some r -> same_at [mc; q; chi1; chi2; dist; phic; incl] [mc'; q'; chi1'; chi2'; dist'; phic'; incl'] i j -> (t < n)%nat ->
      elt (fst o) [i; t] = elt (fst o') [j; t] /\ elt (snd o) [i; t] = elt (snd o') [j; t] in
  local (fun fs => tf2_forward fs mc q chi1 chi2 dist phic incl f_ref) (fun fs => tf2_forward fs mc' q' chi1' chi2' dist' phic' incl' f_ref) /\
  local (fun fs => pd_forward fs mc q chi1 chi2 dist phic incl f_ref) (fun fs => pd_forward fs mc' q' chi1' chi2' dist' phic' incl' f_ref).
Proof.
  intros Hg Hq Hab Hne Hne' Hrs Hrs' HS HS' HP HP' HF HF' local.
  assert (M : List.length mc = List.length rs) by (apply HS; left; reflexivity). assert (M' : List.length mc' = List.length rs') by (apply HS'; left; reflexivity).
  assert (S1 : same_len (List.length mc) [q; chi1; chi2; dist; phic; incl]) by (intros l Hl; rewrite M; apply HS; right; exact Hl).
  assert (S2 : same_len (List.length mc') [q'; chi1'; chi2'; dist'; phic'; incl']) by (intros l Hl; rewrite M'; apply HS'; right; exact Hl).
  assert (P1 : forall i, (i < List.length mc)%nat -> physical (nth i mc 0) (nth i q 0) (nth i chi1 0) (nth i chi2 0)) by (rewrite M; exact HP).
  assert (P2 : forall i, (i < List.length mc')%nat -> physical (nth i mc' 0) (nth i q' 0) (nth i chi1' 0) (nth i chi2' 0)) by (rewrite M'; exact HP').
  unfold local. split.
  - pose proof (tf2_rowwise mc q chi1 chi2 dist phic incl f_ref S1) as R1. pose proof (tf2_rowwise mc' q' chi1' chi2' dist' phic' incl' f_ref S2) as R2. rewrite M in R1. rewrite M' in R2.
    destruct (gen_row_local g q0 Hg Hq Hab rs rs' _ _ _ _ L Hne Hne' Hrs Hrs' R1 R2 HF HF') as (o & o' & n & E & E' & A1 & A2 & A3 & A4 & V). exists o, o', n. do 6 (split; [assumption|]).
    intros i j r t Hi Hj Hp Ht. apply (V i j r t Hi Hj); [|exact Ht]. intros f _. unfold same_at in Hp. repeat match goal with H : Forall2 _ (_ :: _) _ |- _ => inversion H; clear H; subst end. congruence.
  - pose proof (pd_rowwise mc q chi1 chi2 dist phic incl f_ref S1 P1) as R1. pose proof (pd_rowwise mc' q' chi1' chi2' dist' phic' incl' f_ref S2 P2) as R2. rewrite M in R1. rewrite M' in R2.
    destruct (gen_row_local g q0 Hg Hq Hab rs rs' _ _ _ _ L Hne Hne' Hrs Hrs' R1 R2 HF HF') as (o & o' & n & E & E' & A1 & A2 & A3 & A4 & V). exists o, o', n. do 6 (split; [assumption|]).
    intros i j r t Hi Hj Hp Ht. apply (V i j r t Hi Hj); [|exact Ht]. intros f _. unfold same_at in Hp. repeat match goal with H : Forall2 _ (_ :: _) _ |- _ => inversion H; clear H; subst end. congruence.
Qed.
(** two binaries in either order; a binary next to itself *)
Example gen_reordered_ex : let g := mkgen 2048 8 20 (1 / 2) [1; - (1 / 2)] [1; -1] in let rs := [mkrow 30 20 0 (1 / 2); mkrow 2 1 0 0] in
  (forall ap, exists o o' n, gen_forward g (each ap rs) rs = Ok o /\ gen_forward g (each ap (rev rs)) (rev rs) = Ok o' /\ shape (fst o) = [2%nat; n] /\
    forall t, (t < n)%nat -> elt (fst o) [0%nat; t] = elt (fst o') [1%nat; t] /\ elt (fst o) [1%nat; t] = elt (fst o') [0%nat; t]) /\
  (exists L, frame g rs L /\ (forall r, In r [mkrow 2 1 0 0] -> (samples g r <= Z.of_nat L)%Z)).
Proof.
  intros g rs. assert (Hg : good_gen g) by (unfold good_gen; cbn [g g_sr g_fmin g_dur]; lra). assert (Hrs : forall r, In r rs -> good_row r) by (intros r [<-|[<-|[]]]; unfold good_row; cbn [m_1 m_2 s_1 s_2]; lra).
  split.
  - intros ap. destruct (gen_reordered g 1024 Hg) with (rs := rs) (rs' := rev rs) (ap := ap) as (o & o' & n & E & E' & S1 & _ & _ & _ & V).
    + cbn [g g_sr]. rewrite INR_IZR_INZ. change (Z.of_nat 1024) with 1024%Z. lra.
    + reflexivity.
    + discriminate.
    + exact Hrs.
    + intros r. cbn. tauto.
    + exists o, o', n. split; [exact E|]. split; [exact E'|]. split; [exact S1|]. intros t Ht. split; [apply (V 0%nat 1%nat (mkrow 30 20 0 (1 / 2)) t)|apply (V 1%nat 0%nat (mkrow 2 1 0 0) t)]; try reflexivity; exact Ht.
  - destruct (frame_exists g rs Hg ltac:(discriminate) Hrs) as [L HF]. exists L. split; [exact HF|]. intros r [<-|[]]. apply HF. right. left. reflexivity.
Qed.
