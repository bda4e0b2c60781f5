(** Property C41: Decimator. *)
From Coq Require Import String.
From Verif Require Import Base Tensor Rutil Norm_model Gw_model Dft Snr_props Whiten_props Trans_model.
Local Open Scope R_scope.

(** ** specification *)
(** a schedule row in samples: keep every step-th of the samples first .. stop-1 *)
Record seg := mkseg { s_first : nat; s_stop : nat; s_step : nat }.
Definition s_count (g : seg) : nat := ((s_stop g - s_first g) / s_step g)%nat.
(** the positions first, first + step, ... below stop *)
Definition picks (first count step : nat) : list nat := map (fun k => first + step * k)%nat (seq 0 count).
Definition seg_picks (g : seg) : list nat := picks (s_first g) (s_count g) (s_step g).
(** row r of a schedule for sample rate sr, seen in samples: the times fall on samples, the target rate k is an integer
    that divides sr, the step is sr / k and the segment is a whole number of steps *)
Definition row_for (sr : nat) (r : row) (g : seg) : Prop :=
  r_start r * INR sr = INR (s_first g) /\ r_end r * INR sr = INR (s_stop g) /\ (s_first g < s_stop g)%nat /\
  (exists k, r_rate r = INR k /\ sr = (k * s_step g)%nat) /\ (0 < s_count g)%nat /\ (s_stop g - s_first g = s_step g * s_count g)%nat.
Fixpoint contiguous (l : list seg) : Prop :=
  match l with g :: ((h :: _) as l') => s_stop g = s_first h /\ contiguous l' | _ => True end.
Fixpoint ordered (l : list seg) : Prop :=
  match l with g :: ((h :: _) as l') => (s_stop g <= s_first h)%nat /\ ordered l' | _ => True end.
(** every row but the last yields at least two samples *)
Fixpoint two_samples (l : list seg) : Prop :=
  match l with g :: ((_ :: _) as l') => (2 <= s_count g)%nat /\ two_samples l' | _ => True end.
(** positions when every row starts where the previous one ended, whatever its start time *)
Fixpoint cumulative (o : nat) (l : list seg) : list nat :=
  match l with [] => [] | g :: l' => picks o (s_count g) (s_step g) ++ cumulative (o + (s_stop g - s_first g)) l' end.

Lemma row_sr_pos sr r g : row_for sr r g -> (0 < sr)%nat.
Proof.
  intros [H1 [H2 [H3 _]]]. destruct sr; [|lia]. change (INR 0) with 0 in *. rewrite Rmult_0_r in *. apply lt_INR in H3. lra.
Qed.
Lemma row_step sr r g : row_for sr r g -> dec_step (Z.of_nat sr) r = Z.of_nat (s_step g) /\ (0 < s_step g)%nat /\ rtrunc (r_rate r) <> 0%Z /\ (Z.of_nat sr mod rtrunc (r_rate r) = 0)%Z.
Proof.
  intros H. pose proof (row_sr_pos _ _ _ H) as P. destruct H as [H1 [H2 [H3 [[k [Hk Hs]] [H4 H5]]]]].
  assert (K : (0 < k)%nat) by nia. assert (ST : (0 < s_step g)%nat) by nia.
  assert (RT : rtrunc (r_rate r) = Z.of_nat k) by (apply rtrunc_nonneg; rewrite Hk; lra).
  assert (KR : 0 < INR k) by (apply lt_0_INR; lia).
  split; [|split; [assumption|split; [rewrite RT; lia|]]].
  - unfold dec_step. apply Int_part_unique. rewrite <- !INR_IZR_INZ, Hk. rewrite Hs, mult_INR.
    replace (INR k * INR (s_step g) / INR k) with (INR (s_step g)) by (field; lra). lra.
  - rewrite RT, Hs, Nat2Z.inj_mul, Z.mul_comm. apply Z_mod_mult.
Qed.
Lemma row_stop sr r g (o : nat) : row_for sr r g -> rtrunc (IZR (Z.of_nat o) + (r_end r - r_start r) * IZR (Z.of_nat sr)) = Z.of_nat (o + (s_stop g - s_first g)).
Proof.
  intros [H1 [H2 [H3 _]]]. apply rtrunc_nonneg. rewrite <- !INR_IZR_INZ, plus_INR, minus_INR by lia.
  replace ((r_end r - r_start r) * INR sr) with (r_end r * INR sr - r_start r * INR sr) by ring. rewrite H1, H2. lra.
Qed.
Lemma arange3_spec (a n st : nat) : (0 < st)%nat -> arange3 (Z.of_nat a) (Z.of_nat (a + st * n)) (Z.of_nat st) = Ok (map Z.of_nat (picks a n st)).
Proof.
  intros H. unfold arange3. replace (Z.of_nat st =? 0)%Z with false by lia. replace (Z.of_nat (a + st * n) <? Z.of_nat a)%Z with false by lia.
  replace (Z.of_nat st <? 0)%Z with false by lia. rewrite andb_false_r. cbn [andb orb]. f_equal. unfold picks. rewrite map_map.
  assert (E : (- ((Z.of_nat a - Z.of_nat (a + st * n)) / Z.of_nat st))%Z = Z.of_nat n).
  { replace (Z.of_nat a - Z.of_nat (a + st * n))%Z with (- Z.of_nat n * Z.of_nat st)%Z by lia. rewrite Z.div_mul by lia. lia. }
  rewrite E, Nat2Z.id. apply map_ext. intros k. lia.
Qed.
Lemma picks_rev o n st : (2 <= n)%nat -> exists l, rev (picks o n st) = (o + st * (n - 1))%nat :: (o + st * (n - 2))%nat :: l.
Proof.
  intros H. destruct n as [|[|n]]; [lia|lia|]. unfold picks. rewrite !seq_S, !map_app, !rev_app_distr. cbn [map rev app].
  replace (S (S n) - 1)%nat with (S n) by lia. replace (S (S n) - 2)%nat with n by lia. eexists. reflexivity.
Qed.
Lemma dec_indices_spec sr : forall l gs o idx, Forall2 (row_for sr) l gs -> two_samples gs ->
  (idx = [] /\ (forall g gs', gs = g :: gs' -> o = s_first g) \/ exists a b q, rev idx = a :: b :: q /\ (a + (a - b) = Z.of_nat o)%Z) ->
  dec_indices (Z.of_nat sr) l idx = Ok (idx ++ map Z.of_nat (cumulative o gs)).
Proof.
  induction l as [|r l IH]; intros gs o idx F2 T2 Hi; inversion F2; subst.
  - cbn. rewrite app_nil_r. reflexivity.
  - rename y into g, l' into gs. pose proof H1 as RF. destruct RF as [R1 [R2 [R3 [_ [R4 R5]]]]]. destruct (row_step _ _ _ H1) as [S1 [S2 _]].
    cbn [dec_indices].
    assert (ST : match rev idx with [] => Ok (rtrunc (r_start r * IZR (Z.of_nat sr))) | [_] => Err IndexError | a :: b :: _ => Ok (a + (a - b))%Z end = Ok (Z.of_nat o)).
    { destruct Hi as [[-> Hf]|[a [b [q [E1 E2]]]]].
      - cbn. f_equal. rewrite (Hf g gs eq_refl). apply rtrunc_nonneg. rewrite <- INR_IZR_INZ, R1. lra.
      - rewrite E1, E2. reflexivity. }
    rewrite ST. cbn [bind]. rewrite (row_stop sr r g o H1), S1, R5, arange3_spec by assumption. cbn [bind].
    destruct l as [|r2 l].
    + inversion H3; subst. cbn [dec_indices cumulative]. rewrite app_nil_r. reflexivity.
    + inversion H3; subst. rename y into g2, l' into gs'. destruct T2 as [T21 T22].
      destruct (picks_rev o (s_count g) (s_step g) T21) as [q Eq].
      rewrite (IH (g2 :: gs') (o + (s_stop g - s_first g))%nat); [|constructor; assumption|assumption|].
      * change (cumulative o (g :: g2 :: gs')) with (picks o (s_count g) (s_step g) ++ cumulative (o + (s_stop g - s_first g)) (g2 :: gs')).
        rewrite map_app, app_assoc. reflexivity.
      * right. rewrite rev_app_distr, <- map_rev, Eq. cbn [map app]. eexists _, _, _. split; [reflexivity|]. rewrite R5. nia.
Qed.
Lemma cumulative_contiguous : forall gs o, contiguous gs -> (forall g gs', gs = g :: gs' -> o = s_first g) -> Forall (fun g => (s_first g < s_stop g)%nat) gs ->
  cumulative o gs = concat (map seg_picks gs).
Proof.
  induction gs as [|g gs IH]; intros o C Ho F; [reflexivity|]. cbn [cumulative map concat]. rewrite (Ho g gs eq_refl) in *. f_equal.
  inversion F; subst. apply IH; [destruct gs; [exact I|apply C]| |assumption]. intros h gs' ->. destruct C as [C _]. lia.
Qed.
Lemma rows_rest sr l gs : Forall2 (row_for sr) l gs -> Forall (fun g => (s_first g < s_stop g)%nat) gs.
Proof. induction 1 as [|r g l gs H _ IH]; constructor; [apply H|assumption]. Qed.

Lemma overlaps_ordered sr l gs : Forall2 (row_for sr) l gs -> (overlaps l = false <-> ordered gs).
Proof.
  induction 1 as [|r g l gs H F IH]; [cbn; tauto|]. destruct F as [|r2 g2 l gs H2 F]; [cbn; tauto|].
  unfold overlaps in *. cbn [tl combine existsb fst snd].
  assert (P : 0 < INR sr) by (apply lt_0_INR; apply (row_sr_pos _ _ _ H)).
  destruct H as [_ [E1 _]]. destruct H2 as [E2 _].
  change (ordered (g :: g2 :: gs)) with ((s_stop g <= s_first g2)%nat /\ ordered (g2 :: gs)). rewrite <- IH. cbn [tl].
  destruct (Rlt_dec (r_start r2) (r_end r)) as [L|L]; cbn [orb].
  - split; [discriminate|]. intros [Hs _]. apply le_INR in Hs. nra.
  - split; [intros E; split; [|exact E]|intros [_ E]; exact E]. apply INR_le. nra.
Qed.
Lemma dec_validate_spec sr l gs split : Forall2 (row_for sr) l gs ->
  dec_validate (Z.of_nat sr) l split = if negb split && overlaps l then Err ValueError else Ok tt.
Proof.
  intros F. unfold dec_validate.
  assert (A : forallb (fun r => if Rlt_dec (r_start r) (r_end r) then true else false) l = true).
  { apply forallb_forall. intros r Hr. destruct (Rlt_dec (r_start r) (r_end r)) as [|N]; [reflexivity|]. exfalso. apply N.
    revert r Hr N. induction F as [|r g l gs H _ IH]; [contradiction|]. intros r' [<-|Hr] N; [|apply IH; assumption].
    pose proof (lt_0_INR _ (row_sr_pos _ _ _ H)). destruct H as [E1 [E2 [E3 _]]]. apply lt_INR in E3. nra. }
  assert (B : existsb (fun r => (rtrunc (r_rate r) =? 0)%Z) l = false).
  { clear A. induction F as [|r g l gs H _ IH]; [reflexivity|]. cbn [existsb]. rewrite IH. destruct (row_step _ _ _ H) as [_ [_ [E _]]].
    replace (rtrunc (r_rate r) =? 0)%Z with false by lia. reflexivity. }
  assert (D : existsb (fun r => negb (Z.of_nat sr mod rtrunc (r_rate r) =? 0)%Z) l = false).
  { clear A B. induction F as [|r g l gs H _ IH]; [reflexivity|]. cbn [existsb]. rewrite IH. destruct (row_step _ _ _ H) as [_ [_ [_ E]]].
    rewrite E. reflexivity. }
  rewrite A, B, D. reflexivity.
Qed.
Lemma dec_len sr r l g gs : Forall2 (row_for sr) (r :: l) (g :: gs) -> (s_first g <= s_stop (last (g :: gs) g))%nat ->
  rtrunc ((r_end (last (r :: l) r) - r_start r) * IZR (Z.of_nat sr)) = Z.of_nat (s_stop (last (g :: gs) g) - s_first g).
Proof.
  intros F Hle. apply rtrunc_nonneg. rewrite <- INR_IZR_INZ, minus_INR by assumption.
  assert (E : r_end (last (r :: l) r) * INR sr = INR (s_stop (last (g :: gs) g))).
  { clear Hle. assert (G : forall d e, row_for sr d e -> forall l gs, Forall2 (row_for sr) l gs -> r_end (last l d) * INR sr = INR (s_stop (last gs e))).
    { clear. intros d e Hd l gs F. induction F as [|r g l gs H F IH]; [cbn; apply Hd|]. destruct F; [cbn; apply H|]. exact IH. }
    apply G; [inversion F; assumption|assumption]. }
  inversion F; subst. destruct H2 as [E1 _]. replace ((r_end (last (r :: l) r) - r_start r) * INR sr) with (r_end (last (r :: l) r) * INR sr - r_start r * INR sr) by ring.
  rewrite E, E1. lra.
Qed.

(** ** creation *)
Theorem decimator_create sr r l g gs split : Forall2 (row_for sr) (r :: l) (g :: gs) -> two_samples (g :: gs) -> (s_first g <= s_stop (last (g :: gs) g))%nat ->
  (split = true \/ ordered (g :: gs) -> exists m, dec_create (Z.of_nat sr) (r :: l) split = Ok m /\
      dc_sr m = Z.of_nat sr /\ dc_sched m = r :: l /\ dc_split m = split /\ dc_idx m = map Z.of_nat (cumulative (s_first g) (g :: gs)) /\
      dc_len m = Z.of_nat (s_stop (last (g :: gs) g) - s_first g)) /\
  (split = false -> ~ ordered (g :: gs) -> dec_create (Z.of_nat sr) (r :: l) split = Err ValueError).
Proof.
  intros F T2 Hle. unfold dec_create. rewrite (dec_validate_spec sr _ _ split F). pose proof (overlaps_ordered _ _ _ F) as OV. split.
  - intros Hs. assert (E : negb split && overlaps (r :: l) = false).
    { destruct Hs as [->|Ho]; [reflexivity|]. apply OV in Ho. rewrite Ho. apply andb_false_r. }
    rewrite E. cbn [bind]. rewrite (dec_indices_spec sr (r :: l) (g :: gs) (s_first g) []); [|assumption|assumption|left; split; [reflexivity|]; intros ? ? H; injection H as -> _; reflexivity].
    cbn [bind app]. eexists. split; [reflexivity|]. cbn [dc_sr dc_sched dc_split dc_idx dc_len]. repeat split. apply dec_len; assumption.
  - intros -> No. destruct (overlaps (r :: l)) eqn:E; [reflexivity|]. elim No. apply OV. reflexivity.
Qed.

(** ** forward *)
Lemma index_select_spec {A} (x : tensor A) pre T idx : shape x = pre ++ [T] -> Forall (fun k => (k < T)%nat) idx ->
  exists r, index_select_last x (map Z.of_nat idx) = Ok r /\ shape r = pre ++ [List.length idx] /\
   forall p k, inb p pre -> (k < List.length idx)%nat -> get r (p ++ [k]) = get x (p ++ [nth k idx 0%nat]).
Proof.
  intros Sx F. unfold index_select_last. rewrite Sx, last_last, removelast_last.
  assert (E : forallb (fun k => (0 <=? k) && (k <? Z.of_nat T))%Z (map Z.of_nat idx) = true).
  { apply forallb_forall. intros k Hk. apply in_map_iff in Hk. destruct Hk as [j [<- Hj]]. rewrite Forall_forall in F. specialize (F j Hj). lia. }
  rewrite E. eexists. split; [reflexivity|]. cbn [shape]. rewrite map_length. split; [reflexivity|]. intros p k Hp Hk.
  rewrite Forall_forall in F. assert (Hn : (nth k idx 0 < T)%nat) by (apply F, nth_In; assumption).
  rewrite get_inb by (cbn [shape]; apply inb_app; [assumption|cbn; auto]). rewrite get_inb by (rewrite Sx; apply inb_app; [assumption|cbn; auto]).
  f_equal. cbn [elt]. rewrite last_last, removelast_last. f_equal. f_equal. f_equal. change 0%Z with (Z.of_nat 0). rewrite map_nth, Nat2Z.id. reflexivity.
Qed.
Lemma index_select_bad {A} (x : tensor A) pre T idx k : shape x = pre ++ [T] -> In k idx -> (T <= k)%nat -> index_select_last x (map Z.of_nat idx) = Err IndexError.
Proof.
  intros Sx Hk HT. unfold index_select_last. rewrite Sx, last_last. destruct (forallb _ _) eqn:E; [|reflexivity].
  rewrite forallb_forall in E. specialize (E (Z.of_nat k) (in_map _ _ _ Hk)). lia.
Qed.
Lemma picks_lt o g T : (0 < s_step g)%nat -> (s_stop g - s_first g = s_step g * s_count g)%nat -> (o + (s_stop g - s_first g) <= T)%nat -> Forall (fun k => (k < T)%nat) (picks o (s_count g) (s_step g)).
Proof.
  intros H1 H2 H3. apply Forall_forall. intros k Hk. apply in_map_iff in Hk. destruct Hk as [j [<- Hj]]. apply in_seq in Hj. nia.
Qed.
Lemma cumulative_lt sr : forall l gs o T, Forall2 (row_for sr) l gs -> (o + list_sum (map (fun g => (s_stop g - s_first g)%nat) gs) <= T)%nat ->
  Forall (fun k => (k < T)%nat) (cumulative o gs).
Proof.
  intros l gs o T F. revert o. induction F as [|r g l gs H F IH]; intros o HT; [constructor|]. cbn [cumulative]. cbn [map list_sum fold_right] in HT.
  apply Forall_app. split.
  - destruct (row_step _ _ _ H) as [_ [S2 _]]. destruct H as [_ [_ [_ [_ [_ H5]]]]]. apply picks_lt; [assumption|assumption|lia].
  - apply IH. unfold list_sum. lia.
Qed.
(** the total duration of ordered rows fits between the first start and the last end *)
Lemma ordered_sum gs : forall g, Forall (fun g => (s_first g < s_stop g)%nat) (g :: gs) -> ordered (g :: gs) ->
  (s_first g + list_sum (map (fun g => s_stop g - s_first g) (g :: gs)) <= s_stop (last (g :: gs) g))%nat.
Proof.
  induction gs as [|h gs IH]; intros g F O; inversion F; subst; [cbn; lia|]. destruct O as [O1 O2]. specialize (IH h H2 O2).
  change (last (g :: h :: gs) g) with (last (h :: gs) g). assert (EL : last (h :: gs) g = last (h :: gs) h) by (clear; revert h; induction gs as [|a gs IH]; intros h; [reflexivity|]; cbn in *; destruct gs; [reflexivity|apply IH]).
  rewrite EL. cbn [map list_sum fold_right] in *. unfold list_sum in *. cbn [fold_right] in *. lia.
Qed.
(** not split, contiguous schedule from time 0: the output is the concatenation of the decimated segments *)
Theorem decimator_concat {A} sr r l g gs (x : tensor A) pre T : Forall2 (row_for sr) (r :: l) (g :: gs) -> two_samples (g :: gs) ->
  contiguous (g :: gs) -> s_first g = 0%nat -> T = s_stop (last (g :: gs) g) -> shape x = pre ++ [T] ->
  exists m y, dec_create (Z.of_nat sr) (r :: l) false = Ok m /\ dec_forward m x = Ok (inl y) /\
    let idx := concat (map seg_picks (g :: gs)) in
    shape y = pre ++ [List.length idx] /\ forall p k, inb p pre -> (k < List.length idx)%nat -> get y (p ++ [k]) = get x (p ++ [nth k idx 0%nat]).
Proof.
  intros F T2 C F0 HT Sx. pose proof (rows_rest _ _ _ F) as RR.
  assert (O : ordered (g :: gs)).
  { clear - C. revert g C. induction gs as [|h gs IH]; intros g C; [exact I|]. destruct C as [C1 C2]. split; [lia|]. apply IH, C2. }
  pose proof (ordered_sum gs g RR O) as OS.
  destruct (decimator_create sr r l g gs false F T2 ltac:(lia)) as [CR _]. destruct (CR (or_intror O)) as [m [E [M1 [M2 [M3 [M4 M5]]]]]].
  exists m. unfold dec_forward. rewrite M5, M3, M4, Sx, last_last, F0, Nat.sub_0_r, <- HT, Z.eqb_refl. cbn [negb].
  rewrite F0 in OS. rewrite (cumulative_contiguous (g :: gs) 0 C) by (try assumption; intros ? ? H; injection H as -> _; symmetry; assumption).
  destruct (index_select_spec x pre T (concat (map seg_picks (g :: gs))) Sx) as [y [Ey [Sy G]]].
  { rewrite <- (cumulative_contiguous (g :: gs) 0 C) by (try assumption; intros ? ? H; injection H as -> _; symmetry; assumption).
    apply (cumulative_lt sr (r :: l)); [assumption|]. rewrite HT. exact OS. }
  exists y. split; [assumption|]. rewrite Ey. cbn [bind]. split; [reflexivity|]. split; assumption.
Qed.
(** split: one tensor per row, each the strided slice of its own time span; rows may overlap *)
Theorem decimator_split {A} sr r l g gs (x : tensor A) pre T : Forall2 (row_for sr) (r :: l) (g :: gs) -> two_samples (g :: gs) ->
  s_first g = 0%nat -> T = s_stop (last (g :: gs) g) -> Forall (fun h => (s_stop h <= T)%nat) (g :: gs) -> shape x = pre ++ [T] ->
  exists m ys, dec_create (Z.of_nat sr) (r :: l) true = Ok m /\ dec_forward m x = Ok (inr ys) /\
    Forall2 (fun h y => shape y = pre ++ [s_count h] /\ forall p k, inb p pre -> (k < s_count h)%nat -> get y (p ++ [k]) = get x (p ++ [(s_first h + s_step h * k)%nat])) (g :: gs) ys.
Proof.
  intros F T2 F0 HT FT Sx.
  destruct (decimator_create sr r l g gs true F T2 ltac:(lia)) as [CR _]. destruct (CR (or_introl eq_refl)) as [m [E [M1 [M2 [M3 [M4 M5]]]]]].
  exists m. unfold dec_forward. rewrite M5, M3, M2, M1, Sx, last_last, F0, Nat.sub_0_r, <- HT, Z.eqb_refl. cbn [negb].
  assert (Q : exists ys, sequence (map (dec_segment (Z.of_nat sr) x) (r :: l)) = Ok ys /\
    Forall2 (fun h y => shape y = pre ++ [s_count h] /\ forall p k, inb p pre -> (k < s_count h)%nat -> get y (p ++ [k]) = get x (p ++ [(s_first h + s_step h * k)%nat])) (g :: gs) ys).
  { clear HT M1 M2 M3 M4 M5 E CR T2 F0. induction F as [|r' g' l' gs' H F IH]; [exists []; split; [reflexivity|constructor]|].
    inversion FT; subst. destruct (IH H3) as [ys [Ey Fy]]. cbn [map sequence]. unfold dec_segment at 1.
    pose proof H as RF. destruct RF as [R1 [R2 [R3 [_ [R4 R5]]]]]. destruct (row_step _ _ _ H) as [S1 [S2 _]].
    assert (A1 : rtrunc (r_start r' * IZR (Z.of_nat sr)) = Z.of_nat (s_first g')) by (apply rtrunc_nonneg; rewrite <- INR_IZR_INZ, R1; lra).
    assert (A2 : rtrunc (r_end r' * IZR (Z.of_nat sr)) = Z.of_nat (s_first g' + s_step g' * s_count g')) by (apply rtrunc_nonneg; rewrite <- R5, Nat.add_comm, Nat.sub_add, <- INR_IZR_INZ, R2 by lia; lra).
    rewrite A1, A2, S1, arange3_spec by assumption. cbn [bind].
    destruct (index_select_spec x pre T (picks (s_first g') (s_count g') (s_step g')) Sx) as [y [E1 [E2 E3]]]; [apply picks_lt; try assumption; lia|].
    rewrite E1. cbn [bind]. rewrite Ey. cbn [bind]. exists (y :: ys). split; [reflexivity|]. constructor; [|assumption].
    unfold picks in E2, E3. rewrite map_length, seq_length in *. split; [assumption|]. intros p k Hp Hk. rewrite E3 by assumption. f_equal. f_equal. f_equal.
    rewrite (nth_indep _ _ (s_first g' + s_step g' * 0)%nat) by (rewrite map_length, seq_length; assumption). rewrite (map_nth (fun k => s_first g' + s_step g' * k)%nat), seq_nth by assumption. reflexivity. }
  destruct Q as [ys [E1 E2]]. exists ys. split; [assumption|]. rewrite E1. cbn [bind]. split; [reflexivity|assumption].
Qed.
(** any other length is rejected *)
Theorem decimator_length {A} sr r l g gs split m (x : tensor A) pre T : Forall2 (row_for sr) (r :: l) (g :: gs) -> two_samples (g :: gs) ->
  (s_first g <= s_stop (last (g :: gs) g))%nat -> dec_create (Z.of_nat sr) (r :: l) split = Ok m ->
  shape x = pre ++ [T] -> T <> (s_stop (last (g :: gs) g) - s_first g)%nat -> dec_forward m x = Err ValueError.
Proof.
  intros F T2 Hle E Sx HT. unfold dec_create in E. destruct (dec_validate _ _ _); [|discriminate]. cbn [bind] in E. destruct (dec_indices _ _ _); [|discriminate]. cbn [bind] in E.
  injection E as <-. unfold dec_forward. cbn [dc_len]. pose proof (dec_len sr r l g gs F Hle) as DL. cbn [last] in *. rewrite DL, Sx, last_last.
  replace (Z.of_nat T =? _)%Z with false by lia. reflexivity.
Qed.

(** ** deviations *)
(** FINDING: with gaps between the segments (accepted), every segment after a gap is taken from the wrong place: its
    samples start where the previous segment's span ended, not at its start time *)
Theorem decimator_gap_refuted {A} sr r1 r2 g1 g2 (x : tensor A) pre T : row_for sr r1 g1 -> row_for sr r2 g2 -> s_first g1 = 0%nat -> (2 <= s_count g1)%nat ->
  (s_stop g1 <= s_first g2)%nat -> T = s_stop g2 -> shape x = pre ++ [T] ->
  exists m y, dec_create (Z.of_nat sr) [r1; r2] false = Ok m /\ dec_forward m x = Ok (inl y) /\
    shape y = pre ++ [(s_count g1 + s_count g2)%nat] /\
    forall p k, inb p pre -> (k < s_count g2)%nat -> get y (p ++ [(s_count g1 + k)%nat]) = get x (p ++ [(s_stop g1 + s_step g2 * k)%nat]).
Proof.
  intros H1 H2 F0 C2 O HT Sx.
  assert (F : Forall2 (row_for sr) [r1; r2] [g1; g2]) by (constructor; [assumption|constructor; [assumption|constructor]]).
  assert (L1 : (s_first g1 < s_stop g1)%nat) by apply H1. assert (L2 : (s_first g2 < s_stop g2)%nat) by apply H2.
  destruct (decimator_create sr r1 [r2] g1 [g2] false F) as [CR _]; [cbn; auto|cbn; lia|]. destruct CR as [m [E [M1 [M2 [M3 [M4 M5]]]]]]; [right; cbn; auto|].
  exists m. unfold dec_forward. rewrite M5, M3, M4, Sx, last_last, F0, Nat.sub_0_r. cbn [last]. rewrite <- HT, Z.eqb_refl. cbn [negb].
  assert (LP : forall o n st, List.length (picks o n st) = n) by (intros; unfold picks; rewrite map_length, seq_length; reflexivity).
  destruct (index_select_spec x pre T (cumulative 0 [g1; g2]) Sx) as [y [Ey [Sy G]]].
  { apply (cumulative_lt sr [r1; r2]); [assumption|]. cbn. lia. }
  cbn [cumulative] in *. rewrite app_nil_r, F0, Nat.sub_0_r, Nat.add_0_l in *. rewrite Ey. exists y. split; [assumption|]. cbn [bind]. split; [reflexivity|].
  rewrite app_length, !LP in *. split; [assumption|]. intros p k Hp Hk. rewrite G by (try assumption; lia). f_equal. f_equal. f_equal.
  rewrite app_nth2 by (rewrite LP; lia). rewrite LP. replace (s_count g1 + k - s_count g1)%nat with k by lia.
  unfold picks. rewrite (nth_indep _ _ (s_stop g1 + s_step g2 * 0)%nat) by (rewrite map_length, seq_length; assumption). rewrite (map_nth (fun k => s_stop g1 + s_step g2 * k)%nat), seq_nth by assumption. reflexivity.
Qed.
(** FINDING: a segment of a single sample (one second at 1 Hz) in front makes the constructor fail, even with split *)
Theorem decimator_single_sample_refuted sr r1 r2 l g1 split : row_for sr r1 g1 -> s_count g1 = 1%nat ->
  dec_validate (Z.of_nat sr) (r1 :: r2 :: l) split = Ok tt -> dec_create (Z.of_nat sr) (r1 :: r2 :: l) split = Err IndexError.
Proof.
  intros H C1 V. unfold dec_create. rewrite V. cbn [bind dec_indices rev].
  pose proof H as RF. destruct RF as [R1 [R2 [R3 [_ [R4 R5]]]]]. destruct (row_step _ _ _ H) as [S1 [S2 _]].
  assert (A1 : rtrunc (r_start r1 * IZR (Z.of_nat sr)) = Z.of_nat (s_first g1)) by (apply rtrunc_nonneg; rewrite <- INR_IZR_INZ, R1; lra).
  rewrite A1. cbn [bind]. rewrite (row_stop sr r1 g1 (s_first g1) H), S1, R5, arange3_spec, C1 by assumption. reflexivity.
Qed.
(** FINDING: a schedule that does not start at time 0 is accepted, but when it starts no earlier than its own duration no
    input is ever decimated: inputs of the expected length raise IndexError (and all others ValueError) *)
Theorem decimator_late_start_refuted {A} sr r g split m (x : tensor A) pre : row_for sr r g -> (s_stop g - s_first g <= s_first g)%nat ->
  dec_create (Z.of_nat sr) [r] split = Ok m -> shape x = pre ++ [(s_stop g - s_first g)%nat] -> dec_forward m x = Err IndexError.
Proof.
  intros H HL E Sx.
  assert (F : Forall2 (row_for sr) [r] [g]) by (constructor; [assumption|constructor]). assert (L : (s_first g < s_stop g)%nat) by apply H.
  destruct (decimator_create sr r [] g [] split F I ltac:(cbn; lia)) as [CR _]. destruct CR as [m' [E' [M1 [M2 [M3 [M4 M5]]]]]]; [right; exact I|].
  assert (m' = m) by congruence. subst m'. unfold dec_forward. rewrite M5, M3, M4, M2, M1, Sx, last_last. cbn [last]. rewrite Z.eqb_refl. cbn [negb].
  assert (B : index_select_last x (map Z.of_nat (picks (s_first g) (s_count g) (s_step g))) = Err IndexError).
  { apply (index_select_bad x pre (s_stop g - s_first g) _ (s_first g) Sx); [|assumption].
    unfold picks. apply in_map_iff. exists 0%nat. split; [lia|]. apply in_seq. destruct H as [_ [_ [_ [_ [H _]]]]]. lia. }
  destruct split.
  - cbn [map sequence]. unfold dec_segment. pose proof H as RF. destruct RF as [R1 [R2 [R3 [_ [R4 R5]]]]]. destruct (row_step _ _ _ H) as [S1 [S2 _]].
    assert (A1 : rtrunc (r_start r * IZR (Z.of_nat sr)) = Z.of_nat (s_first g)) by (apply rtrunc_nonneg; rewrite <- INR_IZR_INZ, R1; lra).
    assert (A2 : rtrunc (r_end r * IZR (Z.of_nat sr)) = Z.of_nat (s_first g + s_step g * s_count g)) by (apply rtrunc_nonneg; rewrite <- R5, Nat.add_comm, Nat.sub_add, <- INR_IZR_INZ, R2 by lia; lra).
    rewrite A1, A2, S1, arange3_spec by assumption. cbn [bind]. rewrite B. reflexivity.
  - cbn [cumulative]. rewrite app_nil_r, B. reflexivity.
Qed.

(** ** non-vacuity: 8 Hz, [0, 2) s at 2 Hz then [2, 3) s at 8 Hz *)
Example decimator_ex : exists m y, dec_create 8 [mkrow 0 2 2; mkrow 2 3 8] false = Ok m /\
  dec_forward m (mk [1; 24]%nat (fun i => last i 0%nat)) = Ok (inl y) /\ shape y = [1; 12]%nat /\ get y [0; 3]%nat = Some 12%nat /\ get y [0; 5]%nat = Some 17%nat.
Proof.
  assert (F : Forall2 (row_for 8) [mkrow 0 2 2; mkrow 2 3 8] [mkseg 0 16 4; mkseg 16 24 1]).
  { repeat constructor; cbn; try lra; try lia; [exists 2%nat|exists 8%nat]; split; try lia; cbn; lra. }
  destruct (decimator_concat 8 (mkrow 0 2 2) [mkrow 2 3 8] (mkseg 0 16 4) [mkseg 16 24 1] (mk [1; 24]%nat (fun i => last i 0%nat)) [1%nat] 24 F) as [m [y [E1 [E2 [E3 E4]]]]].
  - unfold two_samples. repeat split; repeat constructor; unfold s_count; cbn; lia.
  - cbn; repeat split.
  - reflexivity.
  - reflexivity.
  - reflexivity.
  - exists m, y. split; [assumption|]. split; [assumption|]. split; [exact E3|]. cbn zeta in E4. split.
    + change [0; 3]%nat with ([0] ++ [3])%nat. rewrite E4; [reflexivity|split; [lia|exact I]|vm_compute; lia].
    + change [0; 5]%nat with ([0] ++ [5])%nat. rewrite E4; [reflexivity|split; [lia|exact I]|vm_compute; lia].
Qed.
