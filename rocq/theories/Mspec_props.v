(** Property C50: MultiResolutionSpectrogram. *)
From Coq Require Import String Sorted.
From Verif Require Import Base Tensor Rutil Slicing_model Norm_model Norm_props Gw_model Gw_props Rescaler_props Qt_model Qt_props Qtr2_props Qtr3_props Qscan_props Mspec_model.
Local Open Scope R_scope.

(** ** keyword lists *)
(** specification: configuration j takes the j-th value of every list, a one-element list supplying its value to all *)
Definition config {V} (kwargs : list (string * list V)) (j : nat) (c : list (string * V)) : Prop :=
  Forall2 (fun kv kx => fst kx = fst kv /\ nth_error (snd kv) (if (List.length (snd kv) =? 1)%nat then 0%nat else j) = Some (snd kx)) kwargs c.
Lemma zsorted2 (l : list Z) a b : StronglySorted Z.lt l -> (a < b)%Z -> (forall x, In x l <-> x = a \/ x = b) -> l = [a; b].
Proof.
  intros S L H. destruct S as [|x l S F]; [exfalso; apply (H a); auto|]. rewrite Forall_forall in F.
  assert (x = a). { destruct (proj1 (H x) (or_introl eq_refl)) as [E|E]; [exact E|]. subst x. destruct (proj2 (H a) (or_introl eq_refl)) as [E'|I]; [exact E'|]. specialize (F a I). lia. } subst x.
  destruct S as [|y l S F']; [exfalso; destruct (proj2 (H b) (or_intror eq_refl)) as [E|[]]; lia|]. rewrite Forall_forall in F'.
  assert (y = b). { destruct (proj1 (H y) (or_intror (or_introl eq_refl))) as [E|E]; [|exact E]. specialize (F y (or_introl eq_refl)). lia. } subst y.
  destruct l as [|z l]; [reflexivity|]. exfalso. specialize (F' z (or_introl eq_refl)). destruct (proj1 (H z)) as [E|E]; [cbn; auto| |]; try lia.
Qed.
Lemma zsorted1 (l : list Z) a : StronglySorted Z.lt l -> (forall x, In x l <-> x = a) -> l = [a].
Proof.
  intros S H. destruct S as [|x l S F]; [exfalso; apply (H a); reflexivity|]. rewrite Forall_forall in F.
  assert (x = a) by (apply H; left; reflexivity). subst x. destruct l as [|z l]; [reflexivity|]. specialize (F z (or_introl eq_refl)).
  assert (z = a) by (apply H; cbn; auto). lia.
Qed.
Lemma lengths_in {V} (kwargs : list (string * list V)) z : In z (lengths kwargs) <-> exists kv, In kv kwargs /\ z = Z.of_nat (List.length (snd kv)).
Proof. unfold lengths. rewrite zunique_in, in_map_iff. split; intros [kv [A B]]; exists kv; auto. Qed.
Lemma zip_cols_spec {V} (kwargs : list (string * list V)) n : kwargs <> [] -> (forall kv, In kv kwargs -> List.length (snd kv) = n) ->
  exists cols, zip_cols kwargs = Ok cols /\ List.length cols = n /\
    forall j c, nth_error cols j = Some c -> Forall2 (fun kv kx => fst kx = fst kv /\ nth_error (snd kv) j = Some (snd kx)) kwargs c.
Proof.
  intros NE H.
  assert (CORE : forall kws : list (string * list V), (forall kv, In kv kws -> List.length (snd kv) = n) -> forall j, (j < n)%nat ->
    Forall2 (fun kv kx => fst kx = fst kv /\ nth_error (snd kv) j = Some (snd kx)) kws
      (flat_map (fun kv : string * list V => match nth_error (snd kv) j with Some x => [(fst kv, x)] | None => [] end) kws)).
  { intros kws HK j Hj. induction kws as [|kv l IH]; cbn; [constructor|].
    destruct (nth_error (snd kv) j) as [x|] eqn:E.
    - cbn. constructor; [cbn; auto|]. apply IH. intros; apply HK; right; assumption.
    - apply nth_error_None in E. rewrite HK in E by (left; reflexivity). lia. }
  destruct kwargs as [|[k0 v0] kw]; [congruence|]. cbn [zip_cols].
  assert (L0 : List.length v0 = n) by (apply (H (k0, v0)); left; reflexivity). rewrite L0.
  replace (forallb _ _) with true by (symmetry; apply forallb_forall; intros kv Hkv; rewrite (H kv Hkv); apply Nat.eqb_refl).
  eexists. split; [reflexivity|]. split; [rewrite map_length, seq_length; reflexivity|]. intros j c Hc.
  assert (Hj : (j < n)%nat). { assert (Hc' : nth_error (map (fun j : nat => flat_map (fun kv : string * list V => match nth_error (snd kv) j with Some x => [(fst kv, x)] | None => [] end) ((k0, v0) :: kw)) (seq 0 n)) j <> None) by congruence.
    apply nth_error_Some in Hc'. rewrite map_length, seq_length in Hc'. exact Hc'. }
  rewrite (map_nth_error _ j (seq 0 n) (d := j)) in Hc.
  2:{ rewrite nth_error_nth' with (d := 0%nat) by (rewrite seq_length; assumption). rewrite seq_nth by assumption. reflexivity. }
  assert (Hc2 : flat_map (fun kv : string * list V => match nth_error (snd kv) j with Some x => [(fst kv, x)] | None => [] end) ((k0, v0) :: kw) = c) by congruence.
  rewrite <- Hc2. apply CORE; assumption.
Qed.
Lemma repeat_list_length {V} n (v : list V) : List.length (repeat_list n v) = (n * List.length v)%nat.
Proof. unfold repeat_list. induction n; cbn; [reflexivity|]. rewrite app_length, IHn. reflexivity. Qed.
Lemma repeat_list_one {V} n (v : V) j : (j < n)%nat -> nth_error (repeat_list n [v]) j = Some v.
Proof. unfold repeat_list. revert j. induction n; intros j H; [lia|]. cbn. destruct j; cbn; [reflexivity|]. apply IHn. lia. Qed.
Lemma repeat_list_1 {V} (v : list V) : repeat_list 1 v = v.
Proof. unfold repeat_list. cbn. apply app_nil_r. Qed.

(** the order in which list(set([1, n])) comes out in CPython (table of 8 slots, keys hash to themselves): 1 first, or n first.
    Slot n mod 8, except when it is 1 (taken): then slots 6 + n/32, 6 + n/32^2, ... mod 8 are tried until one is not 1 *)
Definition one_first (n : nat) : Prop := (n mod 8 <> 0)%nat /\
  (n mod 8 = 1 -> exists j, 1 <= j <= 64 /\ (forall i, 1 <= i < j -> n / 32 ^ i mod 8 = 3) /\ n / 32 ^ j mod 8 <> 2 /\ n / 32 ^ j mod 8 <> 3)%nat.
Definition one_last (n : nat) : Prop := (n mod 8 = 0)%nat \/
  (n mod 8 = 1 /\ exists j, 1 <= j <= 64 /\ (forall i, 1 <= i < j -> n / 32 ^ i mod 8 = 3) /\ n / 32 ^ j mod 8 = 2)%nat.
Lemma probe_collision j : forall f p, (0 <= p)%Z -> (j < f)%nat -> (forall i, (1 <= i < S j)%nat -> (p / 32 ^ Z.of_nat i) mod 8 = 3)%Z -> ((p / 32 ^ Z.of_nat (S j)) mod 8 <> 3)%Z ->
  probe f 1 p 1 = ((6 + p / 32 ^ Z.of_nat (S j)) mod 8)%Z.
Proof.
  induction j as [|j IH]; intros f p Hp Hf H3 HN; (destruct f as [|f]; [lia|]); cbn [probe]; change (1 =? 1)%Z with true; cbv iota.
  - change (Z.of_nat 1) with 1%Z in *. rewrite Z.pow_1_r in *. replace (1 * 5 + 1 + p / 32)%Z with (6 + p / 32)%Z by lia.
    assert (N1 : ((6 + p / 32) mod 8 <> 1)%Z) by (clear - HN; generalize dependent (p / 32)%Z; intros q HN E; Z.div_mod_to_equations; lia).
    destruct f as [|f]; cbn [probe]; [reflexivity|]. apply Z.eqb_neq in N1. rewrite N1. reflexivity.
  - assert (E1 : ((1 * 5 + 1 + p / 32) mod 8 = 1)%Z).
    { pose proof (H3 1%nat ltac:(lia)) as H. change (Z.of_nat 1) with 1%Z in H. rewrite Z.pow_1_r in H. replace (1 * 5 + 1 + p / 32)%Z with (6 + p / 32)%Z by lia. rewrite Z.add_mod, H by lia. reflexivity. }
    rewrite E1. assert (PW : forall i, ((p / 32) / 32 ^ Z.of_nat i = p / 32 ^ Z.of_nat (S i))%Z).
    { intros i. rewrite Z.div_div by (try apply Z.pow_pos_nonneg; lia). rewrite Nat2Z.inj_succ, Z.pow_succ_r by lia. reflexivity. }
    rewrite (IH f (p / 32)%Z); [rewrite PW; reflexivity|apply Z.div_pos; lia|lia| |rewrite PW; exact HN].
    intros i Hi. rewrite PW. apply H3. lia.
Qed.
Lemma of_nat_div_pow n i : Z.of_nat (n / 32 ^ i) = (Z.of_nat n / 32 ^ Z.of_nat i)%Z.
Proof. rewrite Nat2Z.inj_div, Nat2Z.inj_pow. reflexivity. Qed.
Lemma of_nat_digit n i r : (n / 32 ^ i mod 8)%nat = r <-> ((Z.of_nat n / 32 ^ Z.of_nat i) mod 8 = Z.of_nat r)%Z.
Proof. rewrite <- of_nat_div_pow. change 8%Z with (Z.of_nat 8). rewrite <- Nat2Z.inj_mod. lia. Qed.
Lemma set_pair_order n : (one_first n -> set_pair 1 (Z.of_nat n) = (1, Z.of_nat n)%Z) /\ (one_last n -> set_pair 1 (Z.of_nat n) = (Z.of_nat n, 1)%Z).
Proof.
  unfold set_pair, slot2. change (1 mod 8)%Z with 1%Z. assert (M : (Z.of_nat n mod 8)%Z = Z.of_nat (n mod 8)) by (rewrite Nat2Z.inj_mod; reflexivity). rewrite M. pose proof (Nat.mod_upper_bound n 8 ltac:(lia)) as UB.
  assert (COL : forall j, (1 <= j <= 64)%nat -> (forall i, 1 <= i < j -> n / 32 ^ i mod 8 = 3)%nat -> (n / 32 ^ j mod 8 <> 3)%nat -> probe 64 1 (Z.of_nat n) 1 = Z.of_nat ((6 + n / 32 ^ j mod 8) mod 8)).
  { intros j Hj H3 HN. destruct j as [|j]; [lia|]. rewrite (probe_collision j 64 (Z.of_nat n)); [|lia|lia| |].
    - rewrite <- of_nat_div_pow. rewrite !Nat2Z.inj_mod, Nat2Z.inj_add, Nat2Z.inj_mod. change (Z.of_nat 8) with 8%Z. change (Z.of_nat 6) with 6%Z. rewrite Zplus_mod_idemp_r. reflexivity.
    - intros i Hi. apply (of_nat_digit n i 3). apply H3. lia.
    - intros E. apply HN. apply (of_nat_digit n (S j) 3). exact E. }
  split.
  - intros [H0 H1]. destruct (Nat.eq_dec (n mod 8) 1) as [E|E].
    + rewrite E. destruct (H1 E) as [j [Hj [H3 [N2 N3]]]]. change (Z.of_nat 1) with 1%Z. rewrite (COL j Hj H3 N3).
      pose proof (Nat.mod_upper_bound (n / 32 ^ j) 8 ltac:(lia)) as B. set (r := (n / 32 ^ j mod 8)%nat) in *. clearbody r.
      assert (2 <= (6 + r) mod 8)%nat by (do 8 (destruct r as [|r]; [cbn; lia|]); lia). replace (_ <? _)%Z with false by lia. reflexivity.
    + set (r := (n mod 8)%nat) in *. cbn [probe]. replace (Z.of_nat r =? 1)%Z with false by lia. replace (Z.of_nat r <? 1)%Z with false by lia. reflexivity.
  - intros [E|[E [j [Hj [H3 E2]]]]]; rewrite E.
    + reflexivity.
    + change (Z.of_nat 1) with 1%Z. rewrite (COL j Hj H3 ltac:(lia)), E2. reflexivity.
Qed.
(** the two orders are exclusive and exhaust all lengths below 32^64 *)
Theorem set_order_cases n : (1 < n)%nat -> (Z.of_nat n < 32 ^ 64)%Z -> (one_first n \/ one_last n) /\ ~ (one_first n /\ one_last n).
Proof.
  intros H1 HB. split.
  - destruct (Nat.eq_dec (n mod 8) 0) as [E|E0]; [right; left; exact E|]. destruct (Nat.eq_dec (n mod 8) 1) as [E|E]; [|left; split; [exact E0|intros; contradiction]].
    assert (Z64 : (n / 32 ^ 64 mod 8 = 0)%nat).
    { apply (of_nat_digit n 64 0). rewrite Z.div_small by (split; [lia|exact HB]). reflexivity. }
    assert (EX : exists j, (1 <= j <= 64 /\ (forall i, 1 <= i < j -> n / 32 ^ i mod 8 = 3) /\ n / 32 ^ j mod 8 <> 3)%nat).
    { assert (G : forall d k, (d + k = 64)%nat -> (1 <= k)%nat -> (forall i, 1 <= i < k -> n / 32 ^ i mod 8 = 3)%nat -> exists j, (1 <= j <= 64 /\ (forall i, 1 <= i < j -> n / 32 ^ i mod 8 = 3) /\ n / 32 ^ j mod 8 <> 3)%nat).
      { induction d as [|d IH]; intros k Hk K1 K3; (destruct (Nat.eq_dec (n / 32 ^ k mod 8) 3) as [D|D]; [|exists k; split; [lia|]; split; [exact K3|exact D]]).
        - replace k with 64%nat in D by lia. rewrite Z64 in D. discriminate.
        - apply (IH (S k)); [lia|lia|]. intros i Hi. destruct (Nat.eq_dec i k) as [-> |]; [exact D|apply K3; lia]. }
      apply (G 63%nat 1%nat); lia. }
    destruct EX as [j [Hj [H3 N3]]]. destruct (Nat.eq_dec (n / 32 ^ j mod 8) 2) as [E2|N2].
    + right. right. split; [exact E|]. exists j. auto.
    + left. split; [exact E0|]. intros _. exists j. auto.
  - intros [F L]. apply set_pair_order in F. apply set_pair_order in L. rewrite F in L. assert (1%Z = Z.of_nat n) by congruence. lia.
Qed.
Theorem kwargs_spec {V} (kwargs : list (string * list V)) n : kwargs <> [] -> (0 < n)%nat ->
  (forall kv, In kv kwargs -> List.length (snd kv) = 1%nat \/ List.length (snd kv) = n) ->
  (exists kv, In kv kwargs /\ List.length (snd kv) = n) ->
  (forall kv, In kv kwargs -> List.length (snd kv) = n) \/ one_first n ->
  exists cols, format_kwargs kwargs = Ok cols /\ List.length cols = n /\ forall j c, nth_error cols j = Some c -> config kwargs j c.
Proof.
  intros NE Hn H [kvn [In_ Ln]] D. unfold format_kwargs.
  assert (SS : StronglySorted Z.lt (lengths kwargs)) by apply zunique_sorted.
  assert (CASE : (forall kv, In kv kwargs -> List.length (snd kv) = n) \/ (n <> 1%nat /\ exists kv, In kv kwargs /\ List.length (snd kv) = 1%nat)).
  { destruct (List.existsb (fun kv => negb (List.length (snd kv) =? n)%nat) kwargs) eqn:E.
    - right. apply existsb_exists in E. destruct E as [kv [I E]]. apply negb_true_iff, Nat.eqb_neq in E. destruct (H kv I) as [L|L]; [|contradiction]. split; [congruence|]. exists kv. auto.
    - left. intros kv I. destruct (Nat.eq_dec (List.length (snd kv)) n) as [|N]; [assumption|]. exfalso. assert (existsb (fun kv => negb (List.length (snd kv) =? n)%nat) kwargs = true).
      { apply existsb_exists. exists kv. split; [assumption|]. apply negb_true_iff, Nat.eqb_neq. assumption. } congruence. }
  destruct CASE as [ALL|[N1 [kv1 [I1 L1]]]].
  - rewrite (zsorted1 (lengths kwargs) (Z.of_nat n) SS).
    2:{ intros x. rewrite lengths_in. split; [intros [kv [I ->]]; f_equal; apply ALL; assumption|]. intros ->. exists kvn. rewrite Ln. auto. }
    destruct (zip_cols_spec kwargs n NE ALL) as [cols [E [L C]]]. exists cols. split; [exact E|]. split; [exact L|]. intros j c Hc. specialize (C j c Hc).
    assert (Hj : (j < n)%nat) by (rewrite <- L; apply nth_error_Some; congruence). unfold config.
    clear - C ALL Hj. induction C as [|kv kx l l' [A B] _ IH]; constructor; [|apply IH; intros; apply ALL; right; assumption].
    split; [assumption|]. destruct (List.length (snd kv) =? 1)%nat eqn:E; [|exact B]. apply Nat.eqb_eq in E. rewrite ALL in E by (left; reflexivity). replace 0%nat with j by lia. exact B.
  - destruct D as [D|D]; [specialize (D kv1 I1); lia|].
    rewrite (zsorted2 (lengths kwargs) 1 (Z.of_nat n) SS).
    2: lia.
    2:{ intros x. rewrite lengths_in. split; [intros [kv [I ->]]; destruct (H kv I) as [-> | ->]; auto|]. intros [-> | ->]; [exists kv1; rewrite L1|exists kvn; rewrite Ln]; auto. }
    assert (SL : set_pair 1 (Z.of_nat n) = (1%Z, Z.of_nat n)).
    { apply set_pair_order. exact D. }
    rewrite SL. change (1 =? 1)%Z with true. cbv iota.
    set (kw' := map (fun kv => (fst kv, repeat_list (Z.to_nat (Z.of_nat n / Z.of_nat (List.length (snd kv)))) (snd kv))) kwargs).
    assert (R1 : Z.to_nat (Z.of_nat n / Z.of_nat 1) = n) by (rewrite Z.div_1_r; lia).
    assert (Rn : Z.to_nat (Z.of_nat n / Z.of_nat n) = 1%nat) by (rewrite Z.div_same by lia; reflexivity).
    destruct (zip_cols_spec kw' n) as [cols [E [L C]]].
    { unfold kw'. intros K. apply map_eq_nil in K. contradiction. }
    { intros kv Hkv. unfold kw' in Hkv. apply in_map_iff in Hkv. destruct Hkv as [kv' [<- I']]. cbn [snd]. rewrite repeat_list_length.
      destruct (H kv' I') as [-> | ->]; [rewrite R1|rewrite Rn]; lia. }
    exists cols. split; [exact E|]. split; [exact L|]. intros j c Hc. assert (Hj : (j < n)%nat) by (rewrite <- L; apply nth_error_Some; congruence). specialize (C j c Hc).
    unfold config. unfold kw' in C. clear - C H Hj R1 Rn N1. revert c C H. induction kwargs as [|kv l IH]; intros c C H; cbn in C; inversion C as [|? kx ? l' [A B] C']; subst; constructor.
    + cbn [fst snd] in A, B. split; [assumption|]. destruct (H kv (or_introl eq_refl)) as [Lk|Lk]; rewrite Lk in B |- *.
      * cbn [Nat.eqb]. rewrite R1 in B. destruct (snd kv) as [|v [|? ?]]; cbn in Lk; try lia. rewrite repeat_list_one in B by assumption. exact B.
      * replace (n =? 1)%nat with false by lia. rewrite Rn, repeat_list_1 in B. exact B.
    + apply IH; [assumption|]. intros; apply H; right; assumption.
Qed.
(** two lists of different lengths, neither 1, are refused *)
Theorem kwargs_refused {V} (kwargs : list (string * list V)) kv kv' : In kv kwargs -> In kv' kwargs ->
  List.length (snd kv) <> List.length (snd kv') -> List.length (snd kv) <> 1%nat -> List.length (snd kv') <> 1%nat -> format_kwargs kwargs = Err ValueError.
Proof.
  intros I I' D N N'. unfold format_kwargs. pose proof (proj2 (lengths_in kwargs _) (ex_intro _ kv (conj I eq_refl))) as H. pose proof (proj2 (lengths_in kwargs _) (ex_intro _ kv' (conj I' eq_refl))) as H'.
  assert (NN : forall z, In z (lengths kwargs) -> (0 <= z)%Z) by (intros z Hz; apply lengths_in in Hz; destruct Hz as [? [_ ->]]; lia).
  destruct (lengths kwargs) as [|a [|b [|? ?]]]; cbn [In] in H, H'; try reflexivity; try tauto; try lia.
  assert (E : {set_pair a b = (a, b)} + {set_pair a b = (b, a)}) by (unfold set_pair; destruct (slot2 a b <? a mod 8)%Z; auto).
  assert (A : (a =? 1)%Z = false /\ (b =? 1)%Z = false) by lia. destruct A as [A B].
  destruct E as [-> | ->]; cbn [fst snd]; rewrite ?A, ?B; reflexivity.
Qed.
(** the documented rule ("any list of length greater than 1 should be the same length") is not sufficient: the distinct lengths are
    read in the order of a Python set, and some lengths (multiples of 8; 65; ...) come before 1 there *)
Theorem kwargs_set_order_refuted {V} (kwargs : list (string * list V)) n : (1 < n)%nat -> one_last n ->
  (forall kv, In kv kwargs -> List.length (snd kv) = 1%nat \/ List.length (snd kv) = n) ->
  (exists kv, In kv kwargs /\ List.length (snd kv) = n) -> (exists kv, In kv kwargs /\ List.length (snd kv) = 1%nat) ->
  format_kwargs kwargs = Err ValueError.
Proof.
  intros Hn M H [kvn [In_ Ln]] [kv1 [I1 L1]]. unfold format_kwargs.
  rewrite (zsorted2 (lengths kwargs) 1 (Z.of_nat n) (zunique_sorted _)).
  2: lia.
  2:{ intros x. rewrite lengths_in. split; [intros [kv [I ->]]; destruct (H kv I) as [-> | ->]; auto|]. intros [-> | ->]; [exists kv1; rewrite L1|exists kvn; rewrite Ln]; auto. }
  rewrite (proj2 (set_pair_order n) M). replace (Z.of_nat n =? 1)%Z with false by lia. reflexivity.
Qed.
(** no keyword at all, and an empty list beside one-element lists *)
Theorem kwargs_degenerate {V} : @format_kwargs V [] = Err IndexError /\
  forall kwargs : list (string * list V), (exists kv, In kv kwargs /\ snd kv = []) -> (exists kv, In kv kwargs /\ List.length (snd kv) = 1%nat) -> format_kwargs kwargs = Err ValueError.
Proof.
  split; [reflexivity|]. intros kwargs [kv0 [I0 E0]] [kv1 [I1 E1]]. unfold format_kwargs.
  pose proof (proj2 (lengths_in kwargs _) (ex_intro _ kv0 (conj I0 eq_refl))) as H0. pose proof (proj2 (lengths_in kwargs _) (ex_intro _ kv1 (conj I1 eq_refl))) as H1. rewrite E0 in H0. rewrite E1 in H1. cbn [List.length] in H0, H1.
  assert (SS : StronglySorted Z.lt (lengths kwargs)) by apply zunique_sorted.
  destruct (lengths kwargs) as [|a [|b [|? ?]]]; cbn [In] in H0, H1; try reflexivity; try tauto; try lia.
  inversion SS as [|? ? _ F]; subst. rewrite Forall_forall in F. specialize (F b (or_introl eq_refl)). assert (a = 0%Z /\ b = 1%Z) as [-> ->] by lia. reflexivity.
Qed.
Example set_order_65 : one_last 65 /\ one_first 9 /\ one_first 3.
Proof.
  split; [right; split; [reflexivity|]; exists 1%nat; split; [lia|]; split; [intros; lia|reflexivity]|].
  split; split; try (cbn; lia). intros _. exists 1%nat. split; [lia|]. split; [intros; lia|]. split; discriminate.
Qed.
(** eight resolutions, nothing else given: refused (because of the implicit normalized=[True]) *)
Example eight_resolutions_refused : exists kwargs : list (string * list nat), (forall kv, In kv kwargs -> List.length (snd kv) = 8%nat) /\ kwargs <> [] /\
  forall spec_of, mrs_create (fun _ => true) 1%nat spec_of 1 4096 kwargs = Err ValueError.
Proof.
  exists [("n_fft"%string, [64; 128; 256; 512; 1024; 2048; 32; 16]%nat)]. split; [intros kv [<-|[]]; reflexivity|]. split; [discriminate|]. intros spec_of.
  unfold mrs_create, add_normalized. cbn. reflexivity.
Qed.

(** ** construction *)
Lemma nmax_ge l x : In x l -> (x <= nmax l)%nat.
Proof. induction l as [|a l IH]; cbn; [intros []|]. intros [->|I]; [lia|]. apply IH in I. unfold nmax in I. lia. Qed.
Lemma nmax_in l : l <> [] -> In (nmax l) l.
Proof.
  induction l as [|a l IH]; [congruence|]. intros _. cbn. fold (nmax l). destruct l as [|b l]; [left; cbn; lia|]. specialize (IH ltac:(discriminate)).
  destruct (Nat.max_spec a (nmax (b :: l))) as [[_ E]|[_ E]]; rewrite E; auto.
Qed.
(** specification of a built transform: K >= 1 spectrogram transforms for input length n, the output grid being the largest of the
    frequency axes by the largest of the time axes *)
Definition built (m : mrs) (n : nat) : Prop :=
  mr_specs m <> [] /\ mr_shapes m = map (fun t => (sp_nf t, sp_nt t n)) (mr_specs m) /\
  (forall t, In t (mr_specs m) -> (sp_nf t <= mr_nf m)%nat /\ (sp_nt t n <= mr_nt m)%nat) /\
  (exists t, In t (mr_specs m) /\ sp_nf t = mr_nf m) /\ (exists t, In t (mr_specs m) /\ sp_nt t n = mr_nt m).
Theorem mrs_construction {V} (truthy : V -> bool) vtrue spec_of kl sr kwargs : 0 <= kl * sr ->
  (forall m, mrs_create truthy vtrue spec_of kl sr kwargs = Ok m -> built m (Z.to_nat (rtrunc (kl * sr))) /\ mr_size m = kl * sr) /\
  (forall cols ts, (exists kv, In kv kwargs /\ fst kv = "normalized"%string) -> (forall kv, In kv kwargs -> fst kv = "normalized"%string -> forallb truthy (snd kv) = true) ->
     format_kwargs kwargs = Ok cols -> cols <> [] -> sequence (map spec_of cols) = Ok ts ->
     exists m, mrs_create truthy vtrue spec_of kl sr kwargs = Ok m /\ mr_specs m = ts) /\
  (forall cols ts, (forall kv, In kv kwargs -> fst kv <> "normalized"%string) ->
     format_kwargs (kwargs ++ [("normalized"%string, [vtrue])]) = Ok cols -> cols <> [] -> sequence (map spec_of cols) = Ok ts ->
     exists m, mrs_create truthy vtrue spec_of kl sr kwargs = Ok m /\ mr_specs m = ts) /\
  (forall pre v post, kwargs = pre ++ ("normalized"%string, v) :: post -> (forall kv, In kv pre -> fst kv <> "normalized"%string) -> forallb truthy v = false ->
     mrs_create truthy vtrue spec_of kl sr kwargs = Err ValueError).
Proof.
  intros Hk. assert (HZ : (rtrunc (kl * sr) <? 0)%Z = false).
  { apply Z.ltb_ge. unfold rtrunc. destruct (Rle_dec 0 (kl * sr)) as [_|]; [|lra]. destruct (base_Int_part (kl * sr)) as [A B]. assert (-1 < Int_part (kl * sr))%Z by (apply lt_IZR; lra). lia. }
  assert (MK : forall cols ts kw, add_normalized truthy vtrue kwargs = Ok kw -> format_kwargs kw = Ok cols -> cols <> [] -> sequence (map spec_of cols) = Ok ts ->
     exists m, mrs_create truthy vtrue spec_of kl sr kwargs = Ok m /\ mr_specs m = ts).
  { intros cols ts kw E1 E2 NE E3. unfold mrs_create. rewrite E1. cbn [bind]. rewrite E2. cbn [bind]. rewrite E3. cbn [bind]. rewrite HZ.
    destruct ts as [|t ts]; [|cbn [map]; eexists; split; [reflexivity|reflexivity]].
    apply sequence_map_inv in E3. inversion E3. congruence. }
  split; [|split; [|split]].
  - intros m. unfold mrs_create. destruct (add_normalized truthy vtrue kwargs) as [kw|]; [|discriminate]. cbn [bind]. destruct (format_kwargs kw) as [cols|]; [|discriminate]. cbn [bind].
    destruct (sequence (map spec_of cols)) as [ts|]; [|discriminate]. cbn [bind]. rewrite HZ. set (n := Z.to_nat (rtrunc (kl * sr))). destruct ts as [|t ts]; [discriminate|].
    intros E. remember (t :: ts) as T eqn:ET. assert (TN : T <> []) by (rewrite ET; discriminate). assert (E' : Ok (mkmrs (kl * sr) T (map (fun t => (sp_nf t, sp_nt t n)) T) (nmax (map fst (map (fun t => (sp_nf t, sp_nt t n)) T))) (nmax (map snd (map (fun t => (sp_nf t, sp_nt t n)) T)))) = Ok m) by (rewrite ET in *; exact E).
    injection E' as <-. split; [|reflexivity]. unfold built. cbn [mr_specs mr_shapes mr_nf mr_nt]. rewrite !map_map. cbn [fst snd].
    split; [assumption|]. split; [reflexivity|]. split; [|split].
    + intros t' I. split; apply nmax_ge; [apply (in_map sp_nf)|apply (in_map (fun x => sp_nt x n))]; assumption.
    + assert (I : In (nmax (map sp_nf T)) (map sp_nf T)) by (apply nmax_in; intros K; apply map_eq_nil in K; contradiction). apply in_map_iff in I. destruct I as [t' [E1 I1]]. exists t'. auto.
    + assert (I : In (nmax (map (fun x => sp_nt x n) T)) (map (fun x => sp_nt x n) T)) by (apply nmax_in; intros K; apply map_eq_nil in K; contradiction). apply in_map_iff in I. destruct I as [t' [E1 I1]]. exists t'. auto.
  - intros cols ts [kv [I N]] TR E1 NE E2. apply (MK cols ts kwargs); try assumption. unfold add_normalized.
    destruct (find _ kwargs) as [[k v]|] eqn:F.
    + apply find_some in F. destruct F as [F1 F2]. destruct (string_dec (fst (k, v)) "normalized") as [Ek|]; [|discriminate]. rewrite (TR _ F1 Ek : forallb truthy v = true). reflexivity.
    + exfalso. pose proof (find_none _ _ F kv I) as K. cbn in K. destruct (string_dec (fst kv) "normalized"); [discriminate|contradiction].
  - intros cols ts NN E1 NE E2. eapply MK; try eassumption. unfold add_normalized. destruct (find _ kwargs) as [[k v]|] eqn:F; [|reflexivity].
    apply find_some in F. destruct F as [F1 F2]. destruct (string_dec (fst (k, v)) "normalized") as [Ek|]; [|discriminate]. exfalso. exact (NN _ F1 Ek).
  - intros pre v post -> NN FV. unfold mrs_create, add_normalized.
    assert (F : find (fun kv : string * list V => if string_dec (fst kv) "normalized" then true else false) (pre ++ ("normalized"%string, v) :: post) = Some ("normalized"%string, v)).
    { clear MK. induction pre as [|kv pre IH]; cbn; [reflexivity|]. destruct (string_dec (fst kv) "normalized") as [E|_]; [exfalso; exact (NN kv (or_introl eq_refl) E)|]. apply IH. intros; apply NN; right; assumption. }
    rewrite F, FV. reflexivity.
Qed.

(** ** forward *)
Lemma remap_lt n N i : (0 < n)%nat -> (i < N)%nat -> (remap n N i < n)%nat.
Proof. intros Hn Hi. unfold remap. apply Nat.div_lt_upper_bound; nia. Qed.
(** every bin of the smaller axis is used, in order, and the same axis is copied *)
Lemma remap_onto n N j : (0 < n <= N)%nat -> (j < n)%nat -> exists i, (i < N)%nat /\ remap n N i = j.
Proof.
  intros Hn Hj. exists ((j * N + n - 1) / n)%nat.
  pose proof (Nat.div_mod (j * N + n - 1) n ltac:(lia)) as DM. pose proof (Nat.mod_upper_bound (j * N + n - 1) n ltac:(lia)). set (q := ((j * N + n - 1) / n)%nat) in *. set (r := ((j * N + n - 1) mod n)%nat) in *.
  assert (q * n >= j * N)%nat by lia. assert (q * n < j * N + n)%nat by lia.
  split; [nia|]. unfold remap. symmetry. apply (Nat.div_unique _ _ _ (q * n - j * N)); nia.
Qed.
Lemma remap_same n i : (0 < n)%nat -> remap n n i = i.
Proof. intros H. unfold remap. apply Nat.div_mul. lia. Qed.
Lemma remap_mono n N i i' : (0 < N)%nat -> (i <= i')%nat -> (remap n N i <= remap n N i')%nat.
Proof. intros H L. unfold remap. apply Nat.div_le_mono; nia. Qed.
Lemma firstn_pre {A} (pre l : list A) n : List.length pre = n -> firstn n (pre ++ l) = pre.
Proof. intros <-. rewrite firstn_app, Nat.sub_diag, firstn_all, firstn_O, app_nil_r. reflexivity. Qed.
Lemma nth_pre {A} (pre l : list A) d k : nth (List.length pre + k) (pre ++ l) d = nth k l d.
Proof. rewrite app_nth2 by lia. f_equal. lia. Qed.
(** the other ways construction fails, "normalized" being given and all true: the keyword check; a torchaudio error; a negative kernel; no configuration at all (all lists empty) *)
Theorem mrs_construction_errors {V} (truthy : V -> bool) vtrue spec_of kl sr kwargs :
  (exists kv, In kv kwargs /\ fst kv = "normalized"%string) -> (forall kv, In kv kwargs -> fst kv = "normalized"%string -> forallb truthy (snd kv) = true) ->
  (forall e, format_kwargs kwargs = Err e -> mrs_create truthy vtrue spec_of kl sr kwargs = Err e) /\
  (forall cols e, format_kwargs kwargs = Ok cols -> sequence (map spec_of cols) = Err e -> mrs_create truthy vtrue spec_of kl sr kwargs = Err e) /\
  (forall cols ts, format_kwargs kwargs = Ok cols -> sequence (map spec_of cols) = Ok ts -> kl * sr <= -1 -> mrs_create truthy vtrue spec_of kl sr kwargs = Err RuntimeError) /\
  ((forall kv, In kv kwargs -> snd kv = []) -> -1 < kl * sr -> mrs_create truthy vtrue spec_of kl sr kwargs = Err ValueError).
Proof.
  intros [kv0 [I0 E0]] HT.
  assert (AN : add_normalized truthy vtrue kwargs = Ok kwargs).
  { unfold add_normalized. destruct (List.find _ kwargs) as [[k v]|] eqn:F.
    - apply find_some in F as [I F]. cbn [fst] in F. destruct (string_dec k "normalized") as [-> |]; [|discriminate]. rewrite (HT _ I eq_refl : forallb truthy v = true). reflexivity.
    - exfalso. pose proof (find_none _ _ F _ I0) as N. cbv beta in N. rewrite E0 in N. destruct (string_dec "normalized" "normalized"); [discriminate|congruence]. }
  unfold mrs_create. rewrite AN. cbn [bind]. split; [|split; [|split]].
  - intros e ->. reflexivity.
  - intros cols e -> E. cbn [bind]. rewrite E. reflexivity.
  - intros cols ts -> E H. cbn [bind]. rewrite E. cbn [bind].
    assert (N : (rtrunc (kl * sr) < 0)%Z). { unfold rtrunc. destruct (Rle_dec 0 (kl * sr)); [lra|]. destruct (base_Int_part (- (kl * sr))) as [A B]. assert (0 < Int_part (- (kl * sr)))%Z by (apply lt_IZR; lra). lia. }
    apply Z.ltb_lt in N. rewrite N. reflexivity.
  - intros HE H. assert (L : lengths kwargs = [0%Z]).
    { apply zsorted1; [apply zunique_sorted|]. intros x. rewrite lengths_in. split; [intros [kv [I ->]]; rewrite (HE _ I); reflexivity|]. intros ->. exists kv0. rewrite (HE _ I0). auto. }
    unfold format_kwargs. rewrite L. destruct (zip_cols_spec kwargs 0) as [cols [E [LC _]]]; [intros ->; destruct I0|intros kv I; rewrite (HE _ I); reflexivity|].
    rewrite E. cbn [bind]. destruct cols; [|discriminate]. cbn [map sequence bind].
    assert (N : (0 <= rtrunc (kl * sr))%Z). { unfold rtrunc. destruct (Rle_dec 0 (kl * sr)).
      - destruct (base_Int_part (kl * sr)) as [A B]. assert (-1 < Int_part (kl * sr))%Z by (apply lt_IZR; lra). lia.
      - destruct (base_Int_part (- (kl * sr))) as [A B]. assert (Int_part (- (kl * sr)) < 1)%Z by (apply lt_IZR; lra). lia. }
    apply Z.ltb_ge in N. rewrite N. reflexivity.
Qed.
(** the value of spectrogram k of row i at the bin nearest below output bin (f, t) *)
Definition bin_of (t : spectro) (nf nt n : nat) (x : nat -> R) (f s : nat) : R := sp_row t n x (remap (sp_nf t) nf f) (remap (sp_nt t n) nt s).
Theorem mrs_forward_spec m X pre n : built m n -> (forall t, In t (mr_specs m) -> (0 < sp_nf t)%nat /\ (0 < sp_nt t n)%nat) ->
  shape X = pre ++ [n] -> INR n = mr_size m ->
  exists out, mrs_forward m X = Ok out /\ shape out = pre ++ [mr_nf m; mr_nt m] /\
    forall i f s, inb i pre -> (f < mr_nf m)%nat -> (s < mr_nt m)%nat ->
      exists v, get out (i ++ [f; s]) = Some v /\
        is_max (fun u => exists t, In t (mr_specs m) /\ u = bin_of t (mr_nf m) (mr_nt m) n (fun j => elt X (i ++ [j])) f s) v.
Proof.
  intros [NE [SH [LE _]]] POS SX HN. unfold mrs_forward.
  replace (ndim X =? 0)%nat with false by (symmetry; unfold ndim; rewrite SX, app_length; cbn; apply Nat.eqb_neq; lia).
  rewrite SX, last_last. destruct (Req_EM_T (INR n) (mr_size m)) as [_|]; [|contradiction].
  set (specs := map (fun t => run_spec t X) (mr_specs m)).
  set (padded := map _ (combine (mr_shapes m) specs)).
  set (K := List.length (mr_specs m)).
  assert (LP : List.length padded = K).
  { unfold padded, specs, K. rewrite map_length, combine_length, SH, !map_length. lia. }
  assert (K0 : (0 < K)%nat) by (unfold K; destruct (mr_specs m); [congruence|cbn; lia]).
  set (dt := mksp 0 (fun _ => 0%nat) (fun _ _ _ _ => 0)).
  set (P := List.length pre).
  assert (RS : forall t, shape (run_spec t X) = pre ++ [sp_nf t; sp_nt t n]) by (intros t; unfold run_spec; cbn [shape]; rewrite SX, last_last, removelast_last; reflexivity).
  assert (NP : forall c, (c < K)%nat -> nth c padded (mk [] (fun _ => 0)) = pad_br (mr_nt m - sp_nt (nth c (mr_specs m) dt) n) (mr_nf m - sp_nf (nth c (mr_specs m) dt)) (run_spec (nth c (mr_specs m) dt) X)).
  { intros c Hc. unfold padded.
    assert (EN : nth_error (combine (mr_shapes m) specs) c = Some ((sp_nf (nth c (mr_specs m) dt), sp_nt (nth c (mr_specs m) dt) n), run_spec (nth c (mr_specs m) dt) X)).
    { apply combine_nth_error.
      - rewrite SH. apply (map_nth_error (fun t => (sp_nf t, sp_nt t n))). apply nth_error_nth'. exact Hc.
      - unfold specs. apply (map_nth_error (fun t => run_spec t X)). apply nth_error_nth'. exact Hc. }
    apply (nth_error_nth (map _ _)). erewrite map_nth_error by exact EN. reflexivity. }
  assert (ND : forall t, List.length (shape (run_spec t X)) = (P + 2)%nat) by (intros t; rewrite RS, app_length; cbn; reflexivity).
  assert (PS : forall c, (c < K)%nat -> shape (nth c padded (mk [] (fun _ => 0))) = pre ++ [mr_nf m; mr_nt m]).
  { intros c Hc. rewrite NP by assumption. unfold pad_br. cbn [shape]. set (t := nth c (mr_specs m) dt). rewrite ND, RS.
    replace (P + 2 - 2)%nat with P by lia. replace (P + 2 - 1)%nat with (P + 1)%nat by lia. rewrite firstn_pre by reflexivity.
    replace P with (List.length pre + 0)%nat at 1 by (unfold P; lia). unfold P. rewrite !nth_pre. cbn [nth].
    destruct (LE t) as [L1 L2]; [apply nth_In; exact Hc|]. do 3 f_equal; [lia|]. f_equal. lia. }
  destruct (stack_at0_ok padded (pre ++ [mr_nf m; mr_nt m]) (mk [] (fun _ => 0))) as [st [Est [Sst Vst]]].
  { intros E. rewrite E in LP. cbn in LP. lia. }
  { rewrite LP. exact PS. }
  rewrite Est. cbn [bind]. rewrite LP in *.
  assert (SG : shape (diag_0_last (gather_fk m st)) = (pre ++ [mr_nf m; mr_nt m]) ++ [K]).
  { unfold diag_0_last, gather_fk. cbn [shape]. rewrite Sst. cbn [List.length]. rewrite app_length. cbn [List.length]. replace (S (List.length pre + 2) - 2)%nat with (S P) by (unfold P; lia).
    cbn [firstn tl]. rewrite firstn_pre by reflexivity. cbn [tl]. rewrite <- app_assoc. cbn [app]. rewrite SH, map_length. reflexivity. }
  destruct (max_last_spec _ _ K SG K0) as [out [Eout [Sout Hout]]]. exists out. split; [exact Eout|]. split; [exact Sout|].
  intros i f s Hi Hf Hs. assert (Li : List.length i = P) by (apply inb_length in Hi; exact Hi).
  assert (I2 : inb (i ++ [f; s]) (pre ++ [mr_nf m; mr_nt m])) by (apply inb_app; [exact Hi|cbn; auto]).
  exists (elt out (i ++ [f; s])). split; [apply get_inb; rewrite Sout; exact I2|].
  eapply is_max_ext; [|exact (Hout _ I2)]. intros u.
  assert (V : forall c, (c < K)%nat -> get (diag_0_last (gather_fk m st)) ((i ++ [f; s]) ++ [c]) = Some (bin_of (nth c (mr_specs m) dt) (mr_nf m) (mr_nt m) n (fun j => elt X (i ++ [j])) f s)).
  { intros c Hc. rewrite get_inb; [|rewrite SG; apply inb_app; [exact I2|cbn; auto]]. f_equal.
    unfold diag_0_last. cbn [elt]. rewrite last_last. unfold gather_fk. cbn [elt]. rewrite Sst. cbn [List.length]. rewrite app_length. cbn [List.length].
    replace (S (List.length pre + 2) - 2)%nat with (S P) by (unfold P; lia). replace (S (List.length pre + 2) - 1)%nat with (S (P + 1)) by (unfold P; lia).
    replace (S (List.length pre + 2)) with (S (P + 2)) by (unfold P; lia). cbn [firstn nth]. rewrite <- app_assoc. cbn [app]. rewrite firstn_pre by exact Li.
    assert (W0 : nth P (i ++ [f; s; c]) 0%nat = f) by (replace P with (List.length i + 0)%nat by lia; rewrite nth_pre; reflexivity).
    assert (W1 : nth (P + 1) (i ++ [f; s; c]) 0%nat = s) by (rewrite <- Li, nth_pre; reflexivity).
    assert (W2 : nth (P + 2) (i ++ [f; s; c]) 0%nat = c) by (rewrite <- Li, nth_pre; reflexivity).
    rewrite W0, W1, W2.
    assert (SK : nth c (mr_shapes m) (0, 0)%nat = (sp_nf (nth c (mr_specs m) dt), sp_nt (nth c (mr_specs m) dt) n)).
    { rewrite SH. apply nth_error_nth. apply (map_nth_error (fun t => (sp_nf t, sp_nt t n))). apply nth_error_nth'. exact Hc. }
    rewrite SK. cbn [fst snd]. rewrite Vst by exact Hc. rewrite NP by exact Hc. set (t := nth c (mr_specs m) dt).
    assert (It : In t (mr_specs m)) by (apply nth_In; exact Hc). destruct (POS t It) as [P1 P2].
    unfold pad_br. cbn [elt]. rewrite ND, RS. replace (P + 2 - 2)%nat with P by lia. replace (P + 2 - 1)%nat with (P + 1)%nat by lia.
    pose proof (remap_lt (sp_nf t) (mr_nf m) f P1 Hf) as R1. pose proof (remap_lt (sp_nt t n) (mr_nt m) s P2 Hs) as R2.
    set (rf := remap (sp_nf t) (mr_nf m) f) in *. set (rt := remap (sp_nt t n) (mr_nt m) s) in *.
    assert (Q1 : nth P (i ++ [rf; rt]) 0%nat = rf) by (replace P with (List.length i + 0)%nat by lia; rewrite nth_pre; reflexivity).
    assert (Q2 : nth (P + 1) (i ++ [rf; rt]) 0%nat = rt) by (rewrite <- Li, nth_pre; reflexivity).
    assert (Q3 : nth P (pre ++ [sp_nf t; sp_nt t n]) 0%nat = sp_nf t) by (replace P with (List.length pre + 0)%nat by (unfold P; lia); rewrite nth_pre; reflexivity).
    assert (Q4 : nth (P + 1) (pre ++ [sp_nf t; sp_nt t n]) 0%nat = sp_nt t n) by (unfold P; rewrite nth_pre; reflexivity).
    rewrite Q1, Q2, Q3, Q4. replace (rf <? sp_nf t)%nat with true by (symmetry; apply Nat.ltb_lt; exact R1). replace (rt <? sp_nt t n)%nat with true by (symmetry; apply Nat.ltb_lt; exact R2). cbn [andb].
    unfold run_spec. cbn [elt]. rewrite SX, last_last, removelast_last. fold P. rewrite firstn_pre by exact Li. rewrite Q1. replace (S P) with (P + 1)%nat by lia. rewrite Q2. reflexivity. }
  split.
  - intros [c Hu]. pose proof Hu as Hu'. apply get_some in Hu'. destruct Hu' as [Ic _]. rewrite SG in Ic. apply inb_app_inv in Ic; [|apply inb_length in I2; exact I2]. destruct Ic as [_ Ic]. cbn in Ic. destruct Ic as [Hc _].
    rewrite V in Hu by exact Hc. injection Hu as <-. eexists. split; [apply nth_In; exact Hc|reflexivity].
  - intros [t [It ->]]. apply (In_nth _ _ dt) in It. destruct It as [c [Hc <-]]. exists c. apply V. exact Hc.
Qed.
(** a single resolution is returned unchanged *)
Corollary mrs_single m X pre n t : built m n -> mr_specs m = [t] -> (0 < sp_nf t)%nat -> (0 < sp_nt t n)%nat -> shape X = pre ++ [n] -> INR n = mr_size m ->
  exists out, mrs_forward m X = Ok out /\ shape out = pre ++ [sp_nf t; sp_nt t n] /\
    forall i f s, inb i pre -> (f < sp_nf t)%nat -> (s < sp_nt t n)%nat -> get out (i ++ [f; s]) = Some (sp_row t n (fun j => elt X (i ++ [j])) f s).
Proof.
  intros B E P1 P2 SX HN. pose proof B as [_ [_ [_ [[t1 [I1 N1]] [t2 [I2 N2]]]]]]. rewrite E in I1, I2. destruct I1 as [<-|[]]. destruct I2 as [<-|[]].
  destruct (mrs_forward_spec m X pre n B) as [out [Eo [So Ho]]]; try assumption. { rewrite E. intros t' [<-|[]]. auto. }
  exists out. rewrite <- N1, <- N2 in So. split; [exact Eo|]. split; [exact So|]. intros i f s Hi Hf Hs. destruct (Ho i f s Hi) as [v [Gv [[t' [It' Ev]] _]]]; [congruence|congruence|].
  rewrite E in It'. destruct It' as [<-|[]]. rewrite Gv, Ev. unfold bin_of. rewrite <- N1, <- N2, !remap_same by assumption. reflexivity.
Qed.
(** a wrong input length is a ValueError; if kernel_length * sample_rate is not an integer this is every input *)
Theorem mrs_length_error m X : (0 < ndim X)%nat -> INR (last (shape X) 0%nat) <> mr_size m -> mrs_forward m X = Err ValueError.
Proof. intros H N. unfold mrs_forward. replace (ndim X =? 0)%nat with false by (symmetry; apply Nat.eqb_neq; lia). destruct (Req_EM_T _ _); [contradiction|reflexivity]. Qed.
(** resampling facts: indices in range, monotone, and every source bin is seen *)
Theorem mrs_bins n N : (0 < n <= N)%nat ->
  (forall i, (i < N)%nat -> (remap n N i < n)%nat /\ INR (remap n N i) <= INR i * INR n / INR N < INR (remap n N i) + 1) /\
  (forall i i', (i <= i')%nat -> (remap n N i <= remap n N i')%nat) /\ (forall j, (j < n)%nat -> exists i, (i < N)%nat /\ remap n N i = j).
Proof.
  intros H. split; [|split].
  - intros i Hi. split; [apply remap_lt; lia|]. unfold remap. pose proof (Nat.div_mod (i * n) N ltac:(lia)) as DM. pose proof (Nat.mod_upper_bound (i * n) N ltac:(lia)) as MB.
    set (q := (i * n / N)%nat) in *. set (r := ((i * n) mod N)%nat) in *. assert (0 < INR N) by (apply lt_0_INR; lia).
    rewrite <- mult_INR, DM, plus_INR, mult_INR. pose proof (pos_INR r). apply lt_INR in MB.
    split.
    + apply (Rmult_le_reg_r (INR N)); [assumption|]. unfold Rdiv. rewrite Rmult_assoc, Rinv_l by lra. nra.
    + apply (Rmult_lt_reg_r (INR N)); [assumption|]. unfold Rdiv. rewrite Rmult_assoc, Rinv_l by lra. nra.
  - intros i i' L. apply remap_mono; lia.
  - intros j Hj. apply remap_onto; assumption.
Qed.
(** a concrete transform: two resolutions on 8 samples *)
Example mrs_ex : exists m, mrs_create (V := nat) (fun _ => true) 1%nat (fun kw => match kw with (_, k) :: _ => Ok (mksp k (fun n => n / k) (fun _ x f t => x (t * k + f)%nat)) | [] => Err ValueError end)%nat 2 4
    [("n_fft"%string, [2; 4]%nat)] = Ok m /\ built m 8 /\ (forall t, In t (mr_specs m) -> (0 < sp_nf t)%nat /\ (0 < sp_nt t 8)%nat) /\ INR 8 = mr_size m.
Proof.
  assert (R8 : rtrunc (2 * 4) = 8%Z). { replace (2 * 4) with (IZR 8) by lra. apply Qt_props.rtrunc_IZR. }
  destruct (mrs_construction (V := nat) (fun _ => true) 1%nat (fun kw => match kw with (_, k) :: _ => Ok (mksp k (fun n => n / k) (fun _ x f t => x (t * k + f)%nat)) | [] => Err ValueError end)%nat 2 4
    [("n_fft"%string, [2; 4]%nat)]) as [A [_ [C _]]]; [lra|].
  destruct (C _ _ ltac:(intros kv [<-|[]]; discriminate) eq_refl ltac:(discriminate) eq_refl) as [m [E S]].
  exists m. destruct (A m E) as [B Z]. rewrite R8 in B. split; [exact E|]. split; [exact B|]. split; [|rewrite Z; cbn; lra].
  rewrite S. intros t [<-|[<-|[]]]; cbn; lia.
Qed.
