(** Properties C48 and C49: the maximal energy of a set of tiles, and the scan over Q. *)
From Coq Require Import String Sorted.
From Verif Require Import Base Tensor Rutil Slicing_model Slicing_proofs2 Autoenc_model Norm_model Norm_props Dft Gw_model Gw_props Snr_props Spectral_model Spectral_props Trans_model Decim_props Whiten_props Qt_model Qt_props Qt2_props Qtr_props Qtr2_props Qtr3_props.
From Coquelicot Require Import Complex.
Local Open Scope R_scope.

(** ** specification: v is the largest value satisfying S *)
Definition is_max (S : R -> Prop) (v : R) : Prop := S v /\ forall u, S u -> u <= v.

Lemma fmax_spec n f : (0 < n)%nat -> (exists i, (i < n)%nat /\ fmax n f = f i) /\ forall i, (i < n)%nat -> f i <= fmax n f.
Proof.
  induction n as [|n IH]; [lia|]. intros _. destruct n as [|n].
  - cbn. split; [exists 0%nat; split; [lia|reflexivity]|]. intros i Hi. replace i with 0%nat by lia. lra.
  - destruct IH as [[i [Hi E]] U]; [lia|]. change (fmax (S (S n)) f) with (Rmax (fmax (S n) f) (f (S n))). split.
    + destruct (Rle_dec (fmax (S n) f) (f (S n))).
      * exists (S n). split; [lia|apply Rmax_right; assumption].
      * exists i. split; [lia|]. rewrite Rmax_left by lra. assumption.
    + intros j Hj. destruct (Nat.eq_dec j (S n)) as [->|]; [apply Rmax_r|]. eapply Rle_trans; [apply (U j); lia|apply Rmax_l].
Qed.
Lemma lmax_spec l : l <> [] -> In (lmax l) l /\ forall x, In x l -> x <= lmax l.
Proof.
  intros NE. unfold lmax. destruct (fmax_spec (List.length l) (fun i => nth i l 0)) as [[i [Hi ->]] U]; [destruct l; [congruence|cbn; lia]|].
  split; [apply nth_In; assumption|]. intros x Hx. apply (In_nth _ _ 0) in Hx. destruct Hx as [j [Hj <-]]. apply U. assumption.
Qed.

(** ** which tiles are searched *)
(** the tiles whose frequency lies in (lo, hi] *)
Definition in_range (lo hi : R) (freqs : list R) (tiles : list (tensor R)) : list (tensor R) :=
  map snd (filter (fun p => if Rlt_dec lo (fst p) then if Rle_dec (fst p) hi then true else false else false) (combine freqs tiles)).
Lemma first_above_spec l v : StronglySorted Rlt l ->
  (exists k, first_above l v = Some k /\ (k < List.length l)%nat /\ (forall i, (i < List.length l)%nat -> ((k <= i)%nat <-> v < nth i l 0))) \/
  (first_above l v = None /\ forall f, In f l -> f <= v).
Proof.
  induction 1 as [|a l SS IH HF]; cbn [first_above]; [right; split; [reflexivity|intros f []]|].
  destruct (Rlt_dec v a) as [L|L].
  - left. exists 0%nat. split; [reflexivity|]. split; [cbn; lia|]. intros i Hi. split; [intros _|lia]. destruct i; [assumption|]. cbn.
    rewrite Forall_forall in HF. assert (a < nth i l 0) by (apply HF, nth_In; cbn in Hi; lia). lra.
  - destruct IH as [[k [E [Hk H]]]|[E H]].
    + left. exists (S k). rewrite E. split; [reflexivity|]. split; [cbn; lia|]. intros i Hi. destruct i; cbn.
      * split; [lia|lra].
      * rewrite <- H by (cbn in Hi; lia). lia.
    + right. rewrite E. split; [reflexivity|]. intros f [<-|Hf]; [lra|apply H; assumption].
Qed.
Lemma filter_window {A B} (P : A -> bool) (l : list A) (ts : list B) d a b : List.length l = List.length ts ->
  (forall i, (i < List.length l)%nat -> P (nth i l d) = true <-> (a <= i < b)%nat) ->
  map snd (filter (fun p => P (fst p)) (combine l ts)) = firstn (b - a) (skipn a ts).
Proof.
  revert ts a b. induction l as [|x l IH]; intros [|t ts] a b L H; cbn in L; try lia.
  - cbn. rewrite skipn_nil, firstn_nil. reflexivity.
  - cbn [combine filter fst]. pose proof (H 0%nat ltac:(cbn; lia)) as H0. cbn [nth] in H0.
    assert (H' : forall i, (i < List.length l)%nat -> P (nth i l d) = true <-> (a - 1 <= i < b - 1)%nat \/ (a = 0 /\ i < b - 1)%nat).
    { intros i Hi. pose proof (H (S i) ltac:(cbn; lia)) as K. cbn [nth] in K. rewrite K. lia. }
    destruct a as [|a].
    + destruct b as [|b].
      * destruct (P x); [exfalso; assert (0 <= 0 < 0)%nat by (apply H0; reflexivity); lia|].
        rewrite (IH ts 0%nat 0%nat); [reflexivity|lia|]. intros i Hi. rewrite H' by assumption. lia.
      * replace (P x) with true by (symmetry; apply H0; lia). cbn [map snd]. cbn [Nat.sub skipn firstn]. f_equal.
        rewrite (IH ts 0%nat b); [rewrite Nat.sub_0_r; reflexivity|lia|]. intros i Hi. rewrite H' by assumption. lia.
    + destruct (P x); [exfalso; assert (S a <= 0 < b)%nat by (apply H0; reflexivity); lia|].
      rewrite (IH ts a (b - 1)%nat); [|lia|intros i Hi; rewrite H' by assumption; lia].
      cbn [skipn]. f_equal. lia.
Qed.
(** a search range selects exactly the tiles with lo < f <= hi, provided some frequency exceeds hi (and lo); otherwise it
    is a ValueError, even if tiles lie in the range *)
Theorem search_range freqs tiles lo hi : StronglySorted Rlt freqs -> List.length freqs = List.length tiles ->
  (lo <= hi -> (exists f, In f freqs /\ hi < f) -> search_slice freqs (Some (lo, hi)) tiles = Ok (in_range lo hi freqs tiles)) /\
  (hi < lo -> (exists f, In f freqs /\ lo < f) -> search_slice freqs (Some (lo, hi)) tiles = Ok []) /\
  ((forall f, In f freqs -> f <= hi) -> search_slice freqs (Some (lo, hi)) tiles = Err ValueError) /\
  ((forall f, In f freqs -> f <= lo) -> search_slice freqs (Some (lo, hi)) tiles = Err ValueError).
Proof.
  intros SS L. unfold search_slice, first_above_res.
  assert (SL : forall a b, (a <= List.length tiles)%nat -> (b <= List.length tiles)%nat ->
     pyslice (Some (Z.of_nat a)) (Some (Z.of_nat b)) tiles = firstn (b - a) (skipn a tiles)).
  { intros a b Ha Hb. unfold pyslice, slice_lo, slice_hi, py_clamp. replace (Z.of_nat a <? 0)%Z with false by lia. replace (Z.of_nat b <? 0)%Z with false by lia.
    f_equal; [lia|]. f_equal. lia. }
  destruct (first_above_spec freqs lo SS) as [[a [Ea [Ha HA]]]|[Ea HA]]; destruct (first_above_spec freqs hi SS) as [[b [Eb [Hb HB]]]|[Eb HB]]; rewrite Ea, Eb; cbn [bind].
  - rewrite SL by lia. repeat split.
    + intros LH _. f_equal. symmetry. unfold in_range.
      apply (filter_window (fun f => if Rlt_dec lo f then if Rle_dec f hi then true else false else false) freqs tiles 0 a b L).
      intros i Hi. destruct (Rlt_dec lo (nth i freqs 0)) as [R1|R1].
      * apply HA in R1; [|assumption]. destruct (Rle_dec (nth i freqs 0) hi) as [R2|R2].
        -- split; [intros _|reflexivity]. assert (~ (b <= i)%nat) by (rewrite HB by assumption; lra). lia.
        -- split; [discriminate|]. assert (b <= i)%nat by (apply HB; [assumption|lra]). lia.
      * split; [discriminate|]. intros K. exfalso. apply R1. apply HA; [assumption|lia].
    + intros LH _. replace (b - a)%nat with 0%nat; [reflexivity|]. assert (b <= a)%nat; [|lia]. apply HB; [assumption|].
      assert (lo < nth a freqs 0) by (apply HA; [assumption|lia]). lra.
    + intros H. exfalso. assert (hi < nth b freqs 0) by (apply HB; [assumption|lia]). assert (nth b freqs 0 <= hi) by (apply H, nth_In; assumption). lra.
    + intros H. exfalso. assert (lo < nth a freqs 0) by (apply HA; [assumption|lia]). assert (nth a freqs 0 <= lo) by (apply H, nth_In; assumption). lra.
  - repeat split; try reflexivity.
    + intros _ [f [Hf H]]. specialize (HB f Hf). lra.
    + intros LH _. exfalso. assert (lo < nth a freqs 0) by (apply HA; [assumption|lia]). assert (nth a freqs 0 <= hi) by (apply HB, nth_In; assumption). lra.
  - repeat split; try reflexivity.
    + intros LH [f [Hf H]]. specialize (HA f Hf). lra.
    + intros _ [f [Hf H]]. specialize (HA f Hf). lra.
  - repeat split; try reflexivity; intros _ [f [Hf H]]; [specialize (HB f Hf)|specialize (HA f Hf)]; lra.
Qed.
(** in particular a range that reaches the highest frequency is always refused *)
Theorem search_to_top_refuted : exists freqs tiles lo hi, StronglySorted Rlt freqs /\ List.length freqs = List.length tiles /\
  in_range lo hi freqs tiles = tiles /\ tiles <> [] /\ search_slice freqs (Some (lo, hi)) tiles = Err ValueError.
Proof.
  exists [10; 20], [mk [1;1;1]%nat (fun _ => 1); mk [1;1;1]%nat (fun _ => 2)], 5, 20.
  assert (SS : StronglySorted Rlt [10; 20]) by (repeat constructor; lra).
  split; [assumption|]. split; [reflexivity|]. split; [|split; [discriminate|]].
  - unfold in_range. cbn [combine filter fst]. destruct (Rlt_dec 5 10); [|lra]. destruct (Rle_dec 10 20); [|lra]. destruct (Rlt_dec 5 20); [|lra]. destruct (Rle_dec 20 20); [|lra]. reflexivity.
  - match goal with |- search_slice _ _ ?t = _ => destruct (search_range [10;20] t 5 20 SS eq_refl) as [_ [_ [Q _]]] end.
    apply Q. intros f [<-|[<-|[]]]; lra.
Qed.

(** ** the maximum *)
(** the energies of the searched tiles: any batch element, channel and instant *)
Definition tile_shape (B D : nat) (q : tensor R) : Prop := exists N, shape q = [B; D; N] /\ (0 < N)%nat.
Definition energies (tiles : list (tensor R)) (sel : nat -> nat -> Prop) (v : R) : Prop :=
  exists q b d n, In q tiles /\ sel b d /\ get q [b; d; n] = Some v.
Lemma in_all_idx i s : In i (all_idx s) <-> inb i s.
Proof.
  revert i; induction s as [|d s IH]; intros i; cbn.
  - destruct i; cbn; [tauto|]. split; [intros [E|[]]; discriminate|tauto].
  - rewrite in_flat_map. split.
    + intros [x [Hx Hi]]. apply in_seq in Hx. apply in_map_iff in Hi. destruct Hi as [j [<- Hj]]. cbn. split; [lia|apply IH; assumption].
    + destruct i as [|x i]; cbn; [tauto|]. intros [Hx Hi]. exists x. split; [apply in_seq; lia|]. apply in_map. apply IH. assumption.
Qed.
Lemma max_all_spec q : (0 < numel q)%nat -> exists v, max_all q = Ok v /\ is_max (fun u => exists i, get q i = Some u) v.
Proof.
  intros H. unfold max_all. replace (numel q =? 0)%nat with false by lia. eexists. split; [reflexivity|].
  assert (NE : map (elt q) (all_idx (shape q)) <> []).
  { unfold numel in H. intros E. apply map_eq_nil in E. assert (L : List.length (all_idx (shape q)) = prod (shape q)).
    { clear. induction (shape q) as [|d s IH]; cbn; [reflexivity|]. rewrite <- IH. generalize (all_idx s). intros l. generalize 0%nat.
      induction d as [|d IHd]; intros s0; cbn; [reflexivity|]. rewrite app_length, map_length, IHd. reflexivity. }
    rewrite E in L. cbn in L. lia. }
  destruct (lmax_spec _ NE) as [I U]. split.
  - apply in_map_iff in I. destruct I as [i [<- Hi]]. exists i. apply get_inb. apply in_all_idx. assumption.
  - intros u [i Hu]. apply get_some in Hu. destruct Hu as [Hi <-]. apply U. apply in_map. apply in_all_idx. assumption.
Qed.
Lemma max_last_spec q pre N : shape q = pre ++ [N] -> (0 < N)%nat ->
  exists r, max_last q = Ok r /\ shape r = pre /\ forall i, inb i pre -> is_max (fun u => exists n, get q (i ++ [n]) = Some u) (elt r i).
Proof.
  intros S HN. unfold max_last. rewrite S, last_last, removelast_last. replace (N =? 0)%nat with false by lia. eexists. split; [reflexivity|]. split; [reflexivity|].
  intros i Hi. cbn [elt]. destruct (fmax_spec N (fun j => elt q (i ++ [j])) HN) as [[n [Hn E]] U]. split.
  - exists n. rewrite E. apply get_inb. rewrite S. apply inb_app; [assumption|cbn; auto].
  - intros u [n' Hu]. apply get_some in Hu. destruct Hu as [Hi' <-]. apply U. rewrite S in Hi'. apply inb_app_inv in Hi'; [|apply inb_length in Hi; exact Hi]. destruct Hi' as [_ K]. cbn in K. lia.
Qed.

Lemma skipn_firstn_in {A} (x : A) n m l : In x (firstn n (skipn m l)) -> In x l.
Proof. intros H. rewrite <- (firstn_skipn m l). apply in_or_app. right. rewrite <- (firstn_skipn n (skipn m l)). apply in_or_app. left. assumption. Qed.
Lemma is_max_ext (P Q : R -> Prop) v : (forall u, P u <-> Q u) -> is_max P v -> is_max Q v.
Proof. intros H [A U]. split; [apply H; assumption|]. intros u Hu. apply U, H. assumption. Qed.
(** a maximum of maxima *)
Lemma is_max_lift {A} (J : A -> Prop) (P : A -> R -> Prop) (g : A -> R) v :
  (forall a, J a -> is_max (P a) (g a)) -> is_max (fun u => exists a, J a /\ g a = u) v -> is_max (fun u => exists a, J a /\ P a u) v.
Proof.
  intros H [[a [Ja <-]] U]. split; [exists a; split; [assumption|apply H; assumption]|].
  intros u [a' [Ja' Pu]]. apply (H a' Ja') in Pu. eapply Rle_trans; [exact Pu|]. apply U. exists a'. auto.
Qed.
Lemma lmax_is_max l : l <> [] -> is_max (fun u => In u l) (lmax l).
Proof. intros H. split; apply lmax_spec; assumption. Qed.
Lemma fmax_is_max n f : (0 < n)%nat -> is_max (fun u => exists i, (i < n)%nat /\ f i = u) (fmax n f).
Proof. intros H. destruct (fmax_spec n f H) as [[i [Hi E]] U]. split; [exists i; auto|]. intros u [j [Hj <-]]. apply U; assumption. Qed.

Definition dim_kind (dimension : string) : option (option (bool * bool)) :=
  if string_dec dimension "both" then Some None
  else if string_dec dimension "neither" then Some (Some (true, true))
  else if string_dec dimension "channel" then Some (Some (false, true))
  else if string_dec dimension "batch" then Some (Some (true, false)) else None.

Lemma neither_max sel B D : sel <> [] -> (0 < B)%nat -> (0 < D)%nat -> Forall (tile_shape B D) sel ->
  exists mft, (let* mt := sequence (map max_last sel) in let* mt := stack_last mt in max_last mt) = Ok mft /\ shape mft = [B; D] /\
    forall b d, (b < B)%nat -> (d < D)%nat -> is_max (energies sel (fun b' d' => b' = b /\ d' = d)) (elt mft [b; d]).
Proof.
  intros NE HB HD FS.
  destruct (sequence_ok_map max_last (fun q r => shape r = [B; D] /\ forall b d, (b < B)%nat -> (d < D)%nat -> is_max (fun u => exists n, get q [b; d; n] = Some u) (elt r [b; d])) sel) as [ms [Ems F2]].
  { intros q Hq. rewrite Forall_forall in FS. destruct (FS q Hq) as [N [S HN]].
    destruct (max_last_spec q [B; D] N S HN) as [r [E [Sr H]]]. exists r. split; [assumption|]. split; [assumption|].
    intros b d Hb Hd. apply (H [b; d]). cbn. auto. }
  rewrite Ems. cbn [bind].
  assert (Lms : List.length ms = List.length sel) by (symmetry; eapply Forall2_len; exact F2).
  assert (SH : forall t, In t ms -> shape t = [B; D]).
  { clear - F2. induction F2 as [|q r l l' [H _] _ IH]; intros t; [intros []|]. intros [<-|I]; auto. }
  destruct ms as [|m0 ms']; [destruct sel; [congruence|cbn in Lms; lia]|].
  unfold stack_last. rewrite (proj2 (forallb_forall _ _)).
  2:{ intros t Ht. rewrite (SH t Ht), (SH m0) by (left; reflexivity). destruct list_eq_dec; congruence. }
  cbn [bind]. set (ml := m0 :: ms') in *. rewrite (SH m0) by (left; reflexivity).
  assert (L0 : (0 < List.length ml)%nat) by (cbn; lia).
  match goal with |- exists _, max_last ?t = _ /\ _ => destruct (max_last_spec t [B; D] (List.length ml) eq_refl L0) as [r [E [Sr H]]] end.
  exists r. split; [assumption|]. split; [assumption|]. intros b d Hb Hd. specialize (H [b; d] ltac:(cbn; auto)).
  set (P := fun (q : tensor R) (u : R) => exists n, get q [b; d; n] = Some u).
  apply (is_max_ext (fun u => exists k, (k < List.length ml)%nat /\ P (nth k sel (mk [] (fun _ => 0))) u)).
  { intros u. unfold energies, P. split.
    - intros [k [Hk [n Hn]]]. exists (nth k sel (mk [] (fun _ => 0))), b, d, n. split; [apply nth_In; rewrite <- Lms; assumption|]. auto.
    - intros [q [b' [d' [n [Hq [[-> ->] Hn]]]]]]. apply (In_nth _ _ (mk [] (fun _ => 0))) in Hq. destruct Hq as [k [Hk E']]. exists k. rewrite Lms, E'. split; [assumption|exists n; assumption]. }
  apply (is_max_lift _ _ (fun k => elt (nth k ml m0) [b; d])).
  - intros k Hk. clear - F2 Hk Hb Hd P. unfold P. clear P. revert k Hk. generalize (m0) as dd. induction F2 as [|q rr l l' [_ H] _ IH]; intros dd k Hk; [cbn in Hk; lia|].
    destruct k; cbn; [apply H; assumption|]. apply IH. cbn in Hk. lia.
  - eapply is_max_ext; [|exact H]. intros u. cbn [app]. split.
    + intros [n Hn]. apply get_some in Hn. destruct Hn as [I <-]. cbn in I. exists n. cbn [elt last removelast]. split; [apply I|reflexivity].
    + intros [k [Hk <-]]. exists k. rewrite get_inb by (cbn [shape]; cbn; auto). reflexivity.
Qed.
(** with a non-empty selection of tiles: the maximum over every entry, per (batch, channel), per channel (over the batch), or per
    batch element (over the channels) *)
Theorem max_energy freqs tiles fsearch sel B D : search_slice freqs fsearch tiles = Ok sel -> sel <> [] -> (0 < B)%nat -> (0 < D)%nat ->
  Forall (tile_shape B D) tiles ->
  (exists r, get_max_energy freqs (Some tiles) fsearch "both" = Ok r /\ shape r = [] /\ is_max (energies sel (fun _ _ => True)) (elt r [])) /\
  (exists r, get_max_energy freqs (Some tiles) fsearch "neither" = Ok r /\ shape r = [B; D] /\
     forall b d, (b < B)%nat -> (d < D)%nat -> is_max (energies sel (fun b' d' => b' = b /\ d' = d)) (elt r [b; d])) /\
  (exists r, get_max_energy freqs (Some tiles) fsearch "channel" = Ok r /\ shape r = [D] /\
     forall d, (d < D)%nat -> is_max (energies sel (fun _ d' => d' = d)) (elt r [d])) /\
  (exists r, get_max_energy freqs (Some tiles) fsearch "batch" = Ok r /\ shape r = [B] /\
     forall b, (b < B)%nat -> is_max (energies sel (fun b' _ => b' = b)) (elt r [b])).
Proof.
  intros Esel NE HB HD FA.
  assert (FS : Forall (tile_shape B D) sel).
  { rewrite Forall_forall in *. intros q Hq. apply FA. unfold search_slice in Esel. destruct fsearch as [[lo hi]|].
    - destruct (first_above_res freqs lo); [|discriminate]. destruct (first_above_res freqs hi); [|discriminate]. cbn [bind] in Esel. injection Esel as <-.
      unfold pyslice in Hq. apply (skipn_firstn_in) in Hq. assumption.
    - injection Esel as <-. assumption. }
  destruct (neither_max sel B D NE HB HD FS) as [mft [Em [Sm Hm]]].
  assert (RNG : forall q b d n u, In q sel -> get q [b; d; n] = Some u -> (b < B)%nat /\ (d < D)%nat).
  { intros q b d n u Hq Hu. rewrite Forall_forall in FS. destruct (FS q Hq) as [N [S _]]. apply get_some in Hu. destruct Hu as [I _]. rewrite S in I. cbn in I. tauto. }
  unfold get_max_energy. rewrite Esel. cbn [existsb negb orb]. repeat split.
  - destruct (sequence_ok_map max_all (fun q v => is_max (fun u => exists i, get q i = Some u) v) sel) as [ms [Ems F2]].
    { intros q Hq. apply max_all_spec. rewrite Forall_forall in FS. destruct (FS q Hq) as [N [S HN]]. unfold numel. rewrite S. cbn. nia. }
    cbn. rewrite Ems. cbn [bind]. assert (Lms : List.length ms = List.length sel) by (symmetry; eapply Forall2_len; exact F2).
    assert (NM : ms <> []) by (destruct ms, sel; cbn in *; congruence).
    exists (mk [] (fun _ => lmax ms)). split; [destruct ms; [congruence|reflexivity]|]. split; [reflexivity|]. cbn [elt].
    apply (is_max_ext (fun u => exists k, (k < List.length ms)%nat /\ exists i, get (nth k sel (mk [] (fun _ => 0))) i = Some u)).
    { intros u. unfold energies. split.
      - intros [k [Hk [i Hi]]]. assert (Hq : In (nth k sel (mk [] (fun _ => 0))) sel) by (apply nth_In; lia).
        rewrite Forall_forall in FS. destruct (FS _ Hq) as [N [S _]]. pose proof Hi as Hi'. apply get_some in Hi'. destruct Hi' as [I _]. rewrite S in I.
        destruct i as [|b [|d [|n [|]]]]; cbn in I; try tauto. eexists _, b, d, n. split; [exact Hq|]. auto.
      - intros [q [b [d [n [Hq [_ Hn]]]]]]. apply (In_nth _ _ (mk [] (fun _ => 0))) in Hq. destruct Hq as [k [Hk E']]. exists k. rewrite Lms, E'. split; [assumption|eauto]. }
    apply (is_max_lift _ _ (fun k => nth k ms 0)).
    + intros k Hk. clear - F2 Hk. revert k Hk. induction F2 as [|q rr l l' H _ IH]; intros k Hk; [cbn in Hk; lia|]. destruct k; cbn; [assumption|]. apply IH. cbn in Hk. lia.
    + eapply is_max_ext; [|apply lmax_is_max; assumption]. intros u. cbn beta. split.
      * intros I. apply (In_nth _ _ 0) in I. exact I.
      * intros [k [Hk <-]]. apply nth_In. assumption.
  - cbn. destruct (sequence (map max_last sel)) as [mt|]; [|discriminate Em]. cbn [bind] in *. destruct (stack_last mt); [|discriminate Em]. cbn [bind] in *. rewrite Em. cbn [bind]. eauto.
  - cbn. destruct (sequence (map max_last sel)) as [mt|]; [|discriminate Em]. cbn [bind] in *. destruct (stack_last mt); [|discriminate Em]. cbn [bind] in *. rewrite Em. cbn [bind].
    unfold max_first2. rewrite Sm. replace (B =? 0)%nat with false by lia. eexists. split; [reflexivity|]. split; [reflexivity|]. intros d Hd. cbn [elt].
    apply (is_max_ext (fun u => exists b, (b < B)%nat /\ energies sel (fun b' d' => b' = b /\ d' = d) u)).
    + intros u. unfold energies. split.
      * intros [b [Hb [q [b' [d' [n [Hq [[-> ->] Hn]]]]]]]]. exists q, b, d, n. auto.
      * intros [q [b' [d' [n [Hq [-> Hn]]]]]]. exists b'. split; [eapply RNG; eauto|]. exists q, b', d, n. auto.
    + apply (is_max_lift _ _ (fun b => elt mft [b; d])); [intros b Hb; apply Hm; assumption|]. apply fmax_is_max. assumption.
  - cbn. destruct (sequence (map max_last sel)) as [mt|]; [|discriminate Em]. cbn [bind] in *. destruct (stack_last mt); [|discriminate Em]. cbn [bind] in *. rewrite Em. cbn [bind].
    destruct (max_last_spec mft [B] D Sm HD) as [r [Er [Sr H]]]. exists r. split; [assumption|]. split; [assumption|]. intros b Hb.
    apply (is_max_ext (fun u => exists d, (d < D)%nat /\ energies sel (fun b' d' => b' = b /\ d' = d) u)).
    + intros u. unfold energies. split.
      * intros [d [Hd [q [b' [d' [n [Hq [[-> ->] Hn]]]]]]]]. exists q, b, d, n. auto.
      * intros [q [b' [d' [n [Hq [-> Hn]]]]]]. exists d'. split; [eapply RNG; eauto|]. exists q, b, d', n. auto.
    + apply (is_max_lift _ _ (fun d => elt mft [b; d])); [intros d Hd; apply Hm; assumption|].
      eapply is_max_ext; [|apply (H [b]); cbn; auto]. intros u. cbn [app]. split.
      * intros [n Hn]. apply get_some in Hn. destruct Hn as [I <-]. rewrite Sm in I. cbn in I. exists n. split; [lia|reflexivity].
      * intros [k [Hk <-]]. exists k. apply get_inb. rewrite Sm. cbn. auto.
Qed.
(** errors: an unknown dimension; no tiles computed yet; an unusable search range; an empty selection *)
Theorem max_energy_errors freqs tiles fsearch dimension :
  (~ In dimension ["both"; "neither"; "channel"; "batch"]%string -> get_max_energy freqs tiles fsearch dimension = Err ValueError) /\
  (In dimension ["both"; "neither"; "channel"; "batch"]%string ->
     get_max_energy freqs None fsearch dimension = Err RuntimeError /\
     (forall ts e, search_slice freqs fsearch ts = Err e -> get_max_energy freqs (Some ts) fsearch dimension = Err e) /\
     (forall ts, search_slice freqs fsearch ts = Ok [] -> get_max_energy freqs (Some ts) fsearch dimension
                 = Err (if string_dec dimension "both" then ValueError else RuntimeError))).
Proof.
  split.
  - intros H. unfold get_max_energy. replace (existsb _ _) with false; [reflexivity|]. symmetry. apply not_true_is_false. intros E. apply H.
    apply existsb_exists in E. destruct E as [s [Hs Es]]. destruct string_dec as [->|]; [assumption|discriminate].
  - intros H. unfold get_max_energy. assert (E : existsb (fun s => if string_dec dimension s then true else false) ["both"; "neither"; "channel"; "batch"]%string = true).
    { apply existsb_exists. exists dimension. split; [assumption|]. destruct string_dec; congruence. }
    rewrite E. cbn [negb]. split; [reflexivity|]. split.
    + intros ts e ->. reflexivity.
    + intros ts ->. cbn [bind map sequence]. destruct (string_dec dimension "both"); reflexivity.
Qed.

(** ** QScan: the values of Q *)
Theorem q_planes q0 q1 mm : 0 < q0 -> 0 < q1 -> 0 < mm ->
  exists n qs, get_qs q0 q1 mm = Ok qs /\ least_steps (ln (q1 / q0) / sqrt 2) (step_mismatch mm) n /\ List.length qs = n /\
    (forall i, (i < n)%nat -> nth_error qs i = Some (geo_mid q0 q1 n i)) /\
    (q0 < q1 -> StronglySorted Rlt qs /\ forall q, In q qs -> q0 < q < q1).
Proof.
  intros H0 H1 Hm. set (n := Z.to_nat (nplanes q0 q1 mm)).
  assert (LS : least_steps (ln (q1 / q0) / sqrt 2) (step_mismatch mm) n).
  { unfold n, nplanes. rewrite Z.max_comm. apply ceil_steps. assert (0 < sqrt (mm / 3)) by (apply sqrt_lt_R0; lra). unfold deltam. lra. }
  assert (R0 : 0 < q1 / q0) by (apply Rdiv_lt_0_compat; assumption).
  assert (NP : (0 < n)%nat) by apply LS.
  assert (NR : 0 < INR n) by (apply lt_0_INR; assumption).
  assert (s2 : 0 < sqrt 2) by (apply sqrt_lt_R0; lra).
  assert (G : forall i, q_plane q0 q1 mm i = geo_mid q0 q1 n i).
  { intros i. unfold q_plane, geo_mid, Rpower. f_equal. f_equal.
    assert (E : IZR (nplanes q0 q1 mm) = INR n) by (unfold n; rewrite INR_IZR_INZ, Z2Nat.id; [reflexivity|unfold nplanes; lia]).
    rewrite E. field. lra. }
  assert (N : forall i, (i < n)%nat -> nth_error (map (q_plane q0 q1 mm) (seq 0 n)) i = Some (geo_mid q0 q1 n i)).
  { intros i Hi. rewrite <- G. apply map_nth_error. rewrite nth_error_nth' with (d := 0%nat) by (rewrite seq_length; assumption). rewrite seq_nth by assumption. reflexivity. }
  exists n, (map (q_plane q0 q1 mm) (seq 0 n)). split; [unfold get_qs; destruct (Rle_dec (q1 / q0) 0); [lra|reflexivity]|].
  split; [assumption|]. split; [rewrite map_length, seq_length; reflexivity|]. split; [assumption|]. intros L.
  assert (LP : 0 < ln (q1 / q0)). { rewrite <- ln_1. apply ln_increasing; [lra|]. apply (Rmult_lt_reg_r q0); [assumption|]. unfold Rdiv. rewrite Rmult_assoc, Rinv_l; lra. }
  assert (M : forall i j, (i < j)%nat -> geo_mid q0 q1 n i < geo_mid q0 q1 n j).
  { intros i j Hij. unfold geo_mid, Rpower. apply Rmult_lt_compat_l; [assumption|]. apply exp_increasing. apply Rmult_lt_compat_r; [assumption|].
    unfold Rdiv. apply Rmult_lt_compat_r; [apply Rinv_0_lt_compat; assumption|]. apply lt_INR in Hij. lra. }
  split.
  - rewrite (map_ext _ _ G). generalize 0%nat as s. clear N NP LS. generalize n at 2. induction n0 as [|k IH]; intros s; cbn; [constructor|]. constructor; [apply IH|].
    apply Forall_forall. intros x Hx. apply in_map_iff in Hx. destruct Hx as [j [<- Hj]]. apply in_seq in Hj. apply M. lia.
  - intros q Hq. apply in_map_iff in Hq. destruct Hq as [i [<- Hi]]. apply in_seq in Hi. rewrite G. unfold geo_mid, Rpower.
    assert (E1 : 0 < (INR i + / 2) / INR n < 1).
    { pose proof (pos_INR i). split; [apply Rdiv_lt_0_compat; lra|]. apply (Rmult_lt_reg_r (INR n)); [assumption|]. unfold Rdiv. rewrite Rmult_assoc, Rinv_l by lra.
      assert (INR i + 1 <= INR n) by (rewrite <- S_INR; apply le_INR; lia). lra. }
    split.
    + rewrite <- (Rmult_1_r q0) at 1. apply Rmult_lt_compat_l; [assumption|]. rewrite <- exp_0. apply exp_increasing. apply Rmult_lt_0_compat; lra.
    + apply Rlt_le_trans with (q0 * exp (ln (q1 / q0))).
      * apply Rmult_lt_compat_l; [assumption|]. apply exp_increasing. nra.
      * rewrite exp_ln by assumption. right. field. lra.
Qed.
(** a range whose ends have different signs (or a zero upper end) is a ValueError *)
Theorem q_planes_error dur sr q0 q1 fr method mm : q1 / q0 <= 0 -> qscan_create dur sr (Some (q0, q1)) fr method mm = Err ValueError.
Proof. intros H. unfold qscan_create, get_qs. cbn [fst snd]. destruct (Rle_dec (q1 / q0) 0); [reflexivity|contradiction]. Qed.
(** the scan keeps exactly the planes below the largest allowed Q; each gets the limits it would get on its own *)
Theorem qscan_construction dur sr q0 q1 fr mm method : 0 < dur -> 0 < sr -> 0 < q0 -> 0 < q1 -> 0 < mm ->
  forall qs, get_qs q0 q1 mm = Ok qs ->
  (forall im, known_method method = Some im -> (forall q, In q qs -> 0 < resolved_hi q sr fr) ->
    exists ms, qscan_create dur sr (Some (q0, q1)) fr method mm = Ok ms /\
      map tr_q ms = filter (fun q => if Rlt_dec q (max_q dur sr) then true else false) qs /\
      Forall (fun m => qtr_create dur sr (tr_q m) fr mm method = Ok m /\ tr_frange m = (resolved_lo (tr_q m) dur fr, resolved_hi (tr_q m) sr fr)) ms) /\
  (known_method method = None -> (exists q, In q qs /\ q < max_q dur sr) -> qscan_create dur sr (Some (q0, q1)) fr method mm = Err ValueError).
Proof.
  intros Hd Hs H0 H1 Hm qs Eq. assert (QP : forall q, In q qs -> 0 < q).
  { destruct (q_planes q0 q1 mm H0 H1 Hm) as [n [qs' [E [_ [L [N _]]]]]]. rewrite Eq in E. injection E as <-. intros q Hq.
    apply In_nth_error in Hq. destruct Hq as [i Hi]. assert (i < n)%nat by (rewrite <- L; apply nth_error_Some; congruence). rewrite N in Hi by assumption. injection Hi as <-.
    unfold geo_mid, Rpower. apply Rmult_lt_0_compat; [assumption|apply exp_pos]. }
  split.
  - intros im Km HH.
    destruct (sequence_ok_map (fun q => qtr_create dur sr q fr mm method) (fun q m => tr_q m = q /\ qtr_create dur sr q fr mm method = Ok m /\ tr_frange m = (resolved_lo q dur fr, resolved_hi q sr fr))
       (filter (fun q => if Rlt_dec q (max_q dur sr) then true else false) qs)) as [ms [E F2]].
    { intros q Hq. apply filter_In in Hq. destruct Hq as [Hq Lq]. destruct (Rlt_dec q (max_q dur sr)) as [Lq'|]; [|discriminate].
      destruct (qtr_construction dur sr q fr mm method Hd Hs (QP q Hq) Hm) as [_ [_ [_ C]]]. destruct (C Lq' im Km (HH q Hq)) as [fs [_ [_ Ec]]].
      eexists. split; [exact Ec|]. split; [reflexivity|]. split; [exact Ec|reflexivity]. }
    exists ms. unfold qscan_create. cbn [fst snd]. rewrite Eq. cbn [bind]. split; [exact E|]. split.
    + clear E. induction F2 as [|a b l l' [<- _] _ IH]; cbn; [reflexivity|]. f_equal. exact IH.
    + clear E. induction F2 as [|a b l l' [<- H] _ IH]; constructor; [exact H|exact IH].
  - intros Km [q [Hq Lq]]. unfold qscan_create. cbn [fst snd]. rewrite Eq. cbn [bind].
    assert (I : In q (filter (fun q => if Rlt_dec q (max_q dur sr) then true else false) qs)) by (apply filter_In; split; [assumption|destruct (Rlt_dec q (max_q dur sr)); [reflexivity|contradiction]]).
    assert (P : forall q', In q' (filter (fun q => if Rlt_dec q (max_q dur sr) then true else false) qs) -> In q' qs) by (intros q' H; apply filter_In in H; apply H).
    destruct (filter _ qs) as [|a l]; [destruct I|]. cbn [map sequence].
    destruct (qtr_construction dur sr a fr mm method Hd Hs (QP a (P a (or_introl eq_refl))) Hm) as [_ [C _]]. rewrite (C Km). reflexivity.
Qed.

(** ** QScan: the plane chosen *)
Lemma argmax_from_spec l : forall best bi i0 l0, nth_error l0 bi = Some best -> (bi < i0)%nat ->
  (forall j, (j < i0)%nat -> forall v, nth_error l0 j = Some v -> v <= best /\ ((j < bi)%nat -> v < best)) -> List.length l0 = i0 ->
  exists v, nth_error (l0 ++ l) (argmax_from best bi i0 l) = Some v /\
    forall j u, nth_error (l0 ++ l) j = Some u -> u <= v /\ ((j < argmax_from best bi i0 l)%nat -> u < v).
Proof.
  induction l as [|x l IH]; intros best bi i0 l0 Hb Hbi H L; cbn [argmax_from].
  - rewrite app_nil_r. exists best. split; [assumption|]. intros j u Hu. apply (H j); [|assumption]. rewrite <- L. apply nth_error_Some. congruence.
  - replace (l0 ++ x :: l) with ((l0 ++ [x]) ++ l) by (rewrite <- app_assoc; reflexivity).
    assert (NL : nth_error (l0 ++ [x]) i0 = Some x) by (rewrite nth_error_app2 by lia; rewrite L, Nat.sub_diag; reflexivity).
    destruct (Rlt_dec best x) as [Lx|Lx]; apply IH; try (rewrite app_length; cbn; lia); try lia; try assumption.
    + intros j Hj v Hv. destruct (Nat.eq_dec j i0) as [->|].
      * rewrite NL in Hv. injection Hv as <-. split; [lra|lia].
      * rewrite nth_error_app1 in Hv by lia. destruct (H j ltac:(lia) v Hv). split; lra.
    + rewrite nth_error_app1 by lia. assumption.
    + intros j Hj v Hv. destruct (Nat.eq_dec j i0) as [->|].
      * rewrite NL in Hv. injection Hv as <-. split; [lra|lia].
      * rewrite nth_error_app1 in Hv by lia. apply (H j); [lia|assumption].
Qed.
Lemma argmax_spec l : l <> [] -> exists i v, argmax l = Ok i /\ nth_error l i = Some v /\
  forall j u, nth_error l j = Some u -> u <= v /\ ((j < i)%nat -> u < v).
Proof.
  destruct l as [|x l]; [congruence|]. intros _. cbn [argmax].
  destruct (argmax_from_spec l x 0 1 [x]) as [v [E H]]; try reflexivity; try lia.
  - intros j Hj v Hv. destruct j; [|lia]. injection Hv as <-. split; [lra|lia].
  - exists (argmax_from x 0 1 l), v. split; [reflexivity|]. split; [exact E|exact H].
Qed.
Lemma is_max_unique P v v' : is_max P v -> is_max P v' -> v = v'.
Proof. intros [A U] [A' U']. apply Rle_antisym; auto. Qed.
Lemma sequence_map_inv {A B} (f : A -> res B) l r : sequence (map f l) = Ok r -> Forall2 (fun a b => f a = Ok b) l r.
Proof.
  revert r; induction l as [|a l IH]; cbn; intros r E.
  - injection E as <-. constructor.
  - destruct (f a) as [b|] eqn:Ea; [|discriminate]. cbn [bind] in E. destruct (sequence (map f l)) as [r'|]; [|discriminate]. cbn [bind] in E. injection E as <-.
    constructor; auto.
Qed.
Lemma Forall2_nth {A B} (P : A -> B -> Prop) l r i a : Forall2 P l r -> nth_error l i = Some a -> exists b, nth_error r i = Some b /\ P a b.
Proof. intros F; revert i; induction F as [|x y l r Pxy F IH]; intros [|i] E; cbn in *; try discriminate; eauto. injection E as <-. eauto. Qed.
Lemma combine_nth_error {A B} (l : list A) (r : list B) i a b : nth_error l i = Some a -> nth_error r i = Some b -> nth_error (combine l r) i = Some (a, b).
Proof. revert r i; induction l as [|x l IH]; intros [|y r] [|i] H1 H2; cbn in *; try discriminate; [congruence|auto]. Qed.
Lemma combine_nth_error_inv {A B} (l : list A) (r : list B) i a b : nth_error (combine l r) i = Some (a, b) -> nth_error l i = Some a /\ nth_error r i = Some b.
Proof. revert r i; induction l as [|x l IH]; intros [|y r] [|i] H; cbn in *; try discriminate; [injection H as <- <-; auto|auto]. Qed.
(** the energies of plane m that are searched *)
Definition plane_max (m : qtransform) (tiles : list (tensor R)) (fsearch : option (R * R)) (v : R) : Prop :=
  exists sel, search_slice (tr_freqs m) fsearch tiles = Ok sel /\ is_max (energies sel (fun _ _ => True)) v.
(** the scan returns the interpolated tiles of the first plane with the largest maximal energy *)
Theorem qscan_selects ms nf nt X fsearch norm B D all : ms <> [] -> (0 < B)%nat -> (0 < D)%nat ->
  Forall2 (fun m tiles => compute_qtiles m X norm = Ok tiles /\ Forall (tile_shape B D) tiles /\
                          exists sel, search_slice (tr_freqs m) fsearch tiles = Ok sel /\ sel <> []) ms all ->
  exists i m tiles v, nth_error ms i = Some m /\ nth_error all i = Some tiles /\ plane_max m tiles fsearch v /\
    (forall j m' tiles' u, nth_error ms j = Some m' -> nth_error all j = Some tiles' -> plane_max m' tiles' fsearch u -> u <= v /\ ((j < i)%nat -> u < v)) /\
    qscan_forward ms nf nt X fsearch norm = interpolate_tiles (tr_method m) nf nt (Some tiles).
Proof.
  intros NE HB HD F. unfold qscan_forward.
  assert (E1 : sequence (map (fun m => compute_qtiles m X norm) ms) = Ok all).
  { clear NE. induction F as [|m t l l' [H _] _ IH]; cbn; [reflexivity|]. rewrite H. cbn [bind]. rewrite IH. reflexivity. }
  rewrite E1. cbn [bind]. clear E1.
  destruct (sequence_ok_map (fun p => get_max_energy (tr_freqs (fst p)) (Some (snd p)) fsearch "both")
     (fun p e => plane_max (fst p) (snd p) fsearch (elt e [])) (combine ms all)) as [es [Ees F2]].
  { intros [m tiles] I. apply In_nth_error in I. destruct I as [i I]. apply combine_nth_error_inv in I. destruct I as [Im It].
    destruct (Forall2_nth _ _ _ _ _ F Im) as [t' [It' [_ [FS [sel [Esel NEs]]]]]]. rewrite It in It'. injection It' as <-.
    destruct (max_energy (tr_freqs m) tiles fsearch sel B D Esel NEs HB HD FS) as [[r [Er [_ M]]] _]. exists r. split; [exact Er|]. exists sel. auto. }
  rewrite Ees. cbn [bind]. assert (Len : List.length ms = List.length all) by (eapply Forall2_len; exact F).
  assert (Les : List.length (combine ms all) = List.length es) by (eapply Forall2_len; exact F2). rewrite combine_length in Les.
  destruct (argmax_spec (map (fun e : tensor R => elt e []) es)) as [i [v [Ei [Vi Hi]]]].
  { intros K. apply map_eq_nil in K. subst es. rewrite <- Len, Nat.min_id in Les. destruct ms; [congruence|cbn in Les; lia]. }
  rewrite Ei. cbn [bind].
  assert (Li : (i < List.length es)%nat) by (rewrite <- (map_length (fun e : tensor R => elt e []) es); apply nth_error_Some; congruence).
  destruct (nth_error ms i) as [m|] eqn:Em; [|apply nth_error_None in Em; lia].
  destruct (nth_error all i) as [tiles|] eqn:Et; [|apply nth_error_None in Et; lia].
  pose proof (combine_nth_error _ _ _ _ _ Em Et) as Ec. rewrite Ec.
  assert (PM : forall j m' tiles', nth_error ms j = Some m' -> nth_error all j = Some tiles' -> exists e, nth_error (map (fun e : tensor R => elt e []) es) j = Some e /\ plane_max m' tiles' fsearch e).
  { intros j m' tiles' Hm' Ht'. destruct (Forall2_nth _ _ _ _ _ F2 (combine_nth_error _ _ _ _ _ Hm' Ht')) as [e [He P]]. exists (elt e []). split; [|exact P].
    apply (map_nth_error (fun e : tensor R => elt e [])). exact He. }
  assert (PU : forall m' tiles' u u', plane_max m' tiles' fsearch u -> plane_max m' tiles' fsearch u' -> u = u').
  { intros m' tiles' u u' [s1 [E1 M1]] [s2 [E2 M2]]. rewrite E1 in E2. injection E2 as <-. eapply is_max_unique; eassumption. }
  exists i, m, tiles, v. split; [assumption|]. split; [assumption|]. split.
  { destruct (PM i m tiles Em Et) as [e [He P]]. rewrite Vi in He. injection He as <-. exact P. }
  split; [|reflexivity]. intros j m' tiles' u Hm' Ht' P. destruct (PM j m' tiles' Hm' Ht') as [e [He P']]. rewrite (PU _ _ _ _ P P'). apply Hi. exact He.
Qed.
Lemma sequence_one_err {A B} (f : A -> res B) e l : (forall a, In a l -> (exists b, f a = Ok b) \/ f a = Err e) -> (exists a, In a l /\ f a = Err e) ->
  sequence (map f l) = Err e.
Proof.
  induction l as [|a l IH]; intros H [x [Ix Ex]]; [destruct Ix|]. cbn. destruct (H a (or_introl eq_refl)) as [[b Eb]|Eb]; rewrite Eb; cbn [bind]; [|reflexivity].
  rewrite IH; [reflexivity|intros; apply H; right; assumption|]. destruct Ix as [->|Ix]; [congruence|eauto].
Qed.
(** a scan without planes is an IndexError; a search range reaching the highest frequency of any one plane is a ValueError *)
Theorem qscan_errors ms nf nt X norm :
  (ms = [] -> forall fsearch, qscan_forward ms nf nt X fsearch norm = Err IndexError) /\
  (forall B D lo hi all, (0 < B)%nat -> (0 < D)%nat ->
    Forall2 (fun m tiles => compute_qtiles m X norm = Ok tiles /\ Forall (tile_shape B D) tiles) ms all ->
    (forall m, In m ms -> StronglySorted Rlt (tr_freqs m) /\ List.length (tr_freqs m) = List.length (tr_tiles m)) ->
    (exists m, In m ms /\ forall f, In f (tr_freqs m) -> f <= hi) -> qscan_forward ms nf nt X (Some (lo, hi)) norm = Err ValueError).
Proof.
  split; [intros -> fsearch; reflexivity|].
  intros B D lo hi all HB HD F HF [m [Im Hm]]. unfold qscan_forward.
  assert (E1 : sequence (map (fun m => compute_qtiles m X norm) ms) = Ok all).
  { clear HF Im. induction F as [|m' t l l' [H _] _ IH]; cbn; [reflexivity|]. rewrite H. cbn [bind]. rewrite IH. reflexivity. }
  rewrite E1. cbn [bind]. clear E1.
  assert (LL : forall m' t, compute_qtiles m' X norm = Ok t -> List.length (tr_tiles m') = List.length t).
  { intros m' t Et. unfold compute_qtiles in Et. destruct (qspectrum X); [|discriminate]. cbn [bind] in Et. apply sequence_map_inv in Et. eapply Forall2_len. exact Et. }
  rewrite sequence_one_err with (e := ValueError); [reflexivity| |].
  - intros [m' t] I. cbn [fst snd]. apply In_nth_error in I. destruct I as [i I]. apply combine_nth_error_inv in I. destruct I as [I1 I2].
    destruct (Forall2_nth _ _ _ _ _ F I1) as [t' [It' [Ec FS]]]. rewrite I2 in It'. injection It' as <-.
    destruct (search_slice (tr_freqs m') (Some (lo, hi)) t) as [sel|e] eqn:Es.
    + destruct sel as [|s0 sel].
      * right. destruct (max_energy_errors (tr_freqs m') (Some t) (Some (lo, hi)) "both") as [_ K]. destruct K as [_ [_ K]]; [cbn; auto|]. rewrite (K _ Es). reflexivity.
      * left. destruct (max_energy (tr_freqs m') t (Some (lo, hi)) _ B D Es ltac:(discriminate) HB HD FS) as [[r [Er _]] _]. eauto.
    + right. destruct (max_energy_errors (tr_freqs m') (Some t) (Some (lo, hi)) "both") as [_ K]. destruct K as [_ [K _]]; [cbn; auto|]. rewrite (K _ _ Es). f_equal.
      unfold search_slice, first_above_res in Es. destruct (first_above (tr_freqs m') lo); [destruct (first_above (tr_freqs m') hi)|]; cbn [bind] in Es; congruence.
  - apply In_nth_error in Im. destruct Im as [i Im]. destruct (Forall2_nth _ _ _ _ _ F Im) as [t [It [Ec FS]]]. exists (m, t). split; [eapply nth_error_In, combine_nth_error; eassumption|].
    cbn [fst snd]. destruct (HF m (nth_error_In _ _ Im)) as [SS L].
    destruct (search_range (tr_freqs m) t lo hi SS) as [_ [_ [Q _]]]; [rewrite L; apply LL; assumption|].
    destruct (max_energy_errors (tr_freqs m) (Some t) (Some (lo, hi)) "both") as [_ K]. destruct K as [_ [K _]]; [cbn; auto|]. apply K. apply Q. assumption.
Qed.
(** end to end, with the default frequency limits and no search range: every plane is computed as a stand-alone transform would, the
    one with the largest energy is resampled *)
Theorem qscan_default dur sr q0 q1 mm method im X B D T nf nt norm k qs : 0 < dur -> 0 < sr -> 1 <= q0 < q1 -> 0 < mm <= / 2 ->
  get_qs q0 q1 mm = Ok qs -> (exists q, In q qs /\ q < max_q dur sr) ->
  known_method method = Some im -> im <> Spline -> (0 < ndim X <= 3)%nat -> shape (pad_ndim3 X) = [B; D; T] -> INR T = dur * sr ->
  (0 < B)%nat -> (0 < D)%nat -> (0 < nf)%nat -> (0 < nt)%nat -> norm_kind norm k ->
  exists ms, qscan_create dur sr (Some (q0, q1)) None method mm = Ok ms /\ ms <> [] /\
    map tr_q ms = filter (fun q => if Rlt_dec q (max_q dur sr) then true else false) qs /\
    exists outs, Forall2 (fun m o => qtr_forward m nf nt X norm = Ok o) ms outs /\
    exists i m out tiles v, nth_error ms i = Some m /\ nth_error outs i = Some (out, tiles) /\ is_max (energies tiles (fun _ _ => True)) v /\
      (forall j out' tiles' u, nth_error outs j = Some (out', tiles') -> is_max (energies tiles' (fun _ _ => True)) u -> u <= v /\ ((j < i)%nat -> u < v)) /\
      qscan_forward ms nf nt X None norm = Ok out.
Proof.
  intros Hd Hs Hq Hm Eqs [q [Iq Lq]] Km Ns Hn HS HT HB HD Hnf Hnt HK.
  assert (H0 : 0 < q0) by lra. assert (H1 : 0 < q1) by lra.
  destruct (q_planes q0 q1 mm H0 H1 (proj1 Hm)) as [n [qs' [E [_ [_ [_ RG]]]]]]. rewrite Eqs in E. injection E as <-.
  destruct (RG (proj2 Hq)) as [_ RQ]. clear RG.
  assert (HH : forall q, In q qs -> 0 < resolved_hi q sr None).
  { intros q' I'. destruct (RQ q' I'). cbn [resolved_hi]. unfold default_hi. pose proof sqrt11_pos. assert (0 < sqrt 11 / q') by (apply Rdiv_lt_0_compat; lra). apply Rdiv_lt_0_compat; lra. }
  destruct (qscan_construction dur sr q0 q1 None mm method Hd Hs H0 H1 (proj1 Hm) qs Eqs) as [C _].
  destruct (C im Km HH) as [ms [Ec [Eq FA]]]. exists ms. split; [assumption|].
  assert (NE : ms <> []).
  { intros ->. cbn in Eq. assert (In q []) as []. rewrite Eq. apply filter_In. split; [assumption|]. destruct (Rlt_dec q (max_q dur sr)); [reflexivity|contradiction]. }
  split; [assumption|]. split; [assumption|].
  assert (EACH : forall m, In m ms -> exists o, qtr_forward m nf nt X norm = Ok o /\ tr_tiles m <> [] /\ Forall (tile_shape B D) (snd o) /\ snd o <> [] /\ compute_qtiles m X norm = Ok (snd o)).
  { intros m Im. rewrite Forall_forall in FA. destruct (FA m Im) as [Ecm _].
    assert (Iq' : In (tr_q m) (filter (fun q => if Rlt_dec q (max_q dur sr) then true else false) qs)) by (rewrite <- Eq; apply in_map; assumption).
    apply filter_In in Iq'. destruct Iq' as [Iq' Lm]. destruct (Rlt_dec (tr_q m) (max_q dur sr)) as [Lm'|]; [|discriminate]. destruct (RQ _ Iq').
    destruct (qtransform_default dur sr (tr_q m) mm method im X B D T nf nt norm k Hd Hs ltac:(lra) Hm Km Ns Hn HS HT HB HD Hnf Hnt HK) as [m' [out [tiles [E1 [E2 [SS [EF [F2 _]]]]]]]].
    rewrite Ecm in E1. injection E1 as <-. exists (out, tiles). split; [exact E2|]. cbn [snd].
    assert (EC : compute_qtiles m X norm = Ok tiles) by (unfold qtr_forward in E2; destruct (compute_qtiles m X norm) as [t'|]; [|discriminate]; cbn [bind] in E2; destruct (interpolate_tiles _ _ _ _); [|discriminate]; cbn [bind] in E2; congruence).
    assert (FSH : Forall (tile_shape B D) tiles).
    { clear -F2. induction F2 as [|t tl ts tls [h [N [Fi [St _]]]] F2 IH]; constructor; [|exact IH]. exists N. split; [assumption|]. destruct Fi as [_ [_ [_ L]]]. lia. }
    assert (NT : tr_tiles m <> []).
    { destruct (qtr_construction dur sr (tr_q m) None mm method Hd Hs ltac:(lra) (proj1 Hm)) as [_ [_ [_ CC]]]. destruct (CC Lm' im Km (HH _ Iq')) as [fs [_ [NEf Em]]].
      rewrite Ecm in Em. injection Em as ->. cbn. destruct fs; [congruence|discriminate]. }
    repeat split; try assumption. intros ->. inversion F2 as [Z|]. symmetry in Z. contradiction. }
  destruct (sequence_ok_map (fun m => qtr_forward m nf nt X norm) (fun m o => qtr_forward m nf nt X norm = Ok o /\ Forall (tile_shape B D) (snd o) /\ snd o <> [] /\ compute_qtiles m X norm = Ok (snd o)) ms) as [outs [_ FO]].
  { intros m Im. destruct (EACH m Im) as [o [E1 [_ R]]]. exists o. split; [assumption|]. split; assumption. }
  exists outs. split; [clear -FO; induction FO; constructor; tauto|].
  assert (FT : Forall2 (fun m tiles => compute_qtiles m X norm = Ok tiles /\ Forall (tile_shape B D) tiles /\ exists sel, search_slice (tr_freqs m) None tiles = Ok sel /\ sel <> []) ms (map snd outs)).
  { clear -FO. induction FO as [|m o l l' [_ [F [N E]]] _ IH]; cbn; constructor; [|exact IH]. split; [exact E|]. split; [exact F|]. exists (snd o). split; [reflexivity|exact N]. }
  destruct (qscan_selects ms nf nt X None norm B D _ NE HB HD FT) as [i [m [tiles [v [Em [Et [[sel [Es PM]] [MX EF]]]]]]]]. injection Es as <-.
  destruct (Forall2_nth _ _ _ _ _ FO Em) as [[out tl'] [Eo [Efw [_ [_ Ecq]]]]].
  pose proof (map_nth_error snd _ _ Eo) as Et'. rewrite Et in Et'. injection Et' as ->. cbn [snd] in *.
  exists i, m, out, tl', v. split; [assumption|]. split; [assumption|]. split; [assumption|]. split.
  - intros j out' tiles' u Hj Mu. pose proof (map_nth_error snd _ _ Hj) as Hj'. cbn [snd] in Hj'.
    assert (Lj : (j < List.length ms)%nat). { rewrite (Forall2_len _ _ _ FO). apply nth_error_Some. congruence. }
    destruct (nth_error ms j) as [m'|] eqn:Em'; [|apply nth_error_None in Em'; lia].
    apply (MX j m' tiles' u Em' Hj'). exists tiles'. split; [reflexivity|assumption].
  - rewrite EF. unfold qtr_forward in Efw. rewrite Ecq in Efw. cbn [bind] in Efw. destruct (interpolate_tiles (tr_method m) nf nt (Some tl')); [|discriminate]. cbn [bind] in Efw. congruence.
Qed.
(** a concrete scan meeting the hypotheses: 1 s at 2048 Hz, Q from 4 to 64 *)
Example qscan_default_ex : exists qs, get_qs 4 64 (/ 5) = Ok qs /\ exists q, In q qs /\ q < max_q 1 2048.
Proof.
  destruct (q_planes 4 64 (/ 5)) as [n [qs [E [LS [L [N R]]]]]]; try lra. exists qs. split; [assumption|]. destruct R as [_ R]; [lra|].
  destruct qs as [|q qs]; [destruct LS as [P _]; cbn in L; lia|]. exists q. split; [left; reflexivity|]. destruct (R q (or_introl eq_refl)).
  unfold max_q. pose proof PI_gt_3. assert (sqrt 11 < 4) by (apply Rsqr_incrst_0; [unfold Rsqr; rewrite sqrt_sqrt; lra|apply sqrt_pos|lra]).
  lra.
Qed.
(** without a Q range, [4, 64] is used *)
Theorem qscan_default_range dur sr fr method mm : qscan_create dur sr None fr method mm = qscan_create dur sr (Some (4, 64)) fr method mm.
Proof. reflexivity. Qed.
