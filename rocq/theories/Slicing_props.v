(** Property theorems for ml4gw/utils/slicing.py (C01-C05). *)
From Verif Require Import Base Tensor Slicing_spec Slicing_model Slicing_proofs Slicing_proofs2.

(** C01: windows are exactly x[..., i*stride : i*stride+window], the tail is exactly the rest. *)
Theorem unfold_windows_correct {A} (zero : A) (x : tensor A) (batch : list nat) (T w s : nat) (drop_last : bool) :
  shape x = batch ++ [T] -> length batch <= 2 -> Forall (fun b => 0 < b) batch ->
  0 < w -> 0 < s -> w <= T ->
  let nw := (T - w) / s + 1 in
  let used := (nw - 1) * s + w in
  exists y tail,
    unfold_windows zero x (Z.of_nat w) (Z.of_nat s) drop_last
      = Ok (y, if drop_last then None else Some tail)
    /\ shape y = nw :: batch ++ [w]
    /\ (forall i b j, i < nw -> inb b batch -> j < w ->
          get y (i :: b ++ [j]) = get x (b ++ [i * s + j]))
    /\ used <= T /\ T < used + s
    /\ shape tail = 1 :: batch ++ [T - used]
    /\ (forall b j, inb b batch -> j < T - used ->
          get tail (0 :: b ++ [j]) = get x (b ++ [used + j])).
Proof. exact (unfold_windows_ok zero x batch T w s drop_last). Qed.

Theorem unfold_windows_succeeds_iff {A} (zero : A) (x : tensor A) (batch : list nat) (T w s : nat) drop_last :
  shape x = batch ++ [T] -> length batch <= 2 -> 0 < w -> 0 < s ->
  (is_ok (unfold_windows zero x (Z.of_nat w) (Z.of_nat s) drop_last)
     <-> (w <= T /\ Forall (fun b => 0 < b) batch))
  /\ (~ (w <= T /\ Forall (fun b => 0 < b) batch) ->
      unfold_windows zero x (Z.of_nat w) (Z.of_nat s) drop_last = Err RuntimeError).
Proof.
  intros Hs Hl Hw Hs0.
  assert (Hbad : ~ (w <= T /\ Forall (fun b => 0 < b) batch) ->
      unfold_windows zero x (Z.of_nat w) (Z.of_nat s) drop_last = Err RuntimeError).
  { intros H. destruct (Nat.lt_ge_cases T w) as [HT|HT]; [eapply unfold_windows_short; eassumption|].
    eapply unfold_windows_empty_axis; try eassumption.
    destruct (in_dec Nat.eq_dec 0 batch) as [I|I]; [exact I|]. exfalso; apply H; split; [exact HT|].
    apply Forall_forall. intros b Hb. destruct b; [tauto|lia]. }
  split; [|exact Hbad]. split.
  - intros [r Hr].
    destruct (le_dec w T); [destruct (Forall_dec (fun b => 0 < b) (fun b => lt_dec 0 b) batch)|];
      [auto| |]; rewrite Hbad in Hr by tauto; discriminate.
  - intros [H1 H2]. destruct (unfold_windows_ok zero x batch T w s drop_last Hs Hl H2 Hw Hs0 H1) as [y [tl [H _]]].
    eexists; exact H.
Qed.

(** every sample is in some window or in the tail when windows do not leave gaps *)
Theorem unfold_windows_cover (T w s : nat) : 0 < w -> 0 < s -> s <= w -> w <= T ->
  let nw := (T - w) / s + 1 in
  let used := (nw - 1) * s + w in
  forall t, t < T -> (exists i j, i < nw /\ j < w /\ t = i * s + j) \/ (exists j, j < T - used /\ t = used + j).
Proof.
  intros Hw Hs Hsw HwT nw used t Ht.
  destruct (Nat.lt_ge_cases t used) as [H|H].
  - left. assert (Hnw : 0 < nw) by (unfold nw; lia). unfold used in H. clearbody nw. clear used.
    destruct (Nat.lt_ge_cases t ((nw - 1) * s)) as [H1|H1].
    + exists (t / s), (t mod s). pose proof (Nat.mod_upper_bound t s ltac:(lia)).
      assert (t / s < nw - 1) by (apply Nat.div_lt_upper_bound; nia).
      pose proof (Nat.div_mod t s ltac:(lia)) as Hd. rewrite (Nat.mul_comm s) in Hd.
      generalize dependent (t / s); generalize dependent (t mod s); intros; lia.
    + exists (nw - 1), (t - (nw - 1) * s). lia.
  - right. exists (t - used). lia.
Qed.

Example unfold_nonvacuous :
  let x := mk [2; 7] (fun i => Z.of_nat (10 * nth 0 i 0 + nth 1 i 0)) in
  exists y tl, unfold_windows 0%Z x 3 2 false = Ok (y, Some tl)
    /\ shape y = [3; 2; 3] /\ get y [2; 1; 0] = Some 14%Z /\ shape tl = [1; 2; 0].
Proof. do 2 eexists; split; [vm_compute; reflexivity|]. vm_compute. auto. Qed.
Example unfold_nonvacuous_tail :
  let x := mk [1; 2; 8] (fun i => Z.of_nat (10 * nth 1 i 0 + nth 2 i 0)) in
  exists y tl, unfold_windows 0%Z x 3 2 false = Ok (y, Some tl)
    /\ shape tl = [1; 1; 2; 1] /\ get tl [0; 0; 1; 0] = Some 17%Z.
Proof. do 2 eexists; split; [vm_compute; reflexivity|]. vm_compute. auto. Qed.

(** C02: slice_kernels, each supported pair of ranks; success and failure are both characterised. *)
Theorem slice_kernels_1d {A} (x : tensor A) idx (k t b : nat) :
  shape x = [t] -> shape idx = [b] -> 0 < k ->
  let v i := elt idx [i] in
  ((forall i, i < b -> (- Z.of_nat t <= v i /\ v i + Z.of_nat k <= Z.of_nat t)%Z) ->
     exists y, slice_kernels x idx (Z.of_nat k) = Ok y /\ shape y = [b; k] /\
       forall i j, i < b -> j < k ->
         get y [i; j] = get x [Z.to_nat ((v i + Z.of_nat j) mod Z.of_nat t)])
  /\ ((exists i, i < b /\ (v i < - Z.of_nat t \/ Z.of_nat t < v i + Z.of_nat k)%Z) ->
     slice_kernels x idx (Z.of_nat k) = Err IndexError).
Proof. exact (slice_kernels_11 x idx k t b). Qed.

Theorem slice_kernels_2d_coincident {A} (x : tensor A) idx (k c t b : nat) :
  shape x = [c; t] -> shape idx = [b] -> 0 < k -> 0 < c ->
  let v i := elt idx [i] in
  ((forall i, i < b -> (0 <= v i /\ v i + Z.of_nat k <= Z.of_nat t)%Z) ->
     exists y, slice_kernels x idx (Z.of_nat k) = Ok y /\ shape y = [b; c; k] /\
       forall i ci j, i < b -> ci < c -> j < k ->
         get y [i; ci; j] = get x [ci; Z.to_nat (v i) + j])
  /\ ((exists i, i < b /\ (v i < 0 \/ Z.of_nat t < v i + Z.of_nat k)%Z) ->
     slice_kernels x idx (Z.of_nat k) = Err RuntimeError).
Proof. exact (slice_kernels_21 x idx k c t b). Qed.

Theorem slice_kernels_2d_independent {A} (x : tensor A) idx (k c t b : nat) :
  shape x = [c; t] -> shape idx = [b; c] -> 0 < k -> 0 < c ->
  let v i ci := elt idx [i; ci] in
  ((forall i ci, i < b -> ci < c -> (0 <= v i ci /\ v i ci + Z.of_nat k <= Z.of_nat t)%Z) ->
     exists y, slice_kernels x idx (Z.of_nat k) = Ok y /\ shape y = [b; c; k] /\
       forall i ci j, i < b -> ci < c -> j < k ->
         get y [i; ci; j] = get x [ci; Z.to_nat (v i ci) + j])
  /\ ((exists i ci, i < b /\ ci < c /\ (v i ci < 0 \/ Z.of_nat t < v i ci + Z.of_nat k)%Z) ->
     slice_kernels x idx (Z.of_nat k) = Err RuntimeError).
Proof. exact (slice_kernels_22 x idx k c t b). Qed.

Theorem slice_kernels_3d {A} (x : tensor A) idx (k n c t : nat) :
  shape x = [n; c; t] -> shape idx = [n] -> 0 < k -> 0 < c ->
  let v i := elt idx [i] in
  ((forall i, i < n -> (0 <= v i /\ v i + Z.of_nat k <= Z.of_nat t)%Z) ->
     exists y, slice_kernels x idx (Z.of_nat k) = Ok y /\ shape y = [n; c; k] /\
       forall i ci j, i < n -> ci < c -> j < k ->
         get y [i; ci; j] = get x [i; ci; Z.to_nat (v i) + j])
  /\ ((exists i, i < n /\ (v i < 0 \/ Z.of_nat t < v i + Z.of_nat k)%Z) ->
     slice_kernels x idx (Z.of_nat k) = Err RuntimeError).
Proof. exact (slice_kernels_31 x idx k n c t). Qed.

(** every other combination of ranks, and mismatched leading sizes, raise ValueError *)
Theorem slice_kernels_rejects {A} (x : tensor A) idx (k : nat) :
  (ndim x = 1 -> ndim idx <> 1 -> slice_kernels x idx (Z.of_nat k) = Err ValueError) /\
  (ndim x = 2 -> ndim idx <> 1 -> ndim idx <> 2 -> slice_kernels x idx (Z.of_nat k) = Err ValueError) /\
  (ndim x = 3 -> ndim idx <> 1 -> slice_kernels x idx (Z.of_nat k) = Err ValueError) /\
  (ndim x <> 1 -> ndim x <> 2 -> ndim x <> 3 -> slice_kernels x idx (Z.of_nat k) = Err ValueError) /\
  (forall c t b c', shape x = [c; t] -> shape idx = [b; c'] -> c <> c' ->
      slice_kernels x idx (Z.of_nat k) = Err ValueError) /\
  (forall n c t b, shape x = [n; c; t] -> shape idx = [b] -> n <> b ->
      slice_kernels x idx (Z.of_nat k) = Err ValueError).
Proof.
  unfold ndim, slice_kernels, arange. replace (Z.of_nat k <? 0)%Z with false by lia. cbn [bind].
  repeat split.
  1-4: destruct (shape x) as [|a [|b [|c [|d s]]]]; cbn; intros; try lia; auto;
       destruct (shape idx) as [|a' [|b' [|c' s']]]; cbn in *; try lia; reflexivity.
  - intros c t b c' -> -> H. replace (c =? c') with false by lia. reflexivity.
  - intros n c t b -> -> H. replace (b =? n) with false by lia. reflexivity.
Qed.

Example slice_kernels_nonvacuous :
  let x := mk [2; 6] (fun i => Z.of_nat (10 * nth 0 i 0 + nth 1 i 0)) in
  let idx := mk [3; 2] (fun i => Z.of_nat (nth 0 i 0 + nth 1 i 0)) in
  exists y, slice_kernels x idx 3 = Ok y /\ shape y = [3; 2; 3] /\ get y [2; 1; 2] = Some 15%Z
    /\ slice_kernels x idx 4 = Err RuntimeError.
Proof. eexists; split; [vm_compute; reflexivity|]. vm_compute. auto. Qed.

(** C03 *)
Theorem sample_kernels_1d {A} (X : tensor A) (T k n : nat) off co rng :
  shape X = [T] -> 0 < k ->
  (T < k -> sample_kernels X (Z.of_nat k) (Some (Z.of_nat n)) off co rng = Err ValueError) /\
  (T = k -> sample_kernels X (Z.of_nat k) (Some (Z.of_nat n)) off co rng = Err RuntimeError) /\
  (k < T -> exists y idx,
     sample_kernels X (Z.of_nat k) (Some (Z.of_nat n)) off co rng = Ok (y, idx)
     /\ shape idx = [n] /\ shape y = [n; k]
     /\ forall i, i < n -> (0 <= elt idx [i] < Z.of_nat T - Z.of_nat k)%Z
        /\ forall j, j < k -> get y [i; j] = get X [Z.to_nat (elt idx [i]) + j]).
Proof. exact (sample_1d X T k n off co rng). Qed.

Theorem sample_kernels_2d_coincident {A} (X : tensor A) (C T k n : nat) off rng lo hi :
  shape X = [C; T] -> 0 < C -> 0 < k <= T -> 0 < n ->
  start_range (Z.of_nat T) (Z.of_nat k) off lo hi ->
  ((0 <= lo < hi)%Z -> exists y idx,
     sample_kernels X (Z.of_nat k) (Some (Z.of_nat n)) off true rng = Ok (y, idx)
     /\ shape idx = [n] /\ shape y = [n; C; k]
     /\ forall i, i < n -> (lo <= elt idx [i] < hi)%Z
        /\ (0 <= elt idx [i] /\ elt idx [i] + Z.of_nat k <= Z.of_nat T)%Z
        /\ forall c j, c < C -> j < k -> get y [i; c; j] = get X [c; Z.to_nat (elt idx [i]) + j]) /\
  (~ (0 <= lo < hi)%Z -> sample_kernels X (Z.of_nat k) (Some (Z.of_nat n)) off true rng = Err (range_error off lo hi)).
Proof.
  intros Hs HC Hk Hn Hr. destruct (sample_2d_co X C T k n off rng lo hi Hs HC Hk Hn Hr) as [G1 G2].
  split; [|exact G2]. intros H. destruct (G1 H) as [y [idx [E [H1 [H2 H3]]]]].
  exists y, idx. repeat (split; [assumption|]). intros i Hi. destruct (H3 i Hi) as [_ [H4 H5]].
  split; [exact H4|]. split; [|exact H5].
  apply (start_range_inside (Z.of_nat T) (Z.of_nat k) off lo hi); auto; lia.
Qed.

Theorem sample_kernels_2d_independent {A} (X : tensor A) (C T k n : nat) off rng lo hi :
  shape X = [C; T] -> 0 < C -> 0 < k <= T ->
  start_range (Z.of_nat T) (Z.of_nat k) off lo hi ->
  ((0 <= lo < hi)%Z -> exists y idx,
     sample_kernels X (Z.of_nat k) (Some (Z.of_nat n)) off false rng = Ok (y, idx)
     /\ shape idx = [n; C] /\ shape y = [n; C; k]
     /\ forall i c, i < n -> c < C -> (lo <= elt idx [i; c] < hi)%Z
        /\ (0 <= elt idx [i; c] /\ elt idx [i; c] + Z.of_nat k <= Z.of_nat T)%Z
        /\ forall j, j < k -> get y [i; c; j] = get X [c; Z.to_nat (elt idx [i; c]) + j]) /\
  (~ (0 <= lo < hi)%Z -> sample_kernels X (Z.of_nat k) (Some (Z.of_nat n)) off false rng = Err (range_error off lo hi)).
Proof.
  intros Hs HC Hk Hr. destruct (sample_2d_indep X C T k n off rng lo hi Hs HC Hk Hr) as [G1 G2].
  split; [|exact G2]. intros H. destruct (G1 H) as [y [idx [E [H1 [H2 H3]]]]].
  exists y, idx. repeat (split; [assumption|]). intros i c Hi Hc. destruct (H3 i c Hi Hc) as [_ [H4 H5]].
  split; [exact H4|]. split; [|exact H5].
  apply (start_range_inside (Z.of_nat T) (Z.of_nat k) off lo hi); auto; lia.
Qed.

Theorem sample_kernels_3d {A} (X : tensor A) (B C T k : nat) N off co rng lo hi :
  shape X = [B; C; T] -> 0 < C -> 0 < k <= T -> N = None \/ N = Some (Z.of_nat B) ->
  start_range (Z.of_nat T) (Z.of_nat k) off lo hi ->
  ((0 <= lo < hi)%Z -> exists y idx,
     sample_kernels X (Z.of_nat k) N off co rng = Ok (y, idx)
     /\ shape idx = [B] /\ shape y = [B; C; k]
     /\ forall i, i < B -> (lo <= elt idx [i] < hi)%Z
        /\ (0 <= elt idx [i] /\ elt idx [i] + Z.of_nat k <= Z.of_nat T)%Z
        /\ forall c j, c < C -> j < k -> get y [i; c; j] = get X [i; c; Z.to_nat (elt idx [i]) + j]) /\
  (~ (0 <= lo < hi)%Z -> sample_kernels X (Z.of_nat k) N off co rng = Err (range_error off lo hi)).
Proof.
  intros Hs HC Hk HN Hr. destruct (sample_3d X B C T k N off co rng lo hi Hs HC Hk HN Hr) as [G1 G2].
  split; [|exact G2]. intros H. destruct (G1 H) as [y [idx [E [H1 [H2 H3]]]]].
  exists y, idx. repeat (split; [assumption|]). intros i Hi. destruct (H3 i Hi) as [_ [H4 H5]].
  split; [exact H4|]. split; [|exact H5].
  apply (start_range_inside (Z.of_nat T) (Z.of_nat k) off lo hi); auto; lia.
Qed.

Theorem sample_kernels_rejects {A} (X : tensor A) batch (T : nat) (k : nat) N off co rng :
  shape X = batch ++ [T] ->
  (T < k -> sample_kernels X (Z.of_nat k) N off co rng = Err ValueError) /\
  (k <= T -> 3 < ndim X -> sample_kernels X (Z.of_nat k) N off co rng = Err ValueError) /\
  (k <= T -> ndim X < 3 -> N = None -> sample_kernels X (Z.of_nat k) N off co rng = Err ValueError) /\
  (k <= T -> forall B C, batch = [B; C] -> forall n, N = Some n -> n <> Z.of_nat B ->
      sample_kernels X (Z.of_nat k) N off co rng = Err ValueError).
Proof.
  intros Hs. split; [|split; [|split]]; intros H.
  - eapply sample_short; eassumption.
  - apply (sample_rejects X _ N off co rng (Z.of_nat T)); [eapply last_dim_app; eassumption|lia].
  - apply (sample_rejects X _ N off co rng (Z.of_nat T)); [eapply last_dim_app; eassumption|lia].
  - intros B C -> n. intros HN.
    eapply (sample_rejects X _ N off co rng (Z.of_nat T)); [eapply last_dim_app; eassumption|lia|exact Hs|assumption].
Qed.

(** C04: what the offset means for the drawn windows [s, s+k), centre = T//2 *)
Theorem center_offset_meaning {A} (X : tensor A) batch (T k : nat) N (o : Z) co rng y idx p s :
  shape X = batch ++ [T] -> batch <> [] -> 0 < k ->
  sample_kernels X (Z.of_nat k) N (Some o) co rng = Ok (y, idx) -> get idx p = Some s ->
  let center := (Z.of_nat T / 2)%Z in
  ((0 <= o)%Z -> (s < center /\ center - o <= s + Z.of_nat k)%Z) /\
  ((o < 0)%Z -> (- o <= center - s /\ - o <= (s + Z.of_nat k) - center)%Z) /\
  (o = 0%Z -> ((s <= center < s + Z.of_nat k) \/ s + Z.of_nat k = center)%Z).
Proof.
  intros Hs Hb Hk HS Hg center.
  destruct (sample_idx_range X batch T _ N (Some o) co rng y idx _ _ p s Hs Hb HS (conj eq_refl eq_refl) Hg) as [H1 [H2 H3]].
  fold center in H2, H3.
  destruct (Z.leb_spec 0 o); repeat split; lia.
Qed.

(** the documented "every kernel sampled will contain the center" for offset 0 is violated by one draw *)
Theorem center_offset_zero_contains_center_refuted :
  exists (X : tensor Z) rng y idx,
    sample_kernels X 2 (Some 1%Z) (Some 0%Z) true rng = Ok (y, idx)
    /\ shape X = [1; 8] /\ get y [0; 0; 0] = Some 2%Z /\ get y [0; 0; 1] = Some 3%Z
    /\ get X [0; 8 / 2] = Some 4%Z.
Proof.
  exists (mk [1; 8] (fun i => Z.of_nat (nth 1 i 0))), (fun _ => 0%Z).
  do 2 eexists; split; [vm_compute; reflexivity|]. vm_compute. auto.
Qed.

(** C05: each start in [lo,hi) is drawn by some entropy, no other start ever is;
    in particular without offset T-k is never drawn, and T = k always raises. *)
Theorem sample_kernels_reachable_starts {A} (X : tensor A) (C T k n : nat) off lo hi :
  shape X = [C; T] -> 0 < C -> 0 < k <= T -> 0 < n ->
  start_range (Z.of_nat T) (Z.of_nat k) off lo hi -> (0 <= lo)%Z ->
  forall s, (lo <= s < hi)%Z <->
    (exists rng y idx i, sample_kernels X (Z.of_nat k) (Some (Z.of_nat n)) off true rng = Ok (y, idx)
       /\ i < n /\ get idx [i] = Some s).
Proof.
  intros Hs HC Hk Hn Hr H0 s. split.
  - intros H. destruct (sample_2d_co X C T k n off (fun _ => (s - lo)%Z) lo hi Hs HC Hk Hn Hr) as [G _].
    destruct (G ltac:(lia)) as [y [idx [E [H1 [H2 H3]]]]].
    exists (fun _ => (s - lo)%Z), y, idx, 0. split; [exact E|]. split; [exact Hn|].
    rewrite get_inb by (rewrite H1; cbn; lia).
    destruct (H3 0 Hn) as [E1 _]. rewrite E1. f_equal. rewrite Z.mod_small by lia. lia.
  - intros [rng [y [idx [i [E [Hi Hg]]]]]].
    destruct (sample_2d_co X C T k n off rng lo hi Hs HC Hk Hn Hr) as [G1 G2].
    destruct (Z.le_gt_cases hi lo) as [Hb|Hb].
    + rewrite (G2 ltac:(lia)) in E. discriminate.
    + destruct (G1 ltac:(lia)) as [y' [idx' [E' [H1 [H2 H3]]]]]. rewrite E in E'. inversion E'; subst.
      destruct (H3 i Hi) as [_ [H4 _]].
      apply get_some in Hg. destruct Hg as [_ <-]. lia.
Qed.

Theorem sample_kernels_never_last {A} (X : tensor A) (C T k n : nat) rng y idx i :
  shape X = [C; T] -> 0 < C -> 0 < k <= T -> 0 < n ->
  sample_kernels X (Z.of_nat k) (Some (Z.of_nat n)) None true rng = Ok (y, idx) -> i < n ->
  get idx [i] <> Some (Z.of_nat (T - k)).
Proof.
  intros Hs HC Hk Hn E Hi Hg.
  assert (Hr : start_range (Z.of_nat T) (Z.of_nat k) None 0 (Z.of_nat T - Z.of_nat k)) by (cbn; auto).
  assert (HH := proj2 (sample_kernels_reachable_starts X C T k n None _ _ Hs HC Hk Hn Hr ltac:(lia) (Z.of_nat (T - k)))).
  assert (0 <= Z.of_nat (T - k) < Z.of_nat T - Z.of_nat k)%Z; [|lia].
  apply HH. exists rng, y, idx, i. auto.
Qed.

Theorem sample_kernels_full_length_raises {A} (X : tensor A) (C T n : nat) rng :
  shape X = [C; T] -> 0 < C -> 0 < T -> 0 < n ->
  sample_kernels X (Z.of_nat T) (Some (Z.of_nat n)) None true rng = Err RuntimeError.
Proof.
  intros Hs HC HT Hn. unfold sample_kernels, last_dim, py_len, ndim. rewrite Hs. cbn [bind last length].
  change (3 <? 2) with false. change (2 =? 3) with false. change (2 <? 3) with true. change (2 =? 1) with false.
  cbn [andb orb]. replace (Z.of_nat T <? Z.of_nat T)%Z with false by lia.
  unfold sample_bounds. cbn [bind]. change (0 <? 0)%Z with false. cbn [bind].
  rewrite randint_z_empty by lia. reflexivity.
Qed.

Example sample_kernels_nonvacuous :
  start_range 8 3 (Some (-1)%Z) 2 3 /\ start_range 8 3 (Some 1%Z) 0 4 /\ start_range 8 3 None 0 5.
Proof. vm_compute. auto. Qed.
