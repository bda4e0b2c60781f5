(** Property C34 (continued) and C63: fast_spectral_density. *)
From Coq Require Import String Permutation.
From Verif Require Import Base Tensor Rutil Slicing_model Slicing_proofs Streaming_model Norm_model Norm_props Gw_model Gw_props Dft Snr_props Spectral_model Spectral_props Psd_props.
From Coquelicot Require Import Complex.
Local Open Scope R_scope.

(** ** specification *)
(** transform of a windowed segment of the series with its global mean removed *)
Definition fast_seg (n T : nat) (w x : nat -> R) (off f : nat) : C :=
  rfft n (fun t => w t * (x (off + t)%nat - Rsum T x / INR T)) f.
(** cross spectral density of x (conjugated) and y; real and imaginary parts are aggregated separately *)
Definition fast_csd (agg : nat -> (nat -> R) -> R) (n stride T : nat) (w : nat -> R) (scale : R) (x y : nat -> R) (f : nat) : C :=
  let z s := Cmult (RtoC (onesided n f * scale)) (Cmult (Cconj (fast_seg n T w x (s * stride) f)) (fast_seg n T w y (s * stride) f)) in
  (agg (nseg T n stride) (fun s => Re (z s)), agg (nseg T n stride) (fun s => Im (z s))).
(** the series of y that belongs to the series [pre] of x *)
Definition partner (x y pre : list nat) : list nat :=
  if (List.length y =? List.length x)%nat then pre else removelast pre.

(** ** tensor plumbing *)
Lemma demean_spec (x : tensor R) P T : shape x = P ++ [T] -> (List.length P <= 1)%nat ->
  exists z, bzip Rminus x (mean_last true x) = Ok z /\ shape z = P ++ [T] /\
    forall pre t, inb pre P -> (t < T)%nat -> elt z (pre ++ [t]) = elt x (pre ++ [t]) - Rsum T (fun t => elt x (pre ++ [t])) / INR T.
Proof.
  intros Sx HP. unfold bzip, mean_last. rewrite Sx, removelast_last, last_last. cbn [shape].
  destruct P as [|b [|? ?]]; cbn [app List.length] in *; [| |lia].
  - assert (B : bshape [T] [1%nat] = Ok [T]) by (unfold bshape; cbn; rewrite bdim_1_r; reflexivity).
    rewrite B. cbn [bind]. eexists. split; [reflexivity|]. split; [reflexivity|]. intros pre t Hpre Ht.
    destruct pre; [|cbn in Hpre; tauto]. cbn [app elt].
    assert (B1 : bidx [T] [t] = [t]) by (unfold bidx; cbn; rewrite !b1 by assumption; reflexivity). rewrite B1.
    assert (B2 : bidx [1%nat] [t] = [0%nat]) by reflexivity. rewrite B2. cbn [removelast app]. ring.
  - assert (B : bshape [b; T] [b; 1%nat] = Ok [b; T]) by (unfold bshape; cbn; rewrite bdim_1_r, bdim_refl; reflexivity).
    rewrite B. cbn [bind]. eexists. split; [reflexivity|]. split; [reflexivity|]. intros pre t Hpre Ht.
    destruct pre as [|c [|? ?]]; cbn in Hpre; try tauto. destruct Hpre as [Hc _]. cbn [app elt].
    assert (B1 : bidx [b; T] [c; t] = [c; t]) by (unfold bidx; cbn; rewrite !b1 by assumption; reflexivity).
    assert (B2 : bidx [b; 1%nat] [c; t] = [c; 0%nat]) by (unfold bidx; cbn; rewrite !b1 by assumption; reflexivity).
    rewrite B1, B2. cbn [removelast app]. ring.
Qed.
Lemma stft_spec (n hop : nat) (window z : tensor R) P T : shape z = P ++ [T] -> (List.length P <= 1)%nat ->
  (0 < n <= T)%nat -> (0 < hop)%nat -> shape window = [n] ->
  exists r, stft n hop window z = Ok r /\ shape r = P ++ [rbins n; nseg T n hop] /\
   forall pre f s, elt r (pre ++ [f; s]) = rfft n (fun t => elt window [t] * elt z (pre ++ [(s * hop + t)%nat])) f.
Proof.
  intros Sz HP Hn Hh Sw. unfold stft, ndim. rewrite Sz, last_last, removelast_last, app_length. cbn [List.length].
  replace ((List.length P + 1 =? 0) || (2 <? List.length P + 1) || (n =? 0) || (T <? n) || (hop =? 0))%nat with false by lia.
  rewrite Sw. destruct (list_eq_dec Nat.eq_dec [n] [n]); [|congruence]. cbn [negb].
  eexists. split; [reflexivity|]. split; [reflexivity|]. intros pre f s. cbn [elt].
  change (pre ++ [f; s]) with (pre ++ ([f] ++ [s])). rewrite app_assoc, !removelast_last, !last_last. reflexivity.
Qed.
Lemma seg_in_range T n stride s t : (0 < stride)%nat -> (0 < n <= T)%nat -> (s < nseg T n stride)%nat -> (t < n)%nat -> (s * stride + t < T)%nat.
Proof.
  intros Hs Hn Hs0 Ht. unfold nseg in Hs0. pose proof (Nat.mul_div_le (T - n) stride ltac:(lia)) as D.
  revert D Hs0. generalize ((T - n) / stride)%nat. intros; nia.
Qed.
Lemma fft_spec (x window : tensor R) P T n hop : shape x = P ++ [T] -> (List.length P <= 1)%nat ->
  (0 < n <= T)%nat -> (0 < hop)%nat -> shape window = [n] ->
  exists z r, bzip Rminus x (mean_last true x) = Ok z /\ ndim z = ndim x /\ stft n hop window z = Ok r /\ shape r = P ++ [rbins n; nseg T n hop] /\
   forall pre f s, inb pre P -> (s < nseg T n hop)%nat ->
     elt r (pre ++ [f; s]) = fast_seg n T (fun t => elt window [t]) (fun t => elt x (pre ++ [t])) (s * hop) f.
Proof.
  intros Sx HP Hn Hh Sw. destruct (demean_spec x P T Sx HP) as [z [Ez [Sz Gz]]].
  destruct (stft_spec n hop window z P T Sz HP Hn Hh Sw) as [r [Er [Sr Gr]]].
  exists z, r. split; [exact Ez|]. split; [unfold ndim; rewrite Sz, Sx; reflexivity|]. split; [exact Er|]. split; [exact Sr|].
  intros pre f s Hpre Hs. rewrite Gr. unfold fast_seg. apply rfft_ext. intros t Ht.
  rewrite Gz by (try assumption; eapply seg_in_range; eassumption). reflexivity.
Qed.

(** the final steps, on the products z of shape P ++ [bins; segments] *)
Lemma finish_spec (z : tensor C) P n W scale average : shape z = P ++ [rbins n; W] ->
  let fft := double_axis (fun v => Cmult v (RtoC 2)) (List.length P) n z in
  let fft := tmap (fun v => Cmult v (RtoC scale)) fft in
  let fft := reduce_m1 (cagg (aggregate average)) fft in
  shape fft = P ++ [rbins n] /\
  forall pre f (u : nat -> C), inb pre P -> (f < rbins n)%nat -> (forall s, (s < W)%nat -> elt z (pre ++ [f; s]) = u s) ->
    elt fft (pre ++ [f]) =
    (aggregate average W (fun s => Re (Cmult (RtoC (onesided n f * scale)) (u s))),
     aggregate average W (fun s => Im (Cmult (RtoC (onesided n f * scale)) (u s)))).
Proof.
  intros Sz. cbv zeta. unfold reduce_m1, tmap, double_axis. cbn [shape elt]. rewrite Sz.
  change (P ++ [rbins n; W]) with (P ++ ([rbins n] ++ [W])). rewrite app_assoc, removelast_last, last_last.
  split; [reflexivity|]. intros pre f u Hpre Hf Hu. unfold cagg.
  assert (L : List.length pre = List.length P) by (apply inb_length; assumption).
  assert (E : forall s, (s < W)%nat ->
     Cmult (if ((1 <=? nth (List.length P) ((pre ++ [f]) ++ [s]) 0) && (if Nat.odd n then nth (List.length P) ((pre ++ [f]) ++ [s]) 0 <? nth (List.length P) ((P ++ [rbins n]) ++ [W]) 0
            else nth (List.length P) ((pre ++ [f]) ++ [s]) 0 <? nth (List.length P) ((P ++ [rbins n]) ++ [W]) 0 - 1))%nat
            then Cmult (elt z ((pre ++ [f]) ++ [s])) (RtoC 2) else elt z ((pre ++ [f]) ++ [s])) (RtoC scale)
     = Cmult (RtoC (onesided n f * scale)) (u s)).
  { intros s Hs. rewrite <- !app_assoc. cbn [app]. rewrite Hu by assumption.
    replace (nth (List.length P) (pre ++ [f; s]) 0)%nat with f by (rewrite <- L; symmetry; apply nth_middle).
    replace (nth (List.length P) (P ++ [rbins n; W]) 0)%nat with (rbins n) by (symmetry; apply nth_middle).
    pose proof (double_onesided n f 1 Hf) as D.
    destruct ((1 <=? f)%nat && (if Nat.odd n then f <? rbins n else f <? rbins n - 1)%nat)%bool.
    - replace (onesided n f) with 2 by lra. rewrite RtoC_mult. ring.
    - replace (onesided n f) with 1 by lra. rewrite RtoC_mult. ring. }
  f_equal; apply aggregate_ext; intros s Hs; rewrite E by assumption; reflexivity.
Qed.

Lemma reshape_2d {A} (x : tensor A) b c T : shape x = [b; c; T] -> (0 < T)%nat ->
  exists z, reshape [-1; Z.of_nat T]%Z x = Ok z /\ shape z = [(b * c)%nat; T] /\
    forall i j t, (i < b)%nat -> (j < c)%nat -> (t < T)%nat -> elt z [(i * c + j)%nat; t] = elt x [i; j; t].
Proof.
  intros Sx HT. unfold reshape, infer_dims, numel. rewrite Sx. cbn [prod map filter existsb].
  replace (Z.of_nat T =? -1)%Z with false by lia. replace (Z.of_nat T <? -1)%Z with false by lia. cbn.
  rewrite Nat2Z.id, Nat.mul_1_r. destruct (Nat.eqb_spec T 0); [lia|].
  rewrite Nat.mul_assoc, Nat.mod_mul, Nat.div_mul by lia. cbn.
  change (-1 <? -1)%Z with false. cbn [orb bind].
  unfold reshape_to, numel. rewrite Sx. cbn [prod]. rewrite !Nat.mul_1_r, Nat.mul_assoc, Nat.eqb_refl.
  eexists. split; [reflexivity|]. split; [reflexivity|]. intros i j t Hi Hj Ht. cbn [elt].
  replace (ravel [(b * c)%nat; T] [(i * c + j)%nat; t]) with (ravel [b; c; T] [i; j; t]) by (cbn; ring).
  rewrite unravel_ravel by (cbn; lia). reflexivity.
Qed.
Lemma reshape_bc {A} (x : tensor A) b c F : shape x = [(b * c)%nat; F] -> (0 < b)%nat -> (0 < c)%nat ->
  exists z, reshape [Z.of_nat b; Z.of_nat c; -1]%Z x = Ok z /\ shape z = [b; c; F] /\
    forall i j t, (i < b)%nat -> (j < c)%nat -> (t < F)%nat -> elt z [i; j; t] = elt x [(i * c + j)%nat; t].
Proof.
  intros Sx Hb Hc. change [Z.of_nat b; Z.of_nat c; (-1)%Z] with (map Z.of_nat [b; c] ++ [(-1)%Z]).
  rewrite (reshape_hole_end_ok [b; c] F x) by (try (unfold numel; rewrite Sx); cbn; nia).
  eexists. split; [reflexivity|]. split; [reflexivity|]. intros i j t Hi Hj Ht. cbn [elt app]. rewrite Sx.
  replace (ravel [b; c; F] [i; j; t]) with (ravel [(b * c)%nat; F] [(i * c + j)%nat; t]) by (cbn; ring).
  rewrite unravel_ravel by (cbn; nia). reflexivity.
Qed.
Lemma reshape_bcf {A} (x : tensor A) b c F W : shape x = [(b * c)%nat; F; W] -> (0 < b)%nat -> (0 < c)%nat -> (0 < F)%nat ->
  exists z, reshape [Z.of_nat b; Z.of_nat c; Z.of_nat F; -1]%Z x = Ok z /\ shape z = [b; c; F; W] /\
    forall i j f s, (i < b)%nat -> (j < c)%nat -> (f < F)%nat -> (s < W)%nat -> elt z [i; j; f; s] = elt x [(i * c + j)%nat; f; s].
Proof.
  intros Sx Hb Hc HF. change [Z.of_nat b; Z.of_nat c; Z.of_nat F; (-1)%Z] with (map Z.of_nat [b; c; F] ++ [(-1)%Z]).
  rewrite (reshape_hole_end_ok [b; c; F] W x) by (try (unfold numel; rewrite Sx); cbn; nia).
  eexists. split; [reflexivity|]. split; [reflexivity|]. intros i j f s Hi Hj Hf Hs. cbn [elt app]. rewrite Sx.
  replace (ravel [b; c; F; W] [i; j; f; s]) with (ravel [(b * c)%nat; F; W] [(i * c + j)%nat; f; s]) by (cbn; ring).
  rewrite unravel_ravel by (cbn; nia). reflexivity.
Qed.
Lemma bzip_same {A B D} (f : A -> B -> D) (a : tensor A) (b : tensor B) : shape a = shape b ->
  exists r, bzip f a b = Ok r /\ shape r = shape a /\ forall i, inb i (shape a) -> elt r i = f (elt a i) (elt b i).
Proof.
  intros Sab. unfold bzip. rewrite <- Sab.
  assert (R0 : forall l, bshape_rev l l = Ok l) by (induction l as [|d l IH]; cbn; [reflexivity|]; rewrite bdim_refl, IH; reflexivity).
  unfold bshape. rewrite R0. cbn [bind]. rewrite rev_involutive. eexists. split; [reflexivity|]. split; [reflexivity|].
  intros i Hi. cbn [elt].
  assert (E : bidx (shape a) i = i).
  { unfold bidx. rewrite (inb_length i _ Hi), Nat.sub_diag. cbn [skipn]. revert i Hi. generalize (shape a).
    induction l as [|d l IH]; intros [|x i]; cbn; try tauto. intros [H1 H2]. rewrite IH by assumption. f_equal. destruct (Nat.eqb_spec d 1); lia. }
  rewrite E. reflexivity.
Qed.

(** ** the general specification *)
Theorem fast_spectral_density_spec x y batch T n stride window scale average :
  shape x = batch ++ [T] -> (List.length batch <= 2)%nat -> Forall (fun b => (0 < b)%nat) batch ->
  (0 < n <= T)%nat -> (0 < stride)%nat -> shape window = [n] ->
  match y with None => True | Some y => documented_pair (shape x) (shape y) end ->
  exists r, fast_spectral_density x n stride window scale average y = Ok r /\ shape r = batch ++ [rbins n] /\
   forall pre f, inb pre batch -> (f < rbins n)%nat ->
     get r (pre ++ [f]) = Some (fast_csd (aggregate average) n stride T (fun t => elt window [t]) scale (fun t => elt x (pre ++ [t]))
        (match y with None => fun t => elt x (pre ++ [t]) | Some y => fun t => elt y (partner (shape x) (shape y) pre ++ [t]) end) f).
Proof.
  intros Sx Hl Hp Hn Hs Sw Hy. unfold fast_spectral_density.
  assert (V : validate_shapes (shape x) n (option_map shape y) = Ok tt).
  { apply validate_shapes_spec.
    - rewrite Sx. destruct batch; discriminate.
    - destruct y as [y|]; [|discriminate]. cbn. intros E. injection E as E. rewrite E, Sx in Hy.
      destruct Hy as [Hy|[[c [t [_ Hy]]]|[b [c [t [_ Hy]]]]]]; try discriminate. destruct batch; discriminate.
    - rewrite Sx, last_last, app_length. cbn [List.length]. repeat split; try lia. rewrite <- Sx. destruct y; exact Hy. }
  rewrite V. cbn [bind]. rewrite Sx, last_last.
  assert (RC : forall r a, Re (Cmult (RtoC r) (RtoC (Re (Cmult (Cconj a) a)))) = Re (Cmult (RtoC r) (Cmult (Cconj a) a)) /\
      Im (Cmult (RtoC r) (RtoC (Re (Cmult (Cconj a) a)))) = Im (Cmult (RtoC r) (Cmult (Cconj a) a))).
  { intros r [a1 a2]. unfold Cmult, Cconj, RtoC, Re, Im; cbn. repeat split; ring. }
  destruct batch as [|b1 [|b2 [|? ?]]]; cbn [app List.length] in *; [| | |lia].
  - (* x: (time) *)
    destruct (fft_spec x window [] T n stride Sx ltac:(cbn; lia) Hn Hs Sw) as [z [X [Ez [Nz [EX [SX GX]]]]]].
    cbn [app] in *. destruct y as [y|].
    + assert (Sy : shape y = [T]).
      { destruct Hy as [Hy|[[c [t [Hy _]]]|[b [c [t [Hy _]]]]]]; rewrite Sx in Hy; [congruence|discriminate|discriminate]. }
      destruct (fft_spec y window [] T n stride Sy ltac:(cbn; lia) Hn Hs Sw) as [z' [Y [Ez' [Nz' [EY [SY GY]]]]]]. cbn [app] in *.
      cbn [bind]. rewrite Ez. cbn [bind]. rewrite EX. cbn [bind]. rewrite Ez'. cbn [bind]. rewrite EY. cbn [bind].
      destruct (bzip_same (fun a b => Cmult (Cconj a) b) X Y ltac:(congruence)) as [Z0 [EZ [SZ GZ]]]. rewrite EZ. cbn [bind].
      unfold ndim in Nz |- *. rewrite Nz, Sx. cbn [List.length Nat.eqb].
      destruct (finish_spec Z0 [] n (nseg T n stride) scale average ltac:(rewrite SZ; exact SX)) as [Sf Gf]. cbn [List.length] in *.
      eexists. split; [reflexivity|]. split; [exact Sf|]. intros pre f Hpre Hf. destruct pre; [|cbn in Hpre; tauto].
      rewrite get_inb by (rewrite Sf; cbn; lia). f_equal. unfold fast_csd. rewrite Sy. unfold partner. cbn [List.length Nat.eqb app].
      apply (Gf [] f (fun s => _) Hpre Hf). intros s Hs0. cbn [app]. rewrite GZ by (rewrite SX; cbn; lia).
      f_equal; [f_equal; apply (GX [])|apply (GY [])]; assumption.
    + cbn [bind]. rewrite Ez. cbn [bind]. rewrite EX. cbn [bind].
      destruct (bzip_same (fun a b => Cmult (Cconj a) b) X X eq_refl) as [Z0 [EZ [SZ GZ]]]. rewrite EZ. cbn [bind].
      unfold ndim in Nz |- *. rewrite Nz, Sx. cbn [List.length Nat.eqb].
      destruct (finish_spec (tmap (fun z => RtoC (Re z)) Z0) [] n (nseg T n stride) scale average ltac:(cbn [tmap shape]; rewrite SZ; exact SX)) as [Sf Gf]. cbn [List.length] in *.
      eexists. split; [reflexivity|]. split; [exact Sf|]. intros pre f Hpre Hf. destruct pre; [|cbn in Hpre; tauto].
      rewrite get_inb by (rewrite Sf; cbn; lia). f_equal. unfold fast_csd. cbn [app].
      eapply eq_trans; [apply (Gf [] f (fun s => RtoC (Re (Cmult (Cconj (fast_seg n T (fun t => elt window [t]) (fun t => elt x [t]) (s * stride) f)) (fast_seg n T (fun t => elt window [t]) (fun t => elt x [t]) (s * stride) f)))) Hpre Hf)|].
      * intros s Hs0. cbn [app tmap elt]. rewrite GZ by (rewrite SX; cbn; lia). pose proof (GX [] f s Hpre Hs0) as E. cbn [app] in E. rewrite E. reflexivity.
      * f_equal; apply aggregate_ext; intros s _; apply (RC _ _).
  - (* x: (channel, time) *)
    destruct (fft_spec x window [b1] T n stride Sx ltac:(cbn; lia) Hn Hs Sw) as [z [X [Ez [Nz [EX [SX GX]]]]]].
    cbn [app] in *. destruct y as [y|].
    + assert (Sy : shape y = [b1; T] \/ shape y = [T]).
      { destruct Hy as [Hy|[[c [t [Hy Hy']]]|[b [c [t [Hy _]]]]]]; rewrite Sx in Hy; [left; congruence|right; congruence|discriminate]. }
      destruct Sy as [Sy|Sy].
      * destruct (fft_spec y window [b1] T n stride Sy ltac:(cbn; lia) Hn Hs Sw) as [z' [Y [Ez' [Nz' [EY [SY GY]]]]]]. cbn [app] in *.
        cbn [bind]. rewrite Ez. cbn [bind]. rewrite EX. cbn [bind]. rewrite Ez'. cbn [bind]. rewrite EY. cbn [bind].
        destruct (bzip_same (fun a b => Cmult (Cconj a) b) X Y ltac:(congruence)) as [Z0 [EZ [SZ GZ]]]. rewrite EZ. cbn [bind].
        unfold ndim in Nz |- *. rewrite Nz, Sx, SZ, SX. cbn [List.length]; change (2 =? 1)%nat with false; change (3 <? 4)%nat with true; cbv iota.
        destruct (finish_spec Z0 [b1] n (nseg T n stride) scale average ltac:(rewrite SZ; exact SX)) as [Sf Gf]. cbn [List.length] in *.
        eexists. split; [reflexivity|]. split; [exact Sf|]. intros pre f Hpre Hf. pose proof Hpre as Hpre0. destruct pre as [|c [|? ?]]; cbn in Hpre; try tauto.
        rewrite get_inb by (rewrite Sf; cbn; lia). f_equal. unfold fast_csd. rewrite Sy. unfold partner. cbn [List.length Nat.eqb app].
        apply (Gf [c] f (fun s => _) Hpre0 Hf). intros s Hs0. cbn [app]. rewrite GZ by (rewrite SX; cbn; lia).
        f_equal; [f_equal; apply (GX [c])|apply (GY [c])]; assumption.
      * destruct (fft_spec y window [] T n stride Sy ltac:(cbn; lia) Hn Hs Sw) as [z' [Y [Ez' [Nz' [EY [SY GY]]]]]]. cbn [app] in *.
        cbn [bind]. rewrite Ez. cbn [bind]. rewrite EX. cbn [bind]. rewrite Ez'. cbn [bind]. rewrite EY. cbn [bind].
        unfold bzip. rewrite SX, SY.
        assert (B : bshape [b1; rbins n; nseg T n stride] [rbins n; nseg T n stride] = Ok [b1; rbins n; nseg T n stride]) by (unfold bshape; cbn; rewrite !bdim_refl; reflexivity).
        rewrite B. cbn [bind].
        unfold ndim in Nz |- *. rewrite Nz, Sx. cbn [shape List.length]; change (2 =? 1)%nat with false; change (3 <? 4)%nat with true; cbv iota.
        match goal with |- context [double_axis _ 1%nat n ?Z] => set (Z0 := Z) end.
        destruct (finish_spec Z0 [b1] n (nseg T n stride) scale average eq_refl) as [Sf Gf]. cbn [List.length] in *.
        eexists. split; [reflexivity|]. split; [exact Sf|]. intros pre f Hpre Hf. pose proof Hpre as Hpre0. destruct pre as [|c [|? ?]]; cbn in Hpre; try tauto.
        rewrite get_inb by (rewrite Sf; cbn; lia). f_equal. unfold fast_csd. rewrite Sy. unfold partner. cbn [List.length Nat.eqb app removelast].
        apply (Gf [c] f (fun s => _) Hpre0 Hf). intros s Hs0. unfold Z0. cbn [app elt].
        assert (B1 : bidx [b1; rbins n; nseg T n stride] [c; f; s] = [c; f; s]) by (apply bidx_BCT; lia).
        assert (B2 : bidx [rbins n; nseg T n stride] [c; f; s] = [f; s]) by (unfold bidx; cbn; rewrite !Norm_props.b1 by assumption; reflexivity).
        rewrite B1, B2. f_equal; [f_equal; apply (GX [c])|apply (GY [])]; cbn; tauto.
    + cbn [bind]. rewrite Ez. cbn [bind]. rewrite EX. cbn [bind].
      destruct (bzip_same (fun a b => Cmult (Cconj a) b) X X eq_refl) as [Z0 [EZ [SZ GZ]]]. rewrite EZ. cbn [bind].
      assert (N0 : (ndim z =? 1)%nat = false) by (rewrite Nz; unfold ndim; rewrite Sx; reflexivity). rewrite N0.
      assert (N1 : (ndim (tmap (fun z => RtoC (Re z)) Z0) <? 4)%nat = true) by (unfold ndim, tmap; cbn [shape]; rewrite SZ, SX; reflexivity). rewrite N1.
      destruct (finish_spec (tmap (fun z => RtoC (Re z)) Z0) [b1] n (nseg T n stride) scale average ltac:(cbn [tmap shape]; rewrite SZ; exact SX)) as [Sf Gf]. cbn [List.length] in *.
      eexists. split; [reflexivity|]. split; [exact Sf|]. intros pre f Hpre Hf. pose proof Hpre as Hpre0. destruct pre as [|c [|? ?]]; cbn in Hpre; try tauto.
      rewrite get_inb by (rewrite Sf; cbn; lia). f_equal. unfold fast_csd. cbn [app].
      eapply eq_trans; [apply (Gf [c] f (fun s => RtoC (Re (Cmult (Cconj (fast_seg n T (fun t => elt window [t]) (fun t => elt x [c; t]) (s * stride) f)) (fast_seg n T (fun t => elt window [t]) (fun t => elt x [c; t]) (s * stride) f)))) Hpre0 Hf)|].
      * intros s Hs0. cbn [app tmap elt]. rewrite GZ by (rewrite SX; cbn; lia). pose proof (GX [c] f s Hpre0 Hs0) as E. cbn [app] in E. rewrite E. reflexivity.
      * f_equal; apply aggregate_ext; intros s _; apply (RC _ _).
  - (* x: (batch, channel, time) *)
    inversion Hp as [|? ? Hb1 Hp']; subst. inversion Hp' as [|? ? Hb2 _]; subst.
    destruct (reshape_2d x b1 b2 T Sx ltac:(lia)) as [x2 [Ex2 [Sx2 Gx2]]]. rewrite Ex2. cbn [bind].
    destruct (fft_spec x2 window [(b1 * b2)%nat] T n stride Sx2 ltac:(cbn; lia) Hn Hs Sw) as [z [X [Ez [Nz [EX [SX GX]]]]]].
    cbn [app] in *.
    assert (XE : forall i j f s, (i < b1)%nat -> (j < b2)%nat -> (s < nseg T n stride)%nat ->
       elt X [(i * b2 + j)%nat; f; s] = fast_seg n T (fun t => elt window [t]) (fun t => elt x [i; j; t]) (s * stride) f).
    { intros i j f s Hi Hj Hs0. pose proof (GX [(i * b2 + j)%nat] f s ltac:(cbn; nia) Hs0) as E. cbn [app] in E. rewrite E.
      unfold fast_seg. assert (E1 : Rsum T (fun t => elt x2 [(i * b2 + j)%nat; t]) = Rsum T (fun t => elt x [i; j; t])) by (apply Rsum_ext; intros t Ht; apply Gx2; assumption).
      rewrite E1. apply rfft_ext. intros t Ht. rewrite Gx2 by (try assumption; eapply seg_in_range; eassumption). reflexivity. }
    assert (FIN : forall (Z0 : tensor C) (u : nat -> nat -> nat -> nat -> C), shape Z0 = [(b1 * b2)%nat; rbins n; nseg T n stride] ->
       (forall i j f s, (i < b1)%nat -> (j < b2)%nat -> (f < rbins n)%nat -> (s < nseg T n stride)%nat -> elt Z0 [(i * b2 + j)%nat; f; s] = u i j f s) ->
       exists r, reshape [Z.of_nat b1; Z.of_nat b2; -1]%Z (reduce_m1 (cagg (aggregate average)) (tmap (fun v => Cmult v (RtoC scale)) (double_axis (fun v => Cmult v (RtoC 2)) 1 n Z0))) = Ok r /\
         shape r = [b1; b2; rbins n] /\ forall i j f, (i < b1)%nat -> (j < b2)%nat -> (f < rbins n)%nat ->
           elt r [i; j; f] = (aggregate average (nseg T n stride) (fun s => Re (Cmult (RtoC (onesided n f * scale)) (u i j f s))),
                              aggregate average (nseg T n stride) (fun s => Im (Cmult (RtoC (onesided n f * scale)) (u i j f s))))).
    { intros Z0 u SZ GZ. destruct (finish_spec Z0 [(b1 * b2)%nat] n (nseg T n stride) scale average SZ) as [Sf Gf]. cbn [List.length app] in *.
      destruct (reshape_bc _ b1 b2 (rbins n) Sf Hb1 Hb2) as [r [Er [Sr Gr]]]. exists r. split; [exact Er|]. split; [exact Sr|].
      intros i j f Hi Hj Hf. rewrite Gr by assumption. apply (Gf [(i * b2 + j)%nat] f (u i j f)); [cbn; nia|assumption|]. intros s Hs0. apply GZ; assumption. }
    assert (ND : forall (Z0 : tensor C) g, shape Z0 = [(b1 * b2)%nat; rbins n; nseg T n stride] ->
       ndim (reduce_m1 (cagg (aggregate average)) (tmap g (double_axis (fun v => Cmult v (RtoC 2)) 1 n Z0))) = 2%nat).
    { intros Z0 g SZ. unfold ndim, reduce_m1, tmap, double_axis. cbn [shape]. rewrite SZ. reflexivity. }
    destruct y as [y|].
    + assert (Sy : shape y = [b1; b2; T] \/ shape y = [b1; T]).
      { destruct Hy as [Hy|[[c [t [Hy Hy']]]|[b [c [t [Hy Hy']]]]]]; rewrite Sx in Hy; [left; congruence|discriminate|right; congruence]. }
      destruct Sy as [Sy|Sy]; unfold ndim at 1; rewrite Sy; cbn [List.length Nat.eqb].
      * destruct (reshape_2d y b1 b2 T Sy ltac:(lia)) as [y2 [Ey2 [Sy2 Gy2]]]. rewrite Ey2. cbn [bind].
        destruct (fft_spec y2 window [(b1 * b2)%nat] T n stride Sy2 ltac:(cbn; lia) Hn Hs Sw) as [z' [Y [Ez' [Nz' [EY [SY GY]]]]]]. cbn [app] in *.
        rewrite Ez. cbn [bind]. rewrite EX. cbn [bind]. rewrite Ez'. cbn [bind]. rewrite EY. cbn [bind].
        rewrite SX, SY. cbn [hd]. rewrite Nat.eqb_refl. cbn [negb bind].
        destruct (bzip_same (fun a b => Cmult (Cconj a) b) X Y ltac:(congruence)) as [Z0 [EZ [SZ GZ]]]. rewrite EZ. cbn [bind].
        assert (N0 : (ndim z =? 1)%nat = false) by (rewrite Nz; unfold ndim; rewrite Sx2; reflexivity). rewrite N0.
        rewrite SX in SZ. assert (N1 : (ndim Z0 <? 4)%nat = true) by (unfold ndim; rewrite SZ; reflexivity). rewrite N1. rewrite ND by exact SZ. cbn [Nat.eqb].
        destruct (FIN Z0 (fun i j f s => Cmult (Cconj (fast_seg n T (fun t => elt window [t]) (fun t => elt x [i; j; t]) (s * stride) f)) (fast_seg n T (fun t => elt window [t]) (fun t => elt y [i; j; t]) (s * stride) f)) SZ) as [r [Er [Sr Gr]]].
        { intros i j f s Hi Hj Hf Hs0. rewrite GZ by (rewrite SX; cbn; nia). rewrite XE by assumption. f_equal.
          pose proof (GY [(i * b2 + j)%nat] f s ltac:(cbn; nia) Hs0) as E. cbn [app] in E. rewrite E.
          unfold fast_seg. assert (E1 : Rsum T (fun t => elt y2 [(i * b2 + j)%nat; t]) = Rsum T (fun t => elt y [i; j; t])) by (apply Rsum_ext; intros t Ht; apply Gy2; assumption).
          rewrite E1. apply rfft_ext. intros t Ht. rewrite Gy2 by (try assumption; eapply seg_in_range; eassumption). reflexivity. }
        exists r. split; [exact Er|]. split; [exact Sr|]. intros pre f Hpre Hf. destruct pre as [|i [|j [|? ?]]]; cbn in Hpre; try tauto.
        rewrite get_inb by (rewrite Sr; cbn; lia). f_equal. unfold fast_csd, partner. cbn [List.length Nat.eqb app].
        rewrite Gr by tauto. reflexivity.
      * destruct (fft_spec y window [b1] T n stride Sy ltac:(cbn; lia) Hn Hs Sw) as [z' [Y [Ez' [Nz' [EY [SY GY]]]]]]. cbn [app] in *.
        cbn [bind]. rewrite Ez. cbn [bind]. rewrite EX. cbn [bind]. rewrite Ez'. cbn [bind]. rewrite EY. cbn [bind].
        assert (YE : forall i f s, (i < b1)%nat -> (s < nseg T n stride)%nat -> elt Y [i; f; s] = fast_seg n T (fun t => elt window [t]) (fun t => elt y [i; t]) (s * stride) f).
        { intros i f s Hi Hs0. apply (GY [i]); [cbn; lia|assumption]. }
        rewrite SX, SY. cbn [hd]. assert (N0 : (ndim z =? 1)%nat = false) by (rewrite Nz; unfold ndim; rewrite Sx2; reflexivity). rewrite N0.
        destruct (Nat.eqb_spec (b1 * b2) b1) as [E1|E1]; cbn [negb bind].
        -- assert (b2 = 1)%nat by nia. subst b2.
           destruct (bzip_same (fun a b => Cmult (Cconj a) b) X Y ltac:(rewrite SX, SY, Nat.mul_1_r; reflexivity)) as [Z0 [EZ [SZ GZ]]]. rewrite EZ. cbn [bind].
           rewrite SX in SZ. assert (N1 : (ndim Z0 <? 4)%nat = true) by (unfold ndim; rewrite SZ; reflexivity). rewrite N1. rewrite ND by exact SZ. cbn [Nat.eqb].
           destruct (FIN Z0 (fun i j f s => Cmult (Cconj (fast_seg n T (fun t => elt window [t]) (fun t => elt x [i; j; t]) (s * stride) f)) (fast_seg n T (fun t => elt window [t]) (fun t => elt y [i; t]) (s * stride) f)) SZ) as [r [Er [Sr Gr]]].
           { intros i j f s Hi Hj Hf Hs0. rewrite GZ by (rewrite SX; cbn; nia). rewrite XE by assumption. f_equal.
             replace (i * 1 + j)%nat with i by lia. apply YE; assumption. }
           exists r. split; [exact Er|]. split; [exact Sr|]. intros pre f Hpre Hf. destruct pre as [|i [|j [|? ?]]]; cbn in Hpre; try tauto.
           rewrite get_inb by (rewrite Sr; cbn; lia). f_equal. unfold fast_csd, partner. cbn [List.length Nat.eqb app removelast].
           rewrite Gr by tauto. reflexivity.
        -- destruct (reshape_bcf X b1 b2 (rbins n) (nseg T n stride) SX Hb1 Hb2 ltac:(unfold rbins; lia)) as [X4 [EX4 [SX4 GX4]]]. rewrite EX4. cbn [bind].
           unfold bzip, unsqueeze1. cbn [shape elt]. rewrite SX4, SY.
           assert (B : bshape [b1; b2; rbins n; nseg T n stride] [b1; 1; rbins n; nseg T n stride]%nat = Ok [b1; b2; rbins n; nseg T n stride]) by (unfold bshape; cbn; rewrite !bdim_refl, bdim_1_r; reflexivity).
           rewrite B. cbn [bind].
           match goal with |- context [double_axis _ _ n ?Z] => set (Z0 := Z) end.
           assert (N1 : (ndim Z0 <? 4)%nat = false) by reflexivity. rewrite N1.
           destruct (finish_spec Z0 [b1; b2] n (nseg T n stride) scale average eq_refl) as [Sf Gf]. cbn [List.length app] in *.
           match goal with |- context [ndim ?P =? 2] => assert (N2 : (ndim P =? 2)%nat = false) by (unfold ndim; rewrite Sf; reflexivity); rewrite N2 end.
           eexists. split; [reflexivity|]. split; [exact Sf|]. intros pre f Hpre Hf. pose proof Hpre as Hpre0. destruct pre as [|i [|j [|? ?]]]; cbn in Hpre; try tauto.
           rewrite get_inb by (rewrite Sf; cbn; lia). f_equal. unfold fast_csd, partner. cbn [List.length Nat.eqb app removelast].
           apply (Gf [i; j] f (fun s => _) Hpre0 Hf). intros s Hs0. unfold Z0. cbn [app elt].
           assert (I1 : bidx [b1; b2; rbins n; nseg T n stride] [i; j; f; s] = [i; j; f; s]) by (unfold bidx; cbn; rewrite !Norm_props.b1 by lia; reflexivity).
           assert (I2 : bidx [b1; 1; rbins n; nseg T n stride]%nat [i; j; f; s] = [i; 0%nat; f; s]) by (unfold bidx; cbn; rewrite !Norm_props.b1 by lia; reflexivity).
           rewrite I1, I2, GX4 by lia. rewrite XE, YE by lia. reflexivity.
    + cbn [bind]. rewrite Ez. cbn [bind]. rewrite EX. cbn [bind].
      destruct (bzip_same (fun a b => Cmult (Cconj a) b) X X eq_refl) as [Z0 [EZ [SZ GZ]]]. rewrite EZ. cbn [bind].
      assert (N0 : (ndim z =? 1)%nat = false) by (rewrite Nz; unfold ndim; rewrite Sx2; reflexivity). rewrite N0.
      rewrite SX in SZ. assert (N1 : (ndim (tmap (fun z => RtoC (Re z)) Z0) <? 4)%nat = true) by (unfold ndim, tmap; cbn [shape]; rewrite SZ; reflexivity). rewrite N1.
      rewrite ND by exact SZ. cbn [Nat.eqb].
      destruct (FIN (tmap (fun z => RtoC (Re z)) Z0) (fun i j f s => RtoC (Re (Cmult (Cconj (fast_seg n T (fun t => elt window [t]) (fun t => elt x [i; j; t]) (s * stride) f)) (fast_seg n T (fun t => elt window [t]) (fun t => elt x [i; j; t]) (s * stride) f)))) SZ) as [r [Er [Sr Gr]]].
      { intros i j f s Hi Hj Hf Hs0. cbn [tmap elt]. rewrite GZ by (rewrite SX; cbn; nia). rewrite XE by assumption. reflexivity. }
      exists r. split; [exact Er|]. split; [exact Sr|]. intros pre f Hpre Hf. destruct pre as [|i [|j [|? ?]]]; cbn in Hpre; try tauto.
      rewrite get_inb by (rewrite Sr; cbn; lia). f_equal. unfold fast_csd. cbn [app]. rewrite Gr by tauto.
      f_equal; apply aggregate_ext; intros s _; apply (RC _ _).
Qed.
