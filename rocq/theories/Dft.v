(** The discrete Fourier transform over the reals/complex numbers (Coquelicot's [C]): the semantics given to
    torch.fft.rfft / irfft / rfftfreq / fft, and the facts about them used by the property theorems. *)
From Verif Require Export Base Rutil.
From Coquelicot Require Export Complex.
Local Open Scope R_scope.

Fixpoint Csum (n : nat) (f : nat -> C) : C := match n with O => RtoC 0 | S m => Cplus (Csum m f) (f m) end.

Fixpoint Cpow (z : C) (n : nat) : C := match n with O => RtoC 1 | S m => Cmult z (Cpow z m) end.

(** e^{i x} *)
Definition cis (x : R) : C := (cos x, sin x).
(** the n-th root of unity to the power z: e^{2 pi i z / n} *)
Definition w (n : nat) (z : Z) : C := cis (2 * PI * IZR z / INR n).

(** torch.fft.fft(x)[k] *)
Definition dft (n : nat) (x : nat -> C) (k : nat) : C :=
  Csum n (fun t => Cmult (x t) (w n (- (Z.of_nat k * Z.of_nat t)))).
(** torch.fft.ifft(X)[t] *)
Definition idft (n : nat) (X : nat -> C) (t : nat) : C :=
  Cmult (RtoC (/ INR n)) (Csum n (fun k => Cmult (X k) (w n (Z.of_nat k * Z.of_nat t)))).
(** torch.fft.rfft(x, n)[k] for real x; the result has n/2+1 bins *)
Definition rfft (n : nat) (x : nat -> R) (k : nat) : C := dft n (fun t => RtoC (x t)) k.
Definition rbins (n : nat) : nat := (n / 2 + 1)%nat.
(** weight of bin k in the Hermitian completion of a half spectrum of an n-sample series: the DC bin (and for even n
    the Nyquist bin) occurs once, every other bin twice *)
Definition hw (n k : nat) : R := if ((k =? 0) || (2 * k =? n))%nat then 1 else 2.
(** torch.fft.irfft(X, n)[t]: the inverse transform of the Hermitian completion of X.  Bins of X beyond n/2 are not
    used, bins that X lacks are 0 (the caller passes 0 there); imaginary parts of DC and Nyquist are ignored *)
Definition irfft (n : nat) (X : nat -> C) (t : nat) : R :=
  / INR n * Rsum (rbins n) (fun k => hw n k * Re (Cmult (X k) (w n (Z.of_nat k * Z.of_nat t)))).
(** torch.fft.rfftfreq(n, 1/sr)[k] *)
Definition rfftfreq (n : nat) (sr : R) (k : nat) : R := INR k * (sr / INR n).

(** ** complex sums *)
Lemma Csum_ext n f g : (forall i, (i < n)%nat -> f i = g i) -> Csum n f = Csum n g.
Proof. induction n; intros H; cbn; [reflexivity|]. rewrite IHn, H by (intros; try apply H; lia). reflexivity. Qed.
Lemma Csum_plus n f g : Csum n (fun i => Cplus (f i) (g i)) = Cplus (Csum n f) (Csum n g).
Proof. induction n; cbn; [ring|]. rewrite IHn. ring. Qed.
Lemma Csum_scal n c f : Csum n (fun i => Cmult c (f i)) = Cmult c (Csum n f).
Proof. induction n; cbn; [ring|]. rewrite IHn. ring. Qed.
Lemma Csum_scal_r n c f : Csum n (fun i => Cmult (f i) c) = Cmult (Csum n f) c.
Proof. induction n; cbn; [ring|]. rewrite IHn. ring. Qed.
Lemma Csum_zero n : Csum n (fun _ => RtoC 0) = RtoC 0.
Proof. induction n; cbn; [reflexivity|]. rewrite IHn. ring. Qed.
Lemma Csum_0 n f : (forall i, (i < n)%nat -> f i = RtoC 0) -> Csum n f = RtoC 0.
Proof. intros H. rewrite (Csum_ext _ _ (fun _ => RtoC 0)) by exact H. apply Csum_zero. Qed.
Lemma Csum_swap n m (f : nat -> nat -> C) : Csum n (fun i => Csum m (fun j => f i j)) = Csum m (fun j => Csum n (fun i => f i j)).
Proof. induction n; cbn; [symmetry; apply Csum_zero|]. rewrite IHn, <- Csum_plus. reflexivity. Qed.
Lemma Csum_single n k f : (k < n)%nat -> (forall i, (i < n)%nat -> i <> k -> f i = RtoC 0) -> Csum n f = f k.
Proof.
  induction n; intros Hk H; [lia|]. cbn. destruct (Nat.eq_dec k n) as [->|].
  - rewrite Csum_0 by (intros; apply H; lia). ring.
  - rewrite IHn by (try lia; intros; apply H; lia). rewrite (H n) by lia. ring.
Qed.
Lemma Csum_app n m f : Csum (n + m) f = Cplus (Csum n f) (Csum m (fun i => f (n + i)%nat)).
Proof. induction m; [rewrite Nat.add_0_r; cbn; ring|]. rewrite Nat.add_succ_r. cbn. rewrite IHm. ring. Qed.
Lemma Csum_S_l n f : Csum (S n) f = Cplus (f 0%nat) (Csum n (fun i => f (S i))).
Proof. change (S n) with (1 + n)%nat. rewrite Csum_app. cbn. ring. Qed.
Lemma Re_Csum n f : Re (Csum n f) = Rsum n (fun i => Re (f i)).
Proof. induction n; cbn; [reflexivity|]. rewrite <- IHn. reflexivity. Qed.
Lemma Im_Csum n f : Im (Csum n f) = Rsum n (fun i => Im (f i)).
Proof. induction n; cbn; [reflexivity|]. rewrite <- IHn. reflexivity. Qed.
Lemma Csum_RtoC n f : Csum n (fun i => RtoC (f i)) = RtoC (Rsum n f).
Proof. induction n; cbn; [reflexivity|]. rewrite IHn, RtoC_plus. reflexivity. Qed.
Lemma Csum_const n c : Csum n (fun _ => c) = Cmult (RtoC (INR n)) c.
Proof. induction n; [cbn; ring|]. cbn [Csum]. rewrite IHn, S_INR, RtoC_plus. ring. Qed.
Lemma Cconj_plus a b : Cconj (Cplus a b) = Cplus (Cconj a) (Cconj b).
Proof. unfold Cconj, Cplus; cbn. f_equal; ring. Qed.
Lemma Cconj_mult a b : Cconj (Cmult a b) = Cmult (Cconj a) (Cconj b).
Proof. unfold Cconj, Cmult; cbn. f_equal; ring. Qed.
Lemma Cconj_R r : Cconj (RtoC r) = RtoC r.
Proof. unfold Cconj, RtoC; cbn. f_equal; ring. Qed.
Lemma Cconj_conj a : Cconj (Cconj a) = a.
Proof. destruct a; unfold Cconj; cbn. f_equal; ring. Qed.
Lemma Cconj_Csum n f : Cconj (Csum n f) = Csum n (fun i => Cconj (f i)).
Proof. induction n; cbn; [apply Cconj_R|]. rewrite Cconj_plus, IHn. reflexivity. Qed.
Lemma Cmod_sq z : (Cmod z) ^ 2 = Re z ^ 2 + Im z ^ 2.
Proof.
  unfold Cmod, Re, Im. rewrite pow2_sqrt; [reflexivity|].
  pose proof (pow2_ge_0 (fst z)); pose proof (pow2_ge_0 (snd z)); lra.
Qed.
Lemma Cmod_sq_conj z : RtoC (Cmod z ^ 2) = Cmult z (Cconj z).
Proof. rewrite Cmod_sq. destruct z; unfold RtoC, Cmult, Cconj, Re, Im; cbn. f_equal; ring. Qed.
Lemma Cmod_conj z : Cmod (Cconj z) = Cmod z.
Proof. unfold Cmod, Cconj; cbn. f_equal. ring. Qed.
Lemma Re_plus a b : Re (Cplus a b) = Re a + Re b.
Proof. reflexivity. Qed.
Lemma Re_scal r z : Re (Cmult (RtoC r) z) = r * Re z.
Proof. unfold Re, Cmult, RtoC; cbn. ring. Qed.
Lemma Im_scal r z : Im (Cmult (RtoC r) z) = r * Im z.
Proof. unfold Im, Cmult, RtoC; cbn. ring. Qed.

(** ** roots of unity *)
Lemma cis_plus a b : cis (a + b) = Cmult (cis a) (cis b).
Proof. unfold cis, Cmult; cbn. rewrite cos_plus, sin_plus. f_equal; ring. Qed.
Lemma cis_0 : cis 0 = RtoC 1.
Proof. unfold cis, RtoC. rewrite cos_0, sin_0. reflexivity. Qed.
Lemma cis_opp a : cis (- a) = Cconj (cis a).
Proof. unfold cis, Cconj; cbn. rewrite cos_neg, sin_neg. reflexivity. Qed.
Lemma cis_mod a : Cmod (cis a) = 1.
Proof.
  unfold Cmod, cis; cbn [fst snd]. rewrite <- sqrt_1. f_equal.
  pose proof (sin2_cos2 a) as H. unfold Rsqr in H. lra.
Qed.
Lemma cis_2PI_nat (m : nat) : cis (2 * PI * INR m) = RtoC 1.
Proof.
  induction m; [cbn; rewrite Rmult_0_r; apply cis_0|].
  rewrite S_INR. replace (2 * PI * (INR m + 1)) with (2 * PI * INR m + 2 * PI) by ring.
  rewrite cis_plus, IHm. unfold cis. rewrite cos_2PI, sin_2PI. fold (RtoC 1). ring.
Qed.
Lemma cis_2PI (m : Z) : cis (2 * PI * IZR m) = RtoC 1.
Proof.
  destruct (Z.le_ge_cases 0 m) as [H|H].
  - rewrite <- (Z2Nat.id m) by lia. rewrite <- INR_IZR_INZ. apply cis_2PI_nat.
  - replace (2 * PI * IZR m) with (- (2 * PI * INR (Z.to_nat (- m)))).
    + rewrite cis_opp, cis_2PI_nat. apply Cconj_R.
    + rewrite INR_IZR_INZ, Z2Nat.id by lia. rewrite opp_IZR. ring.
Qed.

Lemma w_plus n a b : w n (a + b) = Cmult (w n a) (w n b).
Proof. unfold w. rewrite <- cis_plus. f_equal. rewrite plus_IZR. unfold Rdiv. ring. Qed.
Lemma w_0 n : w n 0 = RtoC 1.
Proof. unfold w. rewrite Rmult_0_r. unfold Rdiv. rewrite Rmult_0_l. apply cis_0. Qed.
Lemma w_opp n a : w n (- a) = Cconj (w n a).
Proof. unfold w. rewrite <- cis_opp. f_equal. rewrite opp_IZR. unfold Rdiv. ring. Qed.
Lemma w_mod n a : Cmod (w n a) = 1.
Proof. apply cis_mod. Qed.
Lemma w_n n m : (0 < n)%nat -> w n (Z.of_nat n * m) = RtoC 1.
Proof.
  intros H. unfold w. rewrite mult_IZR, <- INR_IZR_INZ.
  replace (2 * PI * (INR n * IZR m) / INR n) with (2 * PI * IZR m); [apply cis_2PI|].
  field. apply not_0_INR. lia.
Qed.
Lemma w_period n a m : (0 < n)%nat -> w n (a + Z.of_nat n * m) = w n a.
Proof. intros H. rewrite w_plus, w_n by assumption. ring. Qed.
Lemma w_modulo n a : (0 < n)%nat -> w n (a mod Z.of_nat n) = w n a.
Proof.
  intros H. rewrite <- (w_period n (a mod Z.of_nat n) (a / Z.of_nat n)) by assumption.
  f_equal. pose proof (Z.div_mod a (Z.of_nat n)). lia.
Qed.
Lemma w_conj_mult n a : Cmult (w n a) (Cconj (w n a)) = RtoC 1.
Proof. rewrite <- Cmod_sq_conj, w_mod. f_equal. ring. Qed.

Lemma w_neq_1 n a : (0 < n)%nat -> (a mod Z.of_nat n <> 0)%Z -> w n a <> RtoC 1.
Proof.
  intros H Ha E. rewrite <- w_modulo in E by assumption.
  pose proof (Z.mod_pos_bound a (Z.of_nat n)) as B.
  set (j := (a mod Z.of_nat n)%Z) in *.
  unfold w, cis, RtoC in E. injection E as E _.
  assert (Hn : 0 < INR n) by (apply lt_0_INR; lia).
  assert (Hj : 0 < IZR j) by (apply (IZR_lt 0); lia).
  assert (Hjn : IZR j < INR n) by (rewrite INR_IZR_INZ; apply IZR_lt; lia).
  replace (2 * PI * IZR j / INR n) with (2 * (PI * (IZR j / INR n))) in E by (unfold Rdiv; ring).
  rewrite cos_2a_sin in E.
  assert (0 < IZR j / INR n) by (apply Rdiv_lt_0_compat; assumption).
  assert (IZR j / INR n < 1) by (apply Rmult_lt_reg_r with (INR n); [assumption|]; unfold Rdiv; rewrite Rmult_assoc, Rinv_l by lra; lra).
  pose proof PI_RGT_0.
  assert (0 < sin (PI * (IZR j / INR n))) by (apply sin_gt_0; nra).
  nra.
Qed.

(** orthogonality of characters *)
Lemma geom_C (z : C) n : Cmult (Cminus z (RtoC 1)) (Csum n (fun k => Cpow z k)) = Cminus (Cpow z n) (RtoC 1).
Proof. induction n; cbn; [ring|]. rewrite Cmult_plus_distr_l, IHn. ring. Qed.
Lemma w_pow n a k : Cpow (w n a) k = w n (a * Z.of_nat k).
Proof.
  induction k; cbn; [rewrite Z.mul_0_r, w_0; reflexivity|]. rewrite IHk, <- w_plus. f_equal. lia.
Qed.
Lemma w_orth n a : (0 < n)%nat ->
  Csum n (fun k => w n (Z.of_nat k * a)) = if (a mod Z.of_nat n =? 0)%Z then RtoC (INR n) else RtoC 0.
Proof.
  intros H. destruct (Z.eqb_spec (a mod Z.of_nat n) 0) as [E|E].
  - rewrite (Csum_ext _ _ (fun _ => RtoC 1)).
    + rewrite Csum_const. ring.
    + intros k _. rewrite <- w_modulo, Zmult_mod, E, Z.mul_0_r, Z.mod_0_l by lia. apply w_0.
  - pose proof (w_neq_1 n a H E) as W.
    pose proof (geom_C (w n a) n) as G. rewrite w_pow in G.
    rewrite Z.mul_comm, w_n in G by assumption.
    rewrite (Csum_ext _ (fun k => Cpow (w n a) k) (fun k => w n (Z.of_nat k * a))) in G
      by (intros k _; rewrite w_pow; f_equal; lia).
    assert (D : Cminus (w n a) (RtoC 1) <> RtoC 0) by (apply Cminus_eq_contra; assumption).
    apply (f_equal (Cmult (Cinv (Cminus (w n a) (RtoC 1))))) in G.
    rewrite Cmult_assoc, Cinv_l, Cmult_1_l in G by assumption. rewrite G. ring.
Qed.

(** ** inversion *)
Lemma mod_diff_zero n (s t : nat) : (s < n)%nat -> (t < n)%nat ->
  ((Z.of_nat t - Z.of_nat s) mod Z.of_nat n = 0)%Z -> s = t.
Proof. intros Hs Ht E. apply Z.mod_divide in E; [|lia]. destruct E as [q E]. assert (q = 0)%Z by nia. subst. lia. Qed.

Lemma idft_dft n x t : (t < n)%nat -> idft n (dft n x) t = x t.
Proof.
  intros Ht. unfold idft, dft.
  rewrite (Csum_ext _ _ (fun k => Csum n (fun s => Cmult (x s) (w n (Z.of_nat k * (Z.of_nat t - Z.of_nat s)))))).
  2:{ intros k _. rewrite <- Csum_scal_r. apply Csum_ext. intros s _.
      rewrite <- Cmult_assoc, <- w_plus. f_equal. f_equal. lia. }
  rewrite Csum_swap.
  rewrite (Csum_ext _ _ (fun s => Cmult (x s) (if (s =? t)%nat then RtoC (INR n) else RtoC 0))).
  2:{ intros s Hs. rewrite Csum_scal, w_orth by lia. f_equal.
      destruct (Nat.eqb_spec s t) as [->|N]; [rewrite Z.sub_diag, Z.mod_0_l by lia; reflexivity|].
      destruct (Z.eqb_spec ((Z.of_nat t - Z.of_nat s) mod Z.of_nat n) 0) as [E|]; [|reflexivity].
      exfalso; apply N, (mod_diff_zero n); assumption. }
  rewrite (Csum_single n t) by (try assumption; intros i _ N; apply Nat.eqb_neq in N; rewrite N; ring).
  rewrite Nat.eqb_refl.
  rewrite RtoC_inv by (apply not_0_INR; lia). field.
  intros E. apply RtoC_inj in E. apply not_0_INR in E; [assumption|lia].
Qed.

Lemma dft_idft n X k : (k < n)%nat -> dft n (idft n X) k = X k.
Proof.
  intros Hk. unfold idft, dft.
  rewrite (Csum_ext _ _ (fun t => Cmult (RtoC (/ INR n)) (Csum n (fun s => Cmult (X s) (w n (Z.of_nat t * (Z.of_nat s - Z.of_nat k))))))).
  2:{ intros t _. rewrite <- Cmult_assoc. f_equal. rewrite <- Csum_scal_r. apply Csum_ext. intros s _.
      rewrite <- Cmult_assoc, <- w_plus. f_equal. f_equal. lia. }
  rewrite Csum_scal, Csum_swap.
  rewrite (Csum_ext _ _ (fun s => Cmult (X s) (if (s =? k)%nat then RtoC (INR n) else RtoC 0))).
  2:{ intros s Hs. rewrite Csum_scal, w_orth by lia. f_equal.
      destruct (Nat.eqb_spec s k) as [->|N]; [rewrite Z.sub_diag, Z.mod_0_l by lia; reflexivity|].
      destruct (Z.eqb_spec ((Z.of_nat s - Z.of_nat k) mod Z.of_nat n) 0) as [E|]; [|reflexivity].
      exfalso; apply N. symmetry. apply (mod_diff_zero n); assumption. }
  rewrite (Csum_single n k) by (try assumption; intros i _ N; apply Nat.eqb_neq in N; rewrite N; ring).
  rewrite Nat.eqb_refl.
  rewrite RtoC_inv by (apply not_0_INR; lia). field.
  intros E. apply RtoC_inj in E. apply not_0_INR in E; [assumption|lia].
Qed.

Lemma dft_plus n x y k : dft n (fun t => Cplus (x t) (y t)) k = Cplus (dft n x k) (dft n y k).
Proof. unfold dft. rewrite <- Csum_plus. apply Csum_ext. intros; ring. Qed.
Lemma dft_scal n c x k : dft n (fun t => Cmult c (x t)) k = Cmult c (dft n x k).
Proof. unfold dft. rewrite <- Csum_scal. apply Csum_ext. intros; ring. Qed.
Lemma dft_ext n x y k : (forall t, (t < n)%nat -> x t = y t) -> dft n x k = dft n y k.
Proof. intros H. unfold dft. apply Csum_ext. intros; rewrite H by assumption; reflexivity. Qed.
Lemma rfft_plus n x y k : rfft n (fun t => x t + y t) k = Cplus (rfft n x k) (rfft n y k).
Proof. unfold rfft. rewrite <- dft_plus. apply dft_ext. intros; apply RtoC_plus. Qed.
Lemma rfft_scal n c x k : rfft n (fun t => c * x t) k = Cmult (RtoC c) (rfft n x k).
Proof. unfold rfft. rewrite <- dft_scal. apply dft_ext. intros; apply RtoC_mult. Qed.
Lemma rfft_ext n x y k : (forall t, (t < n)%nat -> x t = y t) -> rfft n x k = rfft n y k.
Proof. intros H. apply dft_ext. intros; rewrite H by assumption; reflexivity. Qed.

(** Hermitian symmetry of the transform of a real series *)
Lemma rfft_herm n x k : (k <= n)%nat -> rfft n x (n - k) = Cconj (rfft n x k).
Proof.
  intros H. destruct (Nat.eq_dec n 0) as [->|Hn]; [cbn; symmetry; apply Cconj_R|].
  unfold rfft, dft. rewrite Cconj_Csum. apply Csum_ext. intros t _.
  rewrite Cconj_mult, Cconj_R, <- w_opp. f_equal.
  rewrite <- (w_period n (- - (Z.of_nat k * Z.of_nat t)) (- Z.of_nat t)) by lia. f_equal.
  rewrite Nat2Z.inj_sub by assumption. ring.
Qed.

(** folding a symmetric sum over all bins onto the half spectrum *)
Lemma fold_half n (g : nat -> R) : (0 < n)%nat -> (forall k, (0 < k < n)%nat -> g (n - k)%nat = g k) ->
  Rsum n g = Rsum (rbins n) (fun k => hw n k * g k).
Proof.
  intros Hn Hg. unfold rbins.
  (* upper part: bins n/2+1 .. n-1 mirror 1 .. n - (n/2+1) *)
  replace n with ((n / 2 + 1) + (n - (n / 2 + 1)))%nat at 1 by lia.
  rewrite Rsum_app.
  rewrite (Rsum_ext (n - (n / 2 + 1)) _ (fun i => (fun j => g (S j)) ((n - (n / 2 + 1)) - 1 - i)%nat)).
  2:{ intros i Hi. rewrite <- Hg by lia. f_equal. lia. }
  rewrite (Rsum_rev (n - (n / 2 + 1)) (fun j => g (S j))).
  assert (E : exists m, (n = 2 * m + 1 \/ n = 2 * m + 2)%nat) by (exists ((n - 1) / 2)%nat; lia).
  destruct E as [m [E|E]].
  - replace (n / 2 + 1)%nat with (S m) by lia. replace (n - S m)%nat with m by lia.
    rewrite !Rsum_S_l. unfold hw at 1. cbn [Nat.eqb orb].
    rewrite (Rsum_ext m (fun i => hw n (S i) * g (S i)) (fun i => 2 * g (S i))).
    + rewrite Rsum_scal. lra.
    + intros i Hi. unfold hw. replace ((S i =? 0) || (2 * S i =? n))%nat with false by lia. reflexivity.
  - replace (n / 2 + 1)%nat with (S (S m)) by lia. replace (n - S (S m))%nat with m by lia.
    rewrite (Rsum_S_l (S m) g), (Rsum_S_l (S m) (fun k => hw n k * g k)). cbn [Rsum]. unfold hw at 1. cbn [Nat.eqb orb].
    rewrite (Rsum_ext m (fun i => hw n (S i) * g (S i)) (fun i => 2 * g (S i))).
    + rewrite Rsum_scal. unfold hw. replace ((S m =? 0) || (2 * S m =? n))%nat with true by lia. lra.
    + intros i Hi. unfold hw. replace ((S i =? 0) || (2 * S i =? n))%nat with false by lia. reflexivity.
Qed.

Lemma fold_half_idft n X t : (0 < n)%nat -> (forall k, (0 < k < n)%nat -> X (n - k)%nat = Cconj (X k)) ->
  irfft n X t = Re (idft n X t).
Proof.
  intros Hn HX. unfold irfft, idft. rewrite Re_scal, Re_Csum. f_equal. symmetry. apply fold_half; [assumption|].
  intros k Hk. rewrite HX by assumption.
  replace (w n (Z.of_nat (n - k) * Z.of_nat t)) with (Cconj (w n (Z.of_nat k * Z.of_nat t))).
  - rewrite <- Cconj_mult. reflexivity.
  - rewrite <- w_opp. rewrite <- (w_period n _ (Z.of_nat t)) by lia. f_equal. lia.
Qed.

Theorem irfft_rfft n x t : (t < n)%nat -> irfft n (rfft n x) t = x t.
Proof.
  intros Ht. rewrite fold_half_idft by (try lia; intros; apply rfft_herm; lia).
  unfold rfft. rewrite (idft_dft n (fun t => RtoC (x t))) by assumption. reflexivity.
Qed.

Lemma irfft_ext n X Y t : (forall k, (k < rbins n)%nat -> X k = Y k) -> irfft n X t = irfft n Y t.
Proof. intros H. unfold irfft. f_equal. apply Rsum_ext. intros k Hk. rewrite H by assumption. reflexivity. Qed.
Lemma irfft_plus n X Y t : irfft n (fun k => Cplus (X k) (Y k)) t = irfft n X t + irfft n Y t.
Proof.
  unfold irfft. rewrite <- Rmult_plus_distr_l, <- Rsum_plus. f_equal. apply Rsum_ext. intros k _.
  rewrite Cmult_plus_distr_r. unfold Re, Cplus; cbn [fst]. ring.
Qed.
Lemma irfft_scal n c X t : irfft n (fun k => Cmult (RtoC c) (X k)) t = c * irfft n X t.
Proof.
  unfold irfft. rewrite <- Rmult_assoc, (Rmult_comm c), Rmult_assoc. f_equal. rewrite <- Rsum_scal.
  apply Rsum_ext. intros k _. rewrite <- Cmult_assoc, Re_scal. ring.
Qed.

(** the Hermitian completion used by irfft *)
Definition hcomp (n : nat) (X : nat -> C) (k : nat) : C :=
  if (k =? 0)%nat then RtoC (Re (X 0%nat))
  else if (2 * k =? n)%nat then RtoC (Re (X k))
  else if (2 * k <? n)%nat then X k else Cconj (X (n - k)%nat).
Lemma w_half n k t : (2 * k = n)%nat -> (0 < n)%nat -> Im (w n (Z.of_nat k * Z.of_nat t)) = 0.
Proof.
  intros E Hn. unfold w, cis. cbn [Im snd].
  replace (2 * PI * IZR (Z.of_nat k * Z.of_nat t) / INR n) with (IZR (Z.of_nat t) * PI).
  - apply sin_eq_0_1. exists (Z.of_nat t). reflexivity.
  - rewrite mult_IZR, <- !INR_IZR_INZ, <- E, mult_INR. cbn [INR]. field. apply not_0_INR. lia.
Qed.
Lemma irfft_hcomp n X t : (0 < n)%nat -> irfft n X t = Re (idft n (hcomp n X) t).
Proof.
  intros Hn. rewrite <- fold_half_idft; [|assumption|].
  - unfold irfft. f_equal. apply Rsum_ext. intros k Hk. f_equal. unfold rbins in Hk. unfold hcomp.
    destruct (Nat.eqb_spec k 0) as [->|K0].
    { rewrite Z.mul_0_l, w_0. unfold Re, Cmult, RtoC; cbn. ring. }
    destruct (Nat.eqb_spec (2 * k) n) as [E|K1].
    { pose proof (w_half n k t E Hn) as H. destruct (w n (Z.of_nat k * Z.of_nat t)) as [a b]. cbn in H. subst b.
      unfold Re, Cmult, RtoC; cbn. ring. }
    destruct (Nat.ltb_spec (2 * k) n); [reflexivity|lia].
  - intros k Hk. unfold hcomp.
    replace (n - k =? 0)%nat with false by lia. replace (k =? 0)%nat with false by lia.
    destruct (Nat.eqb_spec (2 * k) n) as [E|K1].
    + replace (2 * (n - k) =? n)%nat with true by lia. replace (n - k)%nat with k by lia. symmetry; apply Cconj_R.
    + replace (2 * (n - k) =? n)%nat with false by lia.
      destruct (Nat.ltb_spec (2 * k) n).
      * replace (2 * (n - k) <? n)%nat with false by lia. replace (n - (n - k))%nat with k by lia. reflexivity.
      * replace (2 * (n - k) <? n)%nat with true by lia. rewrite Cconj_conj. reflexivity.
Qed.
Lemma idft_herm_real n X t : (0 < n)%nat -> Im (X 0%nat) = 0 -> (forall k, (0 < k < n)%nat -> X (n - k)%nat = Cconj (X k)) ->
  Im (idft n X t) = 0.
Proof.
  intros Hn H0 HX. unfold idft. rewrite Im_scal, Im_Csum.
  set (g := fun i => Im (Cmult (X i) (w n (Z.of_nat i * Z.of_nat t)))).
  assert (G : forall k, (0 < k < n)%nat -> g (n - k)%nat = - g k).
  { intros k Hk. unfold g. rewrite HX by assumption.
    replace (w n (Z.of_nat (n - k) * Z.of_nat t)) with (Cconj (w n (Z.of_nat k * Z.of_nat t))).
    - rewrite <- Cconj_mult. reflexivity.
    - rewrite <- w_opp. rewrite <- (w_period n _ (Z.of_nat t)) by lia. f_equal. lia. }
  assert (G0 : g 0%nat = 0).
  { unfold g. rewrite Z.mul_0_l, w_0, Cmult_1_r. assumption. }
  destruct n as [|m]; [lia|]. rewrite Rsum_S_l.
  assert (E : Rsum m (fun i => g (S i)) = - Rsum m (fun i => g (S i))).
  { rewrite <- Rsum_rev at 1. rewrite <- Rsum_opp. apply Rsum_ext. intros i Hi. rewrite <- G by lia. f_equal. lia. }
  fold g. rewrite G0. replace (Rsum m (fun i => g (S i))) with 0 by lra. ring.
Qed.
(** the transform of the inverse transform: every bin is reproduced, but DC and Nyquist lose their imaginary part *)
Theorem rfft_irfft n X k : (k < rbins n)%nat -> (0 < n)%nat ->
  rfft n (irfft n X) k = if ((k =? 0) || (2 * k =? n))%nat then RtoC (Re (X k)) else X k.
Proof.
  intros Hk Hn. unfold rfft.
  rewrite (dft_ext _ _ (idft n (hcomp n X))).
  - unfold rbins in Hk. destruct (Nat.ltb_spec k n) as [H|H].
    + rewrite dft_idft by assumption. unfold hcomp.
      destruct (Nat.eqb_spec k 0) as [->|K0]; [reflexivity|]. cbn [orb].
      destruct (Nat.eqb_spec (2 * k) n) as [E|K1]; [reflexivity|].
      replace (2 * k <? n)%nat with true by lia. reflexivity.
    + lia.
  - intros t _. rewrite irfft_hcomp by assumption.
    assert (I : Im (idft n (hcomp n X) t) = 0).
    { apply idft_herm_real; [assumption|reflexivity|].
      intros j Hj. unfold hcomp.
      replace (n - j =? 0)%nat with false by lia. replace (j =? 0)%nat with false by lia.
      destruct (Nat.eqb_spec (2 * j) n) as [E|K1].
      + replace (2 * (n - j) =? n)%nat with true by lia. replace (n - j)%nat with j by lia. symmetry; apply Cconj_R.
      + replace (2 * (n - j) =? n)%nat with false by lia.
        destruct (Nat.ltb_spec (2 * j) n).
        * replace (2 * (n - j) <? n)%nat with false by lia. replace (n - (n - j))%nat with j by lia. reflexivity.
        * replace (2 * (n - j) <? n)%nat with true by lia. rewrite Cconj_conj. reflexivity. }
    destruct (idft n (hcomp n X) t) as [a b]. cbn in I. subst b. reflexivity.
Qed.

(** ** circular shift *)
Lemma Csum_period_nat n (F : Z -> C) (d : nat) : (forall z, F (z + Z.of_nat n)%Z = F z) ->
  Csum n (fun t => F (Z.of_nat t + Z.of_nat d)%Z) = Csum n (fun t => F (Z.of_nat t)).
Proof.
  intros HF. induction d as [|d IH].
  - apply Csum_ext. intros; f_equal; lia.
  - rewrite <- IH. destruct n as [|m]; [reflexivity|].
    rewrite (Csum_S_l m (fun t => F (Z.of_nat t + Z.of_nat d)%Z)). cbn [Csum].
    replace (Z.of_nat m + Z.of_nat (S d))%Z with (Z.of_nat 0 + Z.of_nat d + Z.of_nat (S m))%Z by lia. rewrite HF.
    rewrite Cplus_comm. f_equal. apply Csum_ext. intros; f_equal; lia.
Qed.
Lemma Csum_period n (F : Z -> C) (d : Z) : (0 < n)%nat -> (forall z, F (z + Z.of_nat n)%Z = F z) ->
  Csum n (fun t => F (Z.of_nat t + d)%Z) = Csum n (fun t => F (Z.of_nat t)).
Proof.
  intros Hn HF.
  assert (HF2 : forall (m : nat) z, F (z + Z.of_nat m * Z.of_nat n)%Z = F z).
  { induction m; intros z; [f_equal; lia|]. rewrite <- (IHm z), <- (HF (z + Z.of_nat m * Z.of_nat n)%Z). f_equal. lia. }
  assert (HF3 : forall (m : Z) z, F (z + m * Z.of_nat n)%Z = F z).
  { intros m z. destruct (Z.le_ge_cases 0 m).
    - rewrite <- (HF2 (Z.to_nat m) z). f_equal. rewrite Z2Nat.id by lia. reflexivity.
    - rewrite <- (HF2 (Z.to_nat (- m)) (z + m * Z.of_nat n)%Z). f_equal. rewrite Z2Nat.id by lia. ring. }
  rewrite <- (Csum_period_nat n F (Z.to_nat (d mod Z.of_nat n)) HF).
  apply Csum_ext. intros t _.
  pose proof (Z.mod_pos_bound d (Z.of_nat n)). rewrite Z2Nat.id by lia.
  rewrite <- (HF3 (d / Z.of_nat n)%Z (Z.of_nat t + d mod Z.of_nat n)%Z). f_equal.
  pose proof (Z.div_mod d (Z.of_nat n)). lia.
Qed.
Lemma Rsum_period n (F : Z -> R) (d : Z) : (0 < n)%nat -> (forall z, F (z + Z.of_nat n)%Z = F z) ->
  Rsum n (fun t => F (Z.of_nat t + d)%Z) = Rsum n (fun t => F (Z.of_nat t)).
Proof.
  intros Hn HF. apply RtoC_inj. rewrite <- !Csum_RtoC.
  apply (Csum_period n (fun z => RtoC (F z))); [assumption|]. intros; f_equal; apply HF.
Qed.
(** reading a series at a circularly shifted time *)
Definition croll {A} (n : nat) (d : Z) (x : nat -> A) (t : nat) : A :=
  x (Z.to_nat ((Z.of_nat t - d) mod Z.of_nat n)).
Lemma dft_shift n x d k : (0 < n)%nat -> dft n (croll n d x) k = Cmult (w n (- (Z.of_nat k * d))) (dft n x k).
Proof.
  intros Hn. unfold dft, croll.
  set (F := fun z => Cmult (x (Z.to_nat ((z - d) mod Z.of_nat n))) (w n (- (Z.of_nat k * z)))).
  rewrite (Csum_ext _ _ (fun t => F (Z.of_nat t))) by reflexivity.
  rewrite <- (Csum_period n F d Hn).
  - rewrite <- Csum_scal. apply Csum_ext. intros t Ht. unfold F.
    replace (Z.of_nat t + d - d)%Z with (Z.of_nat t) by ring. rewrite Z.mod_small, Nat2Z.id by lia.
    replace (- (Z.of_nat k * (Z.of_nat t + d)))%Z with (- (Z.of_nat k * d) + - (Z.of_nat k * Z.of_nat t))%Z by ring.
    rewrite w_plus. ring.
  - intros z. unfold F. f_equal.
    + f_equal. f_equal. replace (z + Z.of_nat n - d)%Z with (z - d + 1 * Z.of_nat n)%Z by ring. apply Z.mod_add. lia.
    + replace (- (Z.of_nat k * (z + Z.of_nat n)))%Z with (- (Z.of_nat k * z) + Z.of_nat n * (- Z.of_nat k))%Z by ring.
      apply w_period. assumption.
Qed.
Lemma rfft_shift n x d k : (0 < n)%nat -> rfft n (croll n d x) k = Cmult (w n (- (Z.of_nat k * d))) (rfft n x k).
Proof. intros H. unfold rfft. rewrite <- dft_shift by assumption. reflexivity. Qed.

(** ** convolution *)
Definition cconv (n : nat) (x y : nat -> R) (t : nat) : R := Rsum n (fun a => x a * croll n (Z.of_nat a) y t).
Theorem rfft_cconv n x y k : (0 < n)%nat -> rfft n (cconv n x y) k = Cmult (rfft n x k) (rfft n y k).
Proof.
  intros Hn. unfold rfft at 1, dft, cconv.
  rewrite (Csum_ext _ _ (fun t => Csum n (fun a => Cmult (RtoC (x a)) (Cmult (RtoC (croll n (Z.of_nat a) y t)) (w n (- (Z.of_nat k * Z.of_nat t))))))).
  2:{ intros t _. rewrite <- Csum_RtoC, <- Csum_scal_r. apply Csum_ext. intros a _. rewrite RtoC_mult. ring. }
  rewrite Csum_swap.
  rewrite (Csum_ext _ _ (fun a => Cmult (Cmult (RtoC (x a)) (w n (- (Z.of_nat k * Z.of_nat a)))) (rfft n y k))).
  - rewrite Csum_scal_r. reflexivity.
  - intros a _. rewrite Csum_scal. rewrite <- Cmult_assoc. f_equal.
    rewrite <- rfft_shift by assumption. reflexivity.
Qed.
Theorem irfft_mult n x y t : (t < n)%nat -> irfft n (fun k => Cmult (rfft n x k) (rfft n y k)) t = cconv n x y t.
Proof.
  intros Ht. rewrite <- (irfft_rfft n (cconv n x y) t) by assumption.
  apply irfft_ext. intros k _. symmetry. apply rfft_cconv. lia.
Qed.

(** ** Parseval *)
Theorem dft_parseval n x : (0 < n)%nat ->
  Rsum n (fun k => Cmod (dft n x k) ^ 2) = INR n * Rsum n (fun t => Cmod (x t) ^ 2).
Proof.
  intros Hn. apply RtoC_inj. rewrite <- Csum_RtoC.
  rewrite (Csum_ext _ _ (fun k => Csum n (fun t => Cmult (Cmult (Cconj (x t)) (w n (Z.of_nat k * Z.of_nat t))) (dft n x k)))).
  2:{ intros k _. rewrite Csum_scal_r, Cmod_sq_conj, Cmult_comm. f_equal.
      unfold dft. rewrite Cconj_Csum. apply Csum_ext. intros t _. rewrite Cconj_mult, <- w_opp. f_equal. f_equal. ring. }
  rewrite Csum_swap.
  rewrite (Csum_ext _ _ (fun t => Cmult (RtoC (INR n)) (RtoC (Cmod (x t) ^ 2)))).
  - rewrite Csum_scal, Csum_RtoC, RtoC_mult. reflexivity.
  - intros t Ht.
    rewrite (Csum_ext _ _ (fun k => Cmult (Cconj (x t)) (Cmult (dft n x k) (w n (Z.of_nat k * Z.of_nat t))))) by (intros; ring).
    rewrite Csum_scal. pose proof (idft_dft n x t Ht) as E. unfold idft in E.
    rewrite Cmod_sq_conj. rewrite <- E at 2.
    rewrite RtoC_inv by (apply not_0_INR; lia). field.
    intros E0. apply RtoC_inj in E0. apply not_0_INR in E0; [assumption|lia].
Qed.
Theorem rfft_parseval n x : (0 < n)%nat ->
  Rsum (rbins n) (fun k => hw n k * Cmod (rfft n x k) ^ 2) = INR n * Rsum n (fun t => x t ^ 2).
Proof.
  intros Hn. rewrite <- (fold_half n (fun k => Cmod (rfft n x k) ^ 2)); [|assumption|].
  - unfold rfft. rewrite dft_parseval by assumption. f_equal. apply Rsum_ext. intros t _.
    rewrite Cmod_R, pow2_abs. reflexivity.
  - intros k Hk. rewrite rfft_herm, Cmod_conj by lia. reflexivity.
Qed.

Lemma Int_part_unique (z : Z) r : IZR z <= r < IZR z + 1 -> Int_part r = z.
Proof.
  intros H. destruct (base_Int_part r) as [A B].
  assert (Int_part r < z + 1)%Z by (apply lt_IZR; rewrite plus_IZR; lra).
  assert (z < Int_part r + 1)%Z by (apply lt_IZR; rewrite plus_IZR; lra).
  lia.
Qed.
