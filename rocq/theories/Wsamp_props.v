(** C45: WaveformSampler and WaveformProjector. *)
From Coq Require Import String.
From Verif Require Import Base Tensor Rutil Slicing_model Slicing_proofs2 Norm_props Gw_model Gw_spec Gw_props Ifo_props Wsamp_model.
Local Open Scope nat_scope.

(** a set of [n] waveforms: every polarization (and the parameter table) has n rows *)
Definition rows {A} (n : nat) (t : tensor A) : Prop := exists rest, shape t = n :: rest.
(** r is made of the rows j 0, ..., j (N-1) of v *)
Definition picked {A} (N : nat) (j : nat -> nat) (v r : tensor A) : Prop :=
  exists n rest, shape v = n :: rest /\ shape r = N :: rest /\ forall a i, a < N -> get r (a :: i) = get v (j a :: i).

Lemma ws_loop_some {A} n (pols : list (string * tensor A)) : (forall k t, In (k, t) pols -> ndim t <> 0) ->
  ((forall k t, In (k, t) pols -> rows n t) -> ws_loop pols (Some n) = Ok (Some n)) /\
  (~ (forall k t, In (k, t) pols -> rows n t) -> ws_loop pols (Some n) = Err ValueError).
Proof.
  induction pols as [|[k t] pols IH]; intros HD.
  - split; [reflexivity|]. intros H. exfalso. apply H. intros ? ? [].
  - cbn [ws_loop]. unfold py_len. pose proof (HD k t (or_introl eq_refl)) as H0. unfold ndim in H0.
    destruct (shape t) as [|d rest] eqn:Et; [cbn in H0; lia|]. cbn [bind].
    destruct (IH (fun k' t' Hin => HD k' t' (or_intror Hin))) as [I1 I2].
    destruct (Nat.eqb_spec d n) as [->|N]; cbn [negb].
    + split.
      * intros H. apply I1. intros; eapply H; right; eassumption.
      * intros H. apply I2. intros H'. apply H. intros k' t' [E|Hin]; [injection E as <- <-; exists rest; exact Et|eapply H'; eassumption].
    + split; [|reflexivity]. intros H. destruct (H k t (or_introl eq_refl)) as [r' Er]. congruence.
Qed.
(** construction succeeds exactly when all polarizations and the parameters have the same number of waveforms *)
Theorem waveform_sampler_create {A} params (k0 : string) (t0 : tensor A) pols n : rows n t0 ->
  (forall k t, In (k, t) pols -> ndim t <> 0) -> (forall p, params = Some p -> ndim p <> 0) ->
  let all := (forall k t, In (k, t) pols -> rows n t) /\ (forall p, params = Some p -> rows n p) in
  (all -> ws_create params ((k0, t0) :: pols) = Ok (mkws ((k0, t0) :: pols) params (Some n))) /\
  (~ all -> ws_create params ((k0, t0) :: pols) = Err ValueError).
Proof.
  intros [r0 E0] HD HP all. unfold ws_create. cbn [ws_loop]. rewrite E0. destruct (ws_loop_some n pols HD) as [W1 W2]. split.
  - intros [H1 H2]. rewrite (W1 H1). cbn [bind]. destruct params as [p|]; [|reflexivity]. destruct (H2 p eq_refl) as [r Er]. unfold py_len. rewrite Er. cbn [bind].
    rewrite Nat.eqb_refl. reflexivity.
  - intros H.
    assert (DD : (forall k t, In (k, t) pols -> rows n t) \/ ~ (forall k t, In (k, t) pols -> rows n t)).
    { clear - HD. induction pols as [|[k t] pols IH]; [left; intros ? ? []|].
      destruct IH as [I|I]; [intros; eapply HD; right; eassumption| |].
      - pose proof (HD k t (or_introl eq_refl)) as H0. unfold ndim in H0. destruct (shape t) as [|d rest] eqn:Et; [cbn in H0; lia|].
        destruct (Nat.eq_dec d n) as [->|N].
        + left. intros k' t' [E|Hin]; [injection E as <- <-; exists rest; exact Et|eapply I, Hin].
        + right. intros H. destruct (H k t (or_introl eq_refl)) as [r' Er]. congruence.
      - right. intros H. apply I. intros; eapply H; right; eassumption. }
    destruct DD as [D|D]; [|rewrite (W2 D); reflexivity]. rewrite (W1 D). cbn [bind]. destruct params as [p|].
    + pose proof (HP p eq_refl) as H0. unfold ndim in H0. unfold py_len. destruct (shape p) as [|d rest] eqn:Ep; [cbn in H0; lia|]. cbn [bind].
      destruct (Nat.eqb_spec d n) as [->|N]; [|reflexivity]. exfalso. apply H. split; [exact D|]. intros p' E. injection E as <-. exists rest. exact Ep.
    + exfalso. apply H. split; [exact D|]. intros; discriminate.
Qed.

(** reading rows by number: a number k counts from the end when negative (so that it means row k mod n), and one outside
    -n .. n-1 raises IndexError *)
Theorem index_rows_spec {A} (v : tensor A) idx N n rest : shape v = n :: rest -> shape idx = [N] ->
  ((forall a, a < N -> (- Z.of_nat n <= elt idx [a] < Z.of_nat n)%Z) ->
     exists r, index_rows v idx = Ok r /\ shape r = N :: rest /\ forall a i, a < N -> get r (a :: i) = get v (Z.to_nat (elt idx [a] mod Z.of_nat n) :: i)) /\
  ((exists a, a < N /\ ~ (- Z.of_nat n <= elt idx [a] < Z.of_nat n)%Z) -> index_rows v idx = Err IndexError).
Proof.
  intros Sv Si. unfold index_rows. rewrite Sv. split.
  - intros H. replace (forallb _ _) with true.
    2:{ symmetry. apply forallb_all_idx. intros i Hi. rewrite Si in Hi. destruct i as [|a [|? ?]]; cbn in Hi; try tauto. destruct Hi as [Hi _]. specialize (H a Hi). lia. }
    eexists. split; [reflexivity|]. cbn [shape]. rewrite Si. split; [reflexivity|]. intros a i Ha.
    pose proof (H a Ha) as Hk. unfold get at 1. cbn [shape elt app].
    assert (E : (if (elt idx [a] <? 0)%Z then elt idx [a] + Z.of_nat n else elt idx [a])%Z = (elt idx [a] mod Z.of_nat n)%Z).
    { destruct (Z.ltb_spec (elt idx [a]) 0); [|symmetry; apply Z.mod_small; lia]. rewrite <- (Z_mod_plus_full (elt idx [a]) 1). symmetry. rewrite Z.mul_1_l. apply Z.mod_small. lia. }
    rewrite E. pose proof (Z.mod_pos_bound (elt idx [a]) (Z.of_nat n)).
    unfold get. rewrite Sv. cbn [app inbb]. replace (a <? N) with true by lia. replace (Z.to_nat (elt idx [a] mod Z.of_nat n) <? n) with true by lia. reflexivity.
  - intros [a [Ha Hk]]. replace (forallb _ _) with false; [reflexivity|]. symmetry. destruct (forallb _ _) eqn:F; [|reflexivity]. exfalso.
    rewrite forallb_all_idx in F. specialize (F [a]). rewrite Si in F. cbn [inb] in F. specialize (F (conj Ha I)). lia.
Qed.
Lemma index_rows_picked {A} (v : tensor A) idx N n rest : shape v = n :: rest -> shape idx = [N] -> (forall a, a < N -> (0 <= elt idx [a] < Z.of_nat n)%Z) ->
  exists r, index_rows v idx = Ok r /\ picked N (fun a => Z.to_nat (elt idx [a])) v r.
Proof.
  intros Sv Si H. unfold index_rows. rewrite Sv. replace (forallb _ _) with true.
  2:{ symmetry. apply forallb_all_idx. intros i Hi. rewrite Si in Hi. destruct i as [|a [|? ?]]; cbn in Hi; try tauto. destruct Hi as [Hi _]. specialize (H a Hi). lia. }
  eexists. split; [reflexivity|]. exists n, rest. split; [exact Sv|]. cbn [shape]. rewrite Si. split; [reflexivity|]. intros a i Ha.
  pose proof (H a Ha) as Hk. unfold get at 1. cbn [shape elt app]. replace (elt idx [a] <? 0)%Z with false by lia.
  unfold get. rewrite Sv. cbn [app inbb]. replace (a <? N) with true by lia. replace (Z.to_nat (elt idx [a]) <? n) with true by lia. reflexivity.
Qed.

Section Fwd.
  Context {A : Type}.
  Variables (s : wsampler A) (n : nat).
  Hypothesis (Hn : ws_num s = Some n) (HR : forall k t, In (k, t) (ws_pols s) -> rows n t) (HP : forall p, ws_params s = Some p -> rows n p).
  Definition aligned (N : nat) (j : nat -> nat) (out : list (string * tensor A) * option (tensor A)) : Prop :=
    Forall2 (fun kv kr => fst kr = fst kv /\ picked N j (snd kv) (snd kr)) (ws_pols s) (fst out) /\
    match ws_params s, snd out with Some p, Some q => picked N j p q | None, None => True | _, _ => False end.
  Lemma forward_rows idx N : shape idx = [N] -> (forall a, a < N -> (0 <= elt idx [a] < Z.of_nat n)%Z) ->
    exists w q, sequence (map (fun kv => let* r := index_rows (snd kv) idx in Ok (fst kv, r)) (ws_pols s)) = Ok w /\
      match ws_params s with Some p => let* q := index_rows p idx in Ok (w, Some q) | None => Ok (w, None) end = Ok (w, q) /\ aligned N (fun a => Z.to_nat (elt idx [a])) (w, q).
  Proof using All.
    intros Si H. unfold aligned. destruct s as [pols params num]. cbn [ws_pols ws_params ws_num] in *.
    assert (W : exists w, sequence (map (fun kv => let* r := index_rows (snd kv) idx in Ok (fst kv, r)) pols) = Ok w /\
       Forall2 (fun kv kr => fst kr = fst kv /\ picked N (fun a => Z.to_nat (elt idx [a])) (snd kv) (snd kr)) pols w).
    { clear HP. induction pols as [|[k t] pols IH]; [exists []; split; [reflexivity|constructor]|].
      destruct IH as [w [E F]]; [intros; eapply HR; right; eassumption|].
      destruct (HR k t (or_introl eq_refl)) as [rest St]. destruct (index_rows_picked t idx N n rest St Si H) as [r [Er Pr]].
      exists ((k, r) :: w). cbn [map sequence fst snd]. rewrite Er. cbn [bind]. rewrite E. cbn [bind]. split; [reflexivity|]. constructor; [split; [reflexivity|exact Pr]|exact F]. }
    destruct W as [w [E F]]. exists w. rewrite E. destruct params as [p|].
    - destruct (HP p eq_refl) as [rest St]. destruct (index_rows_picked p idx N n rest St Si H) as [r [Er Pr]]. exists (Some r). rewrite Er. repeat split; assumption.
    - exists None. repeat split; assumption.
  Qed.
  (** a draw of N waveforms: every polarization and the parameters are read at the same N rows, all in range *)
  Theorem waveform_sampler_aligned (N : nat) rng : 0 < n -> N <= n -> exists out j, ws_forward s (Z.of_nat N) rng = Ok out /\
    (forall a, a < N -> j a < n) /\ aligned N j out.
  Proof using All.
    intros Hp HN. unfold ws_forward. rewrite Hn. replace (Z.of_nat n <? Z.of_nat N)%Z with false by lia. replace (Z.of_nat N =? -1)%Z with false by lia.
    destruct (randint_z_ok 0 (Z.of_nat n) [N] rng ltac:(lia)) as [idx [E [Si Ei]]]. cbn [map] in E. rewrite E. cbn [bind].
    assert (R : forall a, (0 <= elt idx [a] < Z.of_nat n)%Z) by (intros a; rewrite Ei; pose proof (Z.mod_pos_bound (rng [a]) (Z.of_nat n - 0)); lia).
    destruct (forward_rows idx N Si ltac:(auto)) as [w [q [E1 [E2 AL]]]]. rewrite E1. cbn [bind]. rewrite E2. eexists _, _. split; [reflexivity|]. split; [|exact AL].
    intros a _. cbv beta. specialize (R a). lia.
  Qed.
  (** every choice of rows can be drawn; in particular the same waveform N times: sampling is with replacement *)
  Theorem waveform_sampler_reachable (N : nat) (j : nat -> nat) : N <= n -> (forall a, a < N -> j a < n) -> 0 < n ->
    exists rng out, ws_forward s (Z.of_nat N) rng = Ok out /\ aligned N j out.
  Proof using All.
    intros HN Hj Hp. exists (fun i => Z.of_nat (j (nth 0 i 0))). unfold ws_forward. rewrite Hn. replace (Z.of_nat n <? Z.of_nat N)%Z with false by lia. replace (Z.of_nat N =? -1)%Z with false by lia.
    set (rng := fun i => Z.of_nat (j (nth 0 i 0))).
    destruct (randint_z_ok 0 (Z.of_nat n) [N] rng ltac:(lia)) as [idx [E [Si Ei]]]. cbn [map] in E. rewrite E. cbn [bind].
    assert (R : forall a, a < N -> elt idx [a] = Z.of_nat (j a)) by (intros a Ha; rewrite Ei; unfold rng; cbn [nth]; specialize (Hj a Ha); rewrite Z.mod_small; lia).
    destruct (forward_rows idx N Si) as [w [q [E1 [E2 [A1 A2]]]]]; [intros a Ha; rewrite (R a Ha); specialize (Hj a Ha); lia|].
    rewrite E1. cbn [bind]. rewrite E2. eexists. split; [reflexivity|].
    assert (PE : forall v r : tensor A, picked N (fun a => Z.to_nat (elt idx [a])) v r -> picked N j v r).
    { intros v r [n' [rest [S1 [S2 G]]]]. exists n', rest. split; [exact S1|]. split; [exact S2|]. intros a i Ha. rewrite G by assumption. rewrite R, Nat2Z.id by assumption. reflexivity. }
    split; [|cbn [snd] in *; destruct (ws_params s), q; auto].
    cbn [fst] in *. clear - A1 PE. induction A1 as [|? ? ? ? [H1 H2]]; constructor; auto.
  Qed.
  (** N = -1 returns every waveform, in order; other N outside 0..n raise *)
  Theorem waveform_sampler_all rng : exists out, ws_forward s (-1) rng = Ok out /\ aligned n (fun a => a) out.
  Proof using All.
    unfold ws_forward. rewrite Hn. replace (Z.of_nat n <? -1)%Z with false by lia. change (-1 =? -1)%Z with true. cbv iota. cbn [bind].
    destruct (forward_rows (mk [n] (fun i => Z.of_nat (nth 0 i 0))) n eq_refl) as [w [q [E1 [E2 [A1 A2]]]]]; [intros a Ha; cbn [elt nth]; lia|].
    rewrite E1. cbn [bind]. rewrite E2. eexists. split; [reflexivity|].
    assert (PE : forall v r : tensor A, picked n (fun a => Z.to_nat (elt (mk [n] (fun i => Z.of_nat (nth 0 i 0))) [a])) v r -> picked n (fun a => a) v r).
    { intros v r [n' [rest [S1 [S2 G]]]]. exists n', rest. split; [exact S1|]. split; [exact S2|]. intros a i Ha. rewrite G by assumption. cbn [elt nth]. rewrite Nat2Z.id. reflexivity. }
    split; [|cbn [snd] in *; destruct (ws_params s), q; auto].
    cbn [fst] in *. clear - A1 PE. induction A1 as [|? ? ? ? [H1 H2]]; constructor; auto.
  Qed.
  Theorem waveform_sampler_errors N rng : ((Z.of_nat n < N)%Z -> ws_forward s N rng = Err ValueError) /\ ((N < -1)%Z -> ws_forward s N rng = Err RuntimeError).
  Proof using Hn.
    unfold ws_forward. rewrite Hn. split; intros H.
    - replace (Z.of_nat n <? N)%Z with true by lia. reflexivity.
    - replace (Z.of_nat n <? N)%Z with false by lia. replace (N =? -1)%Z with false by lia. unfold randint_z. cbn [existsb]. replace (N <? 0)%Z with true by lia. reflexivity.
  Qed.
End Fwd.

(** the documented intent "only n are available" notwithstanding, a draw of two may return one waveform twice *)
Theorem waveform_sampler_repeats {A} (s : wsampler A) n N : ws_num s = Some n -> (forall k t, In (k, t) (ws_pols s) -> rows n t) -> (forall p, ws_params s = Some p -> rows n p) ->
  0 < n -> N <= n -> exists rng out, ws_forward s (Z.of_nat N) rng = Ok out /\ aligned s N (fun _ => 0) out.
Proof. intros H1 H2 H3 Hp HN. apply (waveform_sampler_reachable s n H1 H2 H3 N (fun _ => 0)); auto. Qed.

(** ** WaveformProjector *)
(** for known detectors: one response per detector, the sum over the polarizations of antenna factor times waveform delayed by
    the detector's light travel time; unknown detectors raise at construction *)
Theorem projector_spec ifos sr dec psi phi pols B Bp T : ifos <> [] -> (forall f, In f ifos -> known_ifo f) ->
  shape dec = [B] -> shape psi = [B] -> shape phi = [B] ->
  pols <> [] -> (forall mode h, In (mode, h) pols -> known_mode mode /\ shape h = [Bp; T]) -> (B = Bp \/ Bp = 1 \/ B = 1 /\ 0 < Bp) ->
  exists D V m r, get_ifo_geometry ifos = Ok (D, V) /\ proj_create ifos sr = Ok m /\ proj_forward m dec psi phi pols = Ok r /\ shape r = [B; List.length ifos; T] /\
    forall b i t, b < B -> i < List.length ifos -> t < T -> get r [b; i; t] = Some (strain_at dec psi phi D V sr pols Bp T b i t).
Proof.
  intros Hne Hk Sd Ss Sp Hpn Hp HB. destruct (get_ifo_geometry_spec ifos Hne Hk) as [D [V [E [SD [SV _]]]]].
  destruct (observed_strain_spec dec psi phi D V sr pols B Bp (List.length ifos) T Sd Ss Sp SD SV Hpn Hp HB) as [r [Er [Sr Gr]]].
  exists D, V, (mkproj sr D V), r. split; [exact E|]. unfold proj_create. rewrite E. cbn [bind]. split; [reflexivity|]. split; [exact Er|]. split; [exact Sr|exact Gr].
Qed.
Theorem projector_errors ifos sr : (ifos = [] -> proj_create ifos sr = Err RuntimeError) /\ ((exists f, In f ifos /\ ~ known_ifo f) -> proj_create ifos sr = Err ValueError).
Proof. destruct (get_ifo_geometry_errors ifos) as [H1 H2]. unfold proj_create. split; intros H; [rewrite (H1 H)|rewrite (H2 H)]; reflexivity. Qed.

(** ** non-vacuity *)
Example ws_ex : let s := mkws [("plus"%string, mk [3; 2] (fun i => nth 0 i 0)); ("cross"%string, mk [3; 4] (fun i => nth 0 i 0))] (Some (mk [3; 1] (fun i => nth 0 i 0))) (Some 3) in
  ws_create (Some (mk [3; 1] (fun i => nth 0 i 0))) [("plus"%string, mk [3; 2] (fun i => nth 0 i 0)); ("cross"%string, mk [3; 4] (fun i => nth 0 i 0))] = Ok s /\
  match ws_forward s 2 (fun i => match i with [0] => 2%Z | _ => 1%Z end) with
  | Ok ([(_, p); (_, c)], Some q) => get p [0; 1] = Some 2 /\ get c [0; 3] = Some 2 /\ get q [0; 0] = Some 2 /\ get q [1; 0] = Some 1 | _ => False end.
Proof. vm_compute. repeat split. Qed.
(** no polarizations at all: construction succeeds without parameters, and every request then fails; 0-dimensional tensors *)
Theorem waveform_sampler_degenerate {A} :
  (forall (p : tensor A), ndim p <> 0 -> ws_create (Some p) [] = Err ValueError) /\ (forall (p : tensor A), ndim p = 0 -> ws_create (Some p) [] = Err TypeError) /\
  (exists s, @ws_create A None [] = Ok s /\ forall N rng, ws_forward s N rng = Err TypeError) /\
  (forall params k (t : tensor A) pols, ndim t = 0 -> ws_create params ((k, t) :: pols) = Err IndexError) /\
  (forall params k0 k (t0 t : tensor A) pols, ndim t0 <> 0 -> ndim t = 0 -> ws_create params ((k0, t0) :: (k, t) :: pols) = Err TypeError) /\
  (forall k0 (t0 p : tensor A), ndim t0 <> 0 -> ndim p = 0 -> ws_create (Some p) [(k0, t0)] = Err TypeError).
Proof.
  split; [|split; [|split; [|split; [|split]]]].
  - intros p H. unfold ws_create. cbn [ws_loop bind]. unfold py_len, ndim in *. destruct (shape p); [contradiction|reflexivity].
  - intros p H. unfold ws_create. cbn [ws_loop bind]. unfold py_len, ndim in *. destruct (shape p); [reflexivity|discriminate].
  - eexists. split; [reflexivity|]. reflexivity.
  - intros params k t pols H. unfold ws_create. cbn [ws_loop]. unfold ndim in H. destruct (shape t); [reflexivity|discriminate].
  - intros params k0 k t0 t pols H0 H. unfold ws_create. cbn [ws_loop]. unfold py_len, ndim in *. destruct (shape t0); [contradiction|]. destruct (shape t); [reflexivity|discriminate].
  - intros k0 t0 p H0 H. unfold ws_create. cbn [ws_loop]. unfold py_len, ndim in *. destruct (shape t0); [contradiction|]. cbn [bind]. destruct (shape p); [reflexivity|discriminate].
Qed.
