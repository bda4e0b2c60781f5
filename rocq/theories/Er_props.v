(** The extended arithmetic of Dist2_model against Coquelicot's extended reals: the specification of the helpers used in C77 and C78. *)
From Coq Require Import Reals Lra Lia.
From Verif Require Import Base Dist2_model.
From Coquelicot Require Import Rbar Lim_seq Continuity Hierarchy Derive ElemFct.
Local Open Scope R_scope.
(** None: not a number *)
Definition val (a : er) : option Rbar := match a with EF x => Some (Finite x) | EP => Some p_infty | EM => Some m_infty | EN => None end.
Definition lift2 (f : Rbar -> Rbar -> option Rbar) (a b : er) : option Rbar := match val a, val b with Some x, Some y => f x y | _, _ => None end.
Theorem eadd_spec a b : val (eadd a b) = lift2 Rbar_plus' a b.
Proof. destruct a, b; reflexivity. Qed.
Theorem esub_spec a b : val (esub a b) = lift2 (fun x y => Rbar_plus' x (Rbar_opp y)) a b.
Proof. destruct a, b; reflexivity. Qed.
Lemma sgn_inf_cases x : (0 < x /\ sgn_inf x = EP) \/ (x < 0 /\ sgn_inf x = EM) \/ (x = 0 /\ sgn_inf x = EN).
Proof. unfold sgn_inf. destruct (Rlt_dec 0 x); [auto|]. destruct (Rlt_dec x 0); [auto|]. right; right. split; [lra|reflexivity]. Qed.
Lemma mult_inf x : Rbar_mult' (Finite x) p_infty = val (sgn_inf x) /\ Rbar_mult' p_infty (Finite x) = val (sgn_inf x) /\
  Rbar_mult' (Finite x) m_infty = val (sgn_inf (- x)) /\ Rbar_mult' m_infty (Finite x) = val (sgn_inf (- x)).
Proof.
  destruct (sgn_inf_cases x) as [[H E]|[[H E]|[H E]]]; rewrite E; destruct (sgn_inf_cases (- x)) as [[H' E']|[[H' E']|[H' E']]]; try (exfalso; lra); rewrite E'; unfold Rbar_mult', Rbar_opp;
    destruct (Rle_dec 0 x) as [L|L]; try (exfalso; lra); try (destruct (Rle_lt_or_eq_dec 0 x L); try (exfalso; lra)); auto.
Qed.
Theorem emul_spec a b : val (emul a b) = lift2 Rbar_mult' a b.
Proof. destruct a as [x| | |], b as [y| | |]; try reflexivity; cbn [emul]; unfold lift2; cbn [val]; try (destruct (mult_inf x) as (A & B & C & D)); try (destruct (mult_inf y) as (A' & B' & C' & D')); congruence. Qed.
(** division by a number other than zero; 1/0 = inf, -1/0 = -inf, 0/0 = NaN with the one zero of the model *)
Theorem ediv_spec a b : b <> EF 0 -> val (ediv a b) = lift2 (fun x y => Rbar_mult' x (Rbar_inv y)) a b.
Proof.
  intros Hb. destruct a as [x| | |], b as [y| | |]; try reflexivity; cbn [ediv]; unfold lift2; cbn [val Rbar_inv].
  - destruct (Req_EM_T y 0) as [->|N]; [congruence|]. reflexivity.
  - cbn. f_equal. f_equal. ring.
  - cbn. f_equal. f_equal. ring.
  - destruct (mult_inf (/ y)) as (_ & -> & _). assert (N : y <> 0) by congruence. destruct (Rlt_dec y 0) as [L|L].
    + pose proof (Rinv_lt_0_compat _ L). destruct (sgn_inf_cases (/ y)) as [[? E]|[[? E]|[? E]]]; try (exfalso; lra). rewrite E. reflexivity.
    + pose proof (Rinv_0_lt_compat y ltac:(lra)). destruct (sgn_inf_cases (/ y)) as [[? E]|[[? E]|[? E]]]; try (exfalso; lra). rewrite E. reflexivity.
  - destruct (mult_inf 0) as (_ & -> & _). destruct (sgn_inf_cases 0) as [[? E]|[[? E]|[? E]]]; try (exfalso; lra). rewrite E. reflexivity.
  - destruct (mult_inf 0) as (_ & -> & _). destruct (sgn_inf_cases 0) as [[? E]|[[? E]|[? E]]]; try (exfalso; lra). rewrite E. reflexivity.
  - destruct (mult_inf (/ y)) as (_ & _ & _ & ->). assert (N : y <> 0) by congruence. destruct (Rlt_dec y 0) as [L|L].
    + pose proof (Rinv_lt_0_compat _ L). destruct (sgn_inf_cases (- / y)) as [[? E]|[[? E]|[? E]]]; try (exfalso; lra). rewrite E. reflexivity.
    + pose proof (Rinv_0_lt_compat y ltac:(lra)). destruct (sgn_inf_cases (- / y)) as [[? E]|[[? E]|[? E]]]; try (exfalso; lra). rewrite E. reflexivity.
  - destruct (mult_inf 0) as (_ & _ & _ & ->). destruct (sgn_inf_cases (- 0)) as [[? E]|[[? E]|[? E]]]; try (exfalso; lra). rewrite E. reflexivity.
  - destruct (mult_inf 0) as (_ & _ & _ & ->). destruct (sgn_inf_cases (- 0)) as [[? E]|[[? E]|[? E]]]; try (exfalso; lra). rewrite E. reflexivity.
Qed.
Theorem ediv_zero x : ediv (EF x) (EF 0) = sgn_inf x.
Proof. cbn. destruct (Req_EM_T 0 0); [reflexivity|lra]. Qed.
Theorem ele_spec a b : ele a b = true <-> exists x y, val a = Some x /\ val b = Some y /\ Rbar_le x y.
Proof.
  destruct a as [x| | |], b as [y| | |]; cbn [ele val];
   try (split; [discriminate|intros (u & v & E1 & E2 & H); try discriminate; injection E1 as <-; injection E2 as <-; cbn in H; tauto]);
   try (split; [intros _; do 2 eexists; split; [reflexivity|split; [reflexivity|exact I]]|reflexivity]).
  destruct (Rle_dec x y) as [L|L]; split; try discriminate.
  - intros _. do 2 eexists. split; [reflexivity|split; [reflexivity|exact L]].
  - reflexivity.
  - intros (u & v & E1 & E2 & H). injection E1 as <-. injection E2 as <-. cbn in H. lra.
Qed.
Theorem elt_spec a b : elt a b = true <-> exists x y, val a = Some x /\ val b = Some y /\ Rbar_lt x y.
Proof.
  destruct a as [x| | |], b as [y| | |]; cbn [elt val];
   try (split; [discriminate|intros (u & v & E1 & E2 & H); try discriminate; injection E1 as <-; injection E2 as <-; cbn in H; tauto]);
   try (split; [intros _; do 2 eexists; split; [reflexivity|split; [reflexivity|exact I]]|reflexivity]).
  destruct (Rlt_dec x y) as [L|L]; split; try discriminate.
  - intros _. do 2 eexists. split; [reflexivity|split; [reflexivity|exact L]].
  - reflexivity.
  - intros (u & v & E1 & E2 & H). injection E1 as <-. injection E2 as <-. cbn in H. lra.
Qed.
Theorem eneg_spec a : val (eneg a) = option_map Rbar_opp (val a).
Proof. destruct a; reflexivity. Qed.
Theorem eabs_spec a : val (eabs a) = option_map Rbar_abs (val a).
Proof. destruct a; reflexivity. Qed.
(** exp, log and powers at the infinities are the limits *)
Theorem eexp_spec a x : val a = Some x -> exists y, val (eexp a) = Some y /\ is_lim exp x y.
Proof.
  destruct a as [r| | |]; cbn; intros E; try discriminate; injection E as <-; eexists; (split; [reflexivity|]).
  - apply is_lim_continuity. apply derivable_continuous, derivable_exp.
  - apply is_lim_exp_p.
  - apply is_lim_exp_m.
Qed.
Theorem elog_spec : val (elog EP) = Some p_infty /\ is_lim ln p_infty p_infty /\ val (elog (EF 0)) = Some m_infty /\ filterlim ln (at_right 0) (Rbar_locally m_infty) /\
  (forall x, x < 0 -> elog (EF x) = EN) /\ elog EM = EN /\ forall x, 0 < x -> elog (EF x) = EF (ln x).
Proof.
  split; [reflexivity|]. split; [apply is_lim_ln_p|]. split; [cbn; destruct (Rlt_dec 0 0); [lra|]; destruct (Req_EM_T 0 0); [reflexivity|lra]|].
  split; [apply is_lim_ln_0|]. split; [intros x H; cbn; destruct (Rlt_dec 0 x); [lra|]; destruct (Req_EM_T x 0); [lra|reflexivity]|].
  split; [reflexivity|]. intros x H. cbn. destruct (Rlt_dec 0 x); [reflexivity|lra].
Qed.
Theorem epow_spec a : a <> 0 ->
  (exists y, val (epow EP a) = Some y /\ is_lim (fun x => Rpower x a) p_infty y) /\
  (exists y, val (epow (EF 0) a) = Some y /\ filterlim (fun x => Rpower x a) (at_right 0) (Rbar_locally y)) /\
  forall x, 0 < x -> epow (EF x) a = EF (Rpower x a).
Proof.
  intros Ha. split; [|split].
  - cbn [epow]. destruct (Rlt_dec 0 a) as [L|L]; cbn [val]; eexists; (split; [reflexivity|]); unfold Rpower.
    + apply (is_lim_comp exp (fun x => a * ln x) p_infty p_infty p_infty).
      * apply is_lim_exp_p.
      * replace p_infty with (Rbar_mult a p_infty) at 2 by (cbn; destruct (Rle_dec 0 a); [|lra]; destruct (Rle_lt_or_eq_dec 0 a r); [reflexivity|lra]).
        apply is_lim_scal_l, is_lim_ln_p.
      * exists 0. intros; discriminate.
    + apply (is_lim_comp exp (fun x => a * ln x) p_infty 0 m_infty).
      * apply is_lim_exp_m.
      * replace m_infty with (Rbar_mult a p_infty) by (cbn; destruct (Rle_dec 0 a); [exfalso; apply Ha; lra|reflexivity]).
        apply is_lim_scal_l, is_lim_ln_p.
      * exists 0. intros; discriminate.
  - cbn [epow]. destruct (Rlt_dec 0 0); [lra|]. destruct (Req_EM_T 0 0); [|lra]. destruct (Rlt_dec 0 a) as [L|L]; cbn [val]; eexists; (split; [reflexivity|]); unfold Rpower.
    + apply (filterlim_comp _ _ _ (fun x => a * ln x) exp _ (Rbar_locally m_infty)).
      * apply (filterlim_comp _ _ _ ln (fun z => a * z) _ (Rbar_locally m_infty)); [apply is_lim_ln_0|].
        replace m_infty with (Rbar_mult a m_infty) at 2 by (cbn; destruct (Rle_dec 0 a); [|lra]; destruct (Rle_lt_or_eq_dec 0 a r); [reflexivity|lra]).
        apply filterlim_Rbar_mult_l.
      * apply is_lim_exp_m.
    + apply (filterlim_comp _ _ _ (fun x => a * ln x) exp _ (Rbar_locally p_infty)).
      * apply (filterlim_comp _ _ _ ln (fun z => a * z) _ (Rbar_locally m_infty)); [apply is_lim_ln_0|].
        replace p_infty with (Rbar_mult a m_infty) by (cbn; destruct (Rle_dec 0 a); [exfalso; apply Ha; lra|reflexivity]).
        apply filterlim_Rbar_mult_l.
      * apply is_lim_exp_p.
  - intros x H. cbn. destruct (Rlt_dec 0 x); [reflexivity|lra].
Qed.
