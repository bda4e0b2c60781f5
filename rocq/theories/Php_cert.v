(** The in-plane final spin of IMRPhenomPv2 stays below 1 (phenom_p.py 794-814): sign of the polynomial that says so, by the checker of Bern.v.
    t = sqrt (1 - 4 eta), so the mass fractions are (1+t)/2 >= (1-t)/2. *)
From Coq Require Import Reals Lra ZArith.
From Verif Require Import Phd_cert Bern.
Local Open Scope R_scope.

(* (final spin - s) / eta *)
Definition fs_g (eta s : R) : R :=
  ((34641016151377544 / 10000000000000000) - (4399247300629289 / 1000000000000000) * eta + (9397292189321194 / 1000000000000000) * (eta * eta) -
  (13180949901606242 / 1000000000000000) * (eta * eta * eta)) + (- (850917821418767 / 10000000000000000) - (5837029316602263 / 1000000000000000) * eta +
  ((1014665242971878 / 10000000000000000) - (20967746996832157 / 10000000000000000) * eta) * s + ((- (13546806617824356 / 10000000000000000)) +
  (4108962025369336 / 1000000000000000) * eta) * (s * s) + ((- (8676969352555539 / 10000000000000000)) + (2064046835273906 / 1000000000000000) * eta) * (s * s * s)) * s.
Lemma fs_poly_g eta s : fs_poly eta s = s + eta * fs_g eta s.
Proof. unfold fs_poly, fs_g. ring. Qed.
Definition inplane (sg t w : R) : R :=
  let ml := (1 + t) * (1 / 2) in let ms := (1 - t) * (1 / 2) in let s := sg * w in let g := fs_g (ml * ms) s in
  (1 + ml) * (1 + ml * ml) - 1 / 100 - 2 * w * ms - 2 * ml * s * g - ml * ml * ms * (g * g).
Declare Scope pex_scope. Delimit Scope pex_scope with pex. Bind Scope pex_scope with pex.
Notation "a + b" := (Add a b) : pex_scope. Notation "a - b" := (Sub a b) : pex_scope. Notation "a * b" := (Mul a b) : pex_scope. Notation "- a" := (Opp a) : pex_scope.
Definition z (n : Z) : pex := Cst n 1.
Definition fs_gx (eta s : pex) : pex := (
  ((Cst 34641016151377544 10000000000000000) - (Cst 4399247300629289 1000000000000000) * eta + (Cst 9397292189321194 1000000000000000) * (eta * eta) -
  (Cst 13180949901606242 1000000000000000) * (eta * eta * eta)) + (- (Cst 850917821418767 10000000000000000) - (Cst 5837029316602263 1000000000000000) * eta +
  ((Cst 1014665242971878 10000000000000000) - (Cst 20967746996832157 10000000000000000) * eta) * s + ((- (Cst 13546806617824356 10000000000000000)) +
  (Cst 4108962025369336 1000000000000000) * eta) * (s * s) + ((- (Cst 8676969352555539 10000000000000000)) + (Cst 2064046835273906 1000000000000000) * eta) * (s * s * s)) * s)%pex.
Definition inplanex (sg : Z) : pex := (
  let ml := (z 1 + Xu) * Cst 1 2 in let ms := (z 1 - Xu) * Cst 1 2 in let s := z sg * Xw in let g := fs_gx (ml * ms) s in
  (z 1 + ml) * (z 1 + ml * ml) - Cst 1 100 - z 2 * Xw * ms - z 2 * ml * s * g - ml * ml * ms * (g * g))%pex.
Lemma inplanex_spec sg t w : pev (inplanex sg) t w = inplane (IZR sg) t w.
Proof. unfold inplanex, fs_gx, z. cbv zeta. cbn [pev]. assert (D1 : forall x, x / 1 = x) by (intros x; unfold Rdiv; rewrite Rinv_1; apply Rmult_1_r). rewrite !D1. unfold inplane, fs_g. cbv zeta. reflexivity. Qed.
Lemma inplane_pos t w : 0 <= t <= 1 -> 0 <= w <= 1 -> 0 <= inplane 1 t w.
Proof.
  intros Ht Hw. rewrite <- (inplanex_spec 1).
  destruct (Rle_dec w (1 / 2)) as [A|A]; [apply (bern_box (inplanex 1) 0 1 0 2); [vm_compute; reflexivity|lra|lra]|].
  destruct (Rle_dec t (1 / 2)) as [B|B]; [apply (bern_box (inplanex 1) 0 2 1 2); [vm_compute; reflexivity|lra|lra]|].
  destruct (Rle_dec w (3 / 4)) as [D|D]; [apply (bern_box (inplanex 1) 1 2 2 4); [vm_compute; reflexivity|lra|lra]|].
  apply (bern_box (inplanex 1) 1 2 3 4); [vm_compute; reflexivity|lra|lra].
Qed.
Lemma inplane_neg t w : 0 <= t <= 1 -> 0 <= w <= 1 -> 0 <= inplane (-1) t w.
Proof. intros Ht Hw. rewrite <- (inplanex_spec (-1)). apply bern_nonneg; [vm_compute; reflexivity|assumption|assumption]. Qed.
(** |final spin of the aligned fit| <= 1 - eta/6, eta = u/4, spin sum s = (1 - 2 eta)(2w - 1) *)
Definition fs_x : pex := (let eta := Xu * Cst 1 4 in let s := (z 1 - z 2 * eta) * (z 2 * Xw - z 1) in s + eta * fs_gx eta s)%pex.
Lemma fs_x_spec u w : pev fs_x u w = fs_poly (u / 4) ((1 - 2 * (u / 4)) * (2 * w - 1)).
Proof.
  rewrite fs_poly_g. unfold fs_x, fs_gx, z. cbv zeta. cbn [pev]. assert (D1 : forall x, x / 1 = x) by (intros x; unfold Rdiv; rewrite Rinv_1; apply Rmult_1_r). rewrite !D1.
  replace (u / 4) with (u * (1 / 4)) by field. unfold fs_g. reflexivity.
Qed.
Lemma fs_margin_hi u w : 0 <= u <= 1 -> 0 <= w <= 1 -> fs_poly (u / 4) ((1 - 2 * (u / 4)) * (2 * w - 1)) <= 1 - u / 4 / 6.
Proof.
  intros Hu Hw. rewrite <- fs_x_spec. assert (H : 0 <= pev (z 1 - Xu * Cst 1 24 - fs_x)%pex u w) by (apply bern_nonneg; [vm_compute; reflexivity|assumption|assumption]). cbn [pev z] in H. lra.
Qed.
Lemma fs_margin_lo u w : 0 <= u <= 1 -> 0 <= w <= 1 -> - (1 - u / 4 / 6) <= fs_poly (u / 4) ((1 - 2 * (u / 4)) * (2 * w - 1)).
Proof.
  intros Hu Hw. rewrite <- fs_x_spec. assert (H : 0 <= pev (z 1 - Xu * Cst 1 24 + fs_x)%pex u w) by (apply bern_nonneg; [vm_compute; reflexivity|assumption|assumption]). cbn [pev z] in H. lra.
Qed.
