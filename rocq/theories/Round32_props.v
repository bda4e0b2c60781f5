(** The float32 rounding of integers used in the model of InMemoryDataset (C08) is IEEE 754 round-to-nearest-even. *)
From Coq Require Import Reals ZArith Lra Lia.
From Flocq Require Import Core.
From Verif Require Import Base Data_model.
Local Open Scope R_scope.
Definition fexp32 : Z -> Z := FLT_exp (-149) 24.
Local Instance prec32 : Prec_gt_0 24 := eq_refl.
Local Instance valid32 : Valid_exp fexp32. Proof. apply FLT_exp_valid. reflexivity. Qed.
Theorem f32_round_ieee n : (0 <= n)%Z -> IZR (f32_round n) = round radix2 fexp32 ZnearestE (IZR n).
Proof.
  intros H0. unfold f32_round. destruct (Z.ltb_spec n (2 ^ 24)) as [H|H].
  - symmetry. apply round_generic; [exact _|]. apply generic_format_FLT. exists (Float radix2 n 0); cbn [Fnum Fexp];
      [unfold F2R; cbn [Fnum Fexp]; change (bpow radix2 0) with 1; lra|change (radix2 ^ 24)%Z with (2 ^ 24)%Z; lia|lia].
  - assert (L1 := Z.log2_spec n ltac:(lia)). set (l := Z.log2 n) in *.
    assert (L24 : (24 <= l)%Z) by (apply Z.log2_le_pow2; lia).
    set (e := (l - 23)%Z). cbv zeta. fold e.
    assert (P : (0 < 2 ^ e)%Z) by (apply Z.pow_pos_nonneg; lia).
    assert (PE : (2 ^ e = 2 * 2 ^ (e - 1))%Z) by (rewrite <- Z.pow_succ_r by lia; f_equal; lia).
    assert (MG : mag radix2 (IZR n) = (l + 1)%Z :> Z).
    { apply mag_unique. rewrite Rabs_pos_eq by (apply IZR_le; lia). replace (l + 1 - 1)%Z with l by lia.
      rewrite <- !IZR_Zpower by lia. change (Zpower radix2 l) with (2 ^ l)%Z. change (Zpower radix2 (l + 1)) with (2 ^ (l + 1))%Z.
      split; [apply IZR_le; lia|apply IZR_lt; replace (l + 1)%Z with (Z.succ l) by lia; lia]. }
    assert (CE : cexp radix2 fexp32 (IZR n) = e) by (unfold cexp; rewrite MG; unfold fexp32, FLT_exp, e; lia).
    assert (BE : bpow radix2 e = IZR (2 ^ e)) by (rewrite <- IZR_Zpower by (unfold e; lia); reflexivity).
    assert (D := Z.div_mod n (2 ^ e) ltac:(lia)). assert (B := Z.mod_pos_bound n (2 ^ e) P).
    set (q := (n / 2 ^ e)%Z) in *. set (r := (n mod 2 ^ e)%Z) in *.
    unfold round, F2R, scaled_mantissa. rewrite CE. cbn [Fnum Fexp]. rewrite bpow_opp, BE.
    assert (PR : 0 < IZR (2 ^ e)) by (apply IZR_lt; exact P).
    assert (X : IZR n * / IZR (2 ^ e) = IZR q + IZR r / IZR (2 ^ e)).
    { rewrite D at 1. rewrite plus_IZR, mult_IZR. field. lra. }
    rewrite X.
    assert (F : Zfloor (IZR q + IZR r / IZR (2 ^ e)) = q).
    { apply Zfloor_imp. rewrite plus_IZR. assert (0 <= IZR r) by (apply IZR_le; lia). assert (IZR r < IZR (2 ^ e)) by (apply IZR_lt; lia).
      split; [assert (0 <= IZR r / IZR (2 ^ e)) by (apply Rmult_le_pos; [lra|apply Rlt_le, Rinv_0_lt_compat; lra]); lra|].
      apply Rplus_lt_compat_l, (Rmult_lt_reg_r (IZR (2 ^ e))); [lra|]. unfold Rdiv. rewrite Rmult_assoc, Rinv_l by lra. lra. }
    assert (H2 : IZR (2 ^ e) = 2 * IZR (2 ^ (e - 1))) by (rewrite PE, mult_IZR; reflexivity).
    assert (HH : 0 < IZR (2 ^ (e - 1))) by lra.
    unfold Znearest. rewrite F. replace (IZR q + IZR r / IZR (2 ^ e) - IZR q) with (IZR r / IZR (2 ^ e)) by ring.
    assert (CL : (r <> 0)%Z -> Zceil (IZR q + IZR r / IZR (2 ^ e)) = (q + 1)%Z).
    { intros R0. apply Zceil_imp. replace (q + 1 - 1)%Z with q by lia. rewrite plus_IZR. assert (0 < IZR r) by (apply IZR_lt; lia). assert (IZR r < IZR (2 ^ e)) by (apply IZR_lt; lia).
      assert (0 < IZR r / IZR (2 ^ e)) by (apply Rdiv_lt_0_compat; lra).
      assert (IZR r / IZR (2 ^ e) < 1) by (apply (Rmult_lt_reg_r (IZR (2 ^ e))); [lra|]; unfold Rdiv; rewrite Rmult_assoc, Rinv_l by lra; lra). lra. }
    assert (half_pos : (0 < 2 ^ (e - 1))%Z) by (apply Z.pow_pos_nonneg; lia).
    destruct (Z.ltb_spec r (2 ^ (e - 1))) as [A1|A1]; [|destruct (Z.ltb_spec (2 ^ (e - 1)) r) as [A2|A2]].
    + rewrite Rcompare_Lt; [rewrite mult_IZR; reflexivity|]. assert (IZR r < IZR (2 ^ (e - 1))) by (apply IZR_lt; lia).
      apply (Rmult_lt_reg_r (IZR (2 ^ e))); [lra|]. unfold Rdiv. rewrite Rmult_assoc, Rinv_l by lra. lra.
    + rewrite Rcompare_Gt; [rewrite CL by lia; rewrite mult_IZR; reflexivity|]. assert (IZR (2 ^ (e - 1)) < IZR r) by (apply IZR_lt; lia).
      apply (Rmult_lt_reg_r (IZR (2 ^ e))); [lra|]. unfold Rdiv. rewrite Rmult_assoc, Rinv_l by lra. lra.
    + assert (r = 2 ^ (e - 1))%Z as Er by lia. rewrite Rcompare_Eq.
      * rewrite CL by lia. destruct (Z.even q); cbn [negb]; rewrite mult_IZR; reflexivity.
      * rewrite Er, H2. field. lra.
Qed.
