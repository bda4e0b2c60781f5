(** Model of the spline method of ml4gw/transforms/qtransform.py: SingleQTransform 250-287 and 367-388, QScan 497-505 and 522-561
    (real arithmetic; the float32 casts of the coordinates are identities). *)
From Coq Require Import String.
From Verif Require Import Base Tensor Rutil Slicing_model Autoenc_model Norm_model Dft Gw_model Spectral_model Trans_model Qt_model Linsolve Spline_model.
Local Open Scope R_scope.

(** torch.arange(0, stop, step) for a positive step: the ceil(stop / step) multiples of step below stop *)
Definition arange_r (stop step : R) : list R := map (fun k => INR k * step) (seq 0 (Z.to_nat (rceil (stop / step)))).
(** torch.logspace(a, b, n), base 10 *)
Definition logspace (a b : R) (n : nat) : list R :=
  map (fun k => Rpower 10 (a + INR k * (if (n =? 1)%nat then 0 else (b - a) / (INR n - 1)))) (seq 0 n).
Definition log10 (x : R) : R := ln x / ln 10.

(** a SingleQTransform with interpolation_method="spline": one interpolator per distinct tile count, one over the frequencies *)
Record qspline := mkqsp { qsp_base : qtransform; qsp_times : list spline1; qsp_freq : spline1 }.
(** 254-287, [_set_up_spline_interp], and the constructor around it (250-252); spectrogram_shape = (nf, nt) *)
Definition qsp_create (dur sr q : R) (frange : option frange_arg) (mm : R) (nf nt : nat) : res qspline :=
  let* m := qtr_create dur sr q frange mm "spline" in
  let ntl := zunique (map ntiles (tr_tiles m)) in                                             (* 255-258 *)
  if (nt =? 0)%nat then Err ZeroDivisionError else                                            (* 263 *)
  let t_out := arange_r dur (dur / INR nt) in                                                 (* 262-264 *)
  let* times := sequence (map (fun n => if (n =? 0)%Z then Err ZeroDivisionError
                                        else spline1_create (arange_r dur (dur / IZR n)) 3 0 (Some t_out)) ntl) in  (* 265-274 *)
  let f_out := logspace (log10 (fst (tr_frange m))) (log10 (snd (tr_frange m))) nf in         (* 277-281 *)
  let* f := spline1_create (tr_freqs m) 3 0 (Some f_out) in                                   (* 283-287 *)
  Ok (mkqsp m times f).

(** torch.cat(ts, dim=-2) of 4D tensors: they must agree on the other axes *)
Fixpoint cat_elt (ts : list (tensor R)) (p q r o : nat) : R :=
  match ts with
  | [] => 0
  | t :: ts' => let h := nth 2 (shape t) 0%nat in if (r <? h)%nat then elt t [p; q; r; o] else cat_elt ts' p q (r - h) o
  end.
Definition cat_m2 (ts : list (tensor R)) : res (tensor R) :=
  match ts with
  | [] => Err RuntimeError
  | t0 :: _ =>
    match shape t0 with
    | [a; b; _; w] =>
      if forallb (fun t => match shape t with [a'; b'; _; w'] => (a' =? a) && (b' =? b) && (w' =? w) | _ => false end)%nat ts
      then Ok (mk [a; b; list_sum (map (fun t => nth 2 (shape t) 0%nat) ts); w] (fun i => match i with [p; q; r; o] => cat_elt ts p q r o | _ => 0 end))
      else Err RuntimeError
    | _ => Err RuntimeError   (* unreachable: the interpolators return 4D tensors *)
    end
  end.
(** x.mT *)
Definition mT (x : tensor R) : tensor R :=
  match shape x with
  | [a; b; h; w] => mk [a; b; w; h] (fun i => match i with [p; q; r; o] => elt x [p; q; o; r] | _ => 0 end)
  | _ => x   (* unreachable *)
  end.
(** 367-388, [interpolate], spline method.  The interpolators are called without x_out, which leaves them unchanged. *)
Definition qsp_interpolate (m : qspline) (tiles : option (list (tensor R))) : res (tensor R) :=
  match tiles with
  | None => Err RuntimeError                                                                  (* 369-372 *)
  | Some tiles =>
    let* groups := sequence (map (fun idx => stack_m2 (map (fun i => nth i tiles (mk [] (fun _ => 0))) idx)) (stack_idx (qsp_base m))) in  (* 374-377 *)
    let* rows := sequence (map (fun p => fst (spline1_forward (snd p) (fst p) None)) (combine groups (qsp_times m))) in
    let* c := cat_m2 rows in                                                                  (* 378-386 *)
    let* y := fst (spline1_forward (qsp_freq m) (mT c) None) in                               (* 388 *)
    Ok (mT y)
  end.
(** 406-431, [forward]: the output, and the new self.qtiles *)
Definition qsp_forward (m : qspline) (X : tensor R) (norm : option string) : res (tensor R * list (tensor R)) :=
  let* tiles := compute_qtiles (qsp_base m) X norm in
  let* out := qsp_interpolate m (Some tiles) in
  Ok (out, tiles).

(** ** QScan with the spline method *)
(** 462-505 *)
Definition qscan_sp_create (dur sr : R) (qrange : option (R * R)) (frange : option frange_arg) (mm : R) (nf nt : nat) : res (list qspline) :=
  let qr := match qrange with Some q => q | None => (4, 64) end in
  let* qs := get_qs (fst qr) (snd qr) mm in
  sequence (map (fun q => qsp_create dur sr q frange mm nf nt)
                (filter (fun q => if Rlt_dec q (max_q dur sr) then true else false) qs)).
(** 522-561 *)
Definition qscan_sp_forward (ms : list qspline) (X : tensor R) (fsearch : option (R * R)) (norm : option string) : res (tensor R) :=
  let* all := sequence (map (fun m => compute_qtiles (qsp_base m) X norm) ms) in              (* 551-552 *)
  let* es := sequence (map (fun p => get_max_energy (tr_freqs (qsp_base (fst p))) (Some (snd p)) fsearch "both") (combine ms all)) in (* 553-560 *)
  let* idx := argmax (map (fun e => elt e []) es) in
  match nth_error (combine ms all) idx with
  | Some (m, tiles) => qsp_interpolate m (Some tiles)                                         (* 561 *)
  | None => Err IndexError
  end.
