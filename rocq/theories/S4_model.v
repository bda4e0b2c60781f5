(** Model of ml4gw/nn/ssm/s4d.py, in real arithmetic; learned parameters have arbitrary values of the shapes the
    constructors give them. Inputs have any rank: torch's Conv1d, GLU and Dropout1d also take unbatched (channels, length) tensors. *)
From Coq Require Import Reals Lra.
From Verif Require Import Base Tensor Rutil Dft.
Local Open Scope R_scope.

(** torch.exp of a complex number *)
Definition cexp (z : C) : C := (exp (Re z) * cos (Im z), exp (Re z) * sin (Im z)).

(** the parameters of one S4D layer: 67-81 (S4DKernel), 128, 145-148 (S4D: D, the 1x1 convolution) *)
Record s4 := mks4 { s_H : nat; s_half : nat; s_transposed : bool; s_p : R;
  s_log_dt : nat -> R; s_C : nat -> nat -> C; s_logA : nat -> nat -> R; s_Aim : nat -> nat -> R;
  s_D : nat -> R; s_W : nat -> nat -> R; s_b : nat -> R }.

(** 83-101, [S4DKernel.forward] *)
Definition s4_kernel (s : s4) (L : nat) : tensor R :=
  mk [s_H s; L] (fun i => let h := nth 0 i 0%nat in let l := nth 1 i 0%nat in
    let dt := exp (s_log_dt s h) in
    2 * Re (Csum (s_half s) (fun n =>
      let A : C := (- exp (s_logA s h n), s_Aim s h n) in
      let dtA := Cmult A (RtoC dt) in
      let Cn := Cdiv (Cmult (s_C s h n) (Cminus (cexp dtA) (RtoC 1))) A in
      Cmult Cn (cexp (Cmult dtA (RtoC (INR l))))))).

(** torch.fft.rfft(x, n=n) over the last axis, zero-padding to n; RuntimeError when n < 1 *)
Definition rfft_t (n : nat) (x : tensor R) : res (tensor C) :=
  if (n =? 0)%nat then Err RuntimeError else
  let L := last (shape x) 0%nat in
  Ok (mk (removelast (shape x) ++ [rbins n])
    (fun i => rfft n (fun t => if (t <? L)%nat then elt x (removelast i ++ [t]) else 0) (last i 0%nat))).
(** torch.fft.irfft(X, n=n) over the last axis (at least n/2+1 bins) *)
Definition irfft_t (n : nat) (X : tensor C) : tensor R :=
  mk (removelast (shape X) ++ [n]) (fun i => irfft n (fun k => elt X (removelast i ++ [k])) (last i 0%nat)).
(** y[..., :L] with L <= y.size(-1) *)
Definition first_last {A} (L : nat) (x : tensor A) : tensor A := mk (removelast (shape x) ++ [Nat.min L (last (shape x) 0%nat)]) (elt x).
Definition tmap {A B} (f : A -> B) (t : tensor A) : tensor B := mk (shape t) (fun i => f (elt t i)).

(** 141-143: Dropout1d zeroes whole channels with one factor per (batch, channel) (1 everywhere in eval mode), Identity when p is not positive;
    an unbatched input is a batch of one *)
Definition dropout1d (p : R) (mask : nat -> nat -> R) (x : tensor R) : tensor R :=
  if Rlt_dec 0 p then mk (shape x) (fun i => match i with [c; _] => mask 0%nat c | _ => mask (nth 0 i 0%nat) (nth 1 i 0%nat) end * elt x i) else x.
(** nn.Conv1d(H, 2H, kernel_size=1): RuntimeError unless the input has H channels *)
Definition conv_1x1 (H : nat) (W : nat -> nat -> R) (b : nat -> R) (x : tensor R) : res (tensor R) :=
  match shape x with
  | [B; c; L] => if (c =? H)%nat then Ok (mk [B; (2 * H)%nat; L]
       (fun i => match i with [p; o; t] => b o + Rsum H (fun h => W o h * elt x [p; h; t]) | _ => 0 end)) else Err RuntimeError
  | [c; L] => if (c =? H)%nat then Ok (mk [(2 * H)%nat; L]
       (fun i => match i with [o; t] => b o + Rsum H (fun h => W o h * elt x [h; t]) | _ => 0 end)) else Err RuntimeError
  | _ => Err RuntimeError end.
(** nn.GLU(dim=-2): first half times the sigmoid of the second *)
Definition sigmoid (x : R) : R := / (1 + exp (- x)).
Definition glu (x : tensor R) : tensor R :=
  match shape x with
  | [B; c; L] => mk [B; (c / 2)%nat; L] (fun i => match i with [p; o; t] => elt x [p; o; t] * sigmoid (elt x [p; (o + c / 2)%nat; t]) | _ => 0 end)
  | [c; L] => mk [(c / 2)%nat; L] (fun i => match i with [o; t] => elt x [o; t] * sigmoid (elt x [(o + c / 2)%nat; t]) | _ => 0 end)
  | _ => x end.

(** 150-172, [S4D.forward]; [gelu] is the activation *)
Definition s4_forward (gelu : R -> R) (s : s4) (mask : nat -> nat -> R) (u : tensor R) : res (tensor R) :=
  let* u := if s_transposed s then Ok u else transpose (-1) (-2) u in
  let* L := match shape u with [] => Err IndexError | _ => Ok (last (shape u) 0%nat) end in   (* u.size(-1) *)
  let k := s4_kernel s L in
  let* k_f := rfft_t (2 * L) k in
  let* u_f := rfft_t (2 * L) u in
  let* yf := bzip Cmult u_f k_f in
  let y := first_last L (irfft_t (2 * L) yf) in
  let* ud := bzip Rmult u (mk [s_H s; 1%nat] (fun i => s_D s (nth 0 i 0%nat))) in
  let* y := bzip Rplus y ud in
  let y := dropout1d (s_p s) mask (tmap gelu y) in
  let* z := conv_1x1 (s_H s) (s_W s) (s_b s) y in
  let y := glu z in
  if s_transposed s then Ok y else transpose (-1) (-2) y.

(** the dropout argument: None, a number (bool and int included; None for nan), anything else *)
Inductive pyarg := PyNone | PyNum (x : option R) | PyOther.
(** 117-148, [S4D.__init__], with 53-81, [S4DKernel.__init__]: [rand] is torch.rand(H), [cn] the randn coefficients *)
Definition s4_create (d_model d_state : nat) (dropout : pyarg) (transposed : bool) (dt_min dt_max : R)
  (rand : nat -> R) (cn : nat -> nat -> C) (D : nat -> R) (W : nat -> nat -> R) (b : nat -> R) : res s4 :=
  match dropout with
  | PyNone | PyOther => Err ValueError                                                       (* 130-131 *)
  | PyNum None => Err ValueError
  | PyNum (Some p) =>
    if Rle_dec 0 p then if Rle_dec p 1 then                                                  (* 133-134 *)
      if Rlt_dec 0 dt_max then if Rlt_dec 0 dt_min then                                      (* math.log: ValueError *)
        Ok (mks4 d_model (d_state / 2) transposed p
              (fun h => rand h * (ln dt_max - ln dt_min) + ln dt_min)                        (* 67-69 *)
              cn (fun _ _ => ln (5 / 10 * 1)) (fun _ n => PI * INR n) D W b)                 (* 72-81 *)
      else Err ValueError else Err ValueError
    else Err ValueError else Err ValueError
  end.

(** nn.Linear on the last axis: RuntimeError unless it has [din] entries *)
Definition linear (din dout : nat) (W : nat -> nat -> R) (b : nat -> R) (x : tensor R) : res (tensor R) :=
  if (last (shape x) 0 =? din)%nat then
    Ok (mk (removelast (shape x) ++ [dout]) (fun i => b (last i 0%nat) + Rsum din (fun j => W (last i 0%nat) j * elt x (removelast i ++ [j]))))
  else Err RuntimeError.
(** nn.LayerNorm(d) on the last axis (size d): biased variance, eps = 1e-5 *)
Definition rmean (n : nat) (f : nat -> R) : R := Rsum n f / INR n.
Definition rvar (n : nat) (f : nat -> R) : R := rmean n (fun i => (f i - rmean n f) ^ 2).
Definition lnorm (n : nat) (wt bs : nat -> R) (f : nat -> R) (i : nat) : R := (f i - rmean n f) / sqrt (rvar n f + 1 / 100000) * wt i + bs i.
Definition layer_norm (wt bs : nat -> R) (x : tensor R) : tensor R :=
  mk (shape x) (fun i => lnorm (last (shape x) 0%nat) wt bs (fun j => elt x (removelast i ++ [j])) (last i 0%nat)).

Record s4model := mks4m { m_in : nat; m_out : nat; m_d : nat; m_layers : list s4; m_p : R;
  m_eW : nat -> nat -> R; m_eb : nat -> R; m_lw : nat -> nat -> R; m_lb : nat -> nat -> R; m_dW : nat -> nat -> R; m_db : nat -> R }.
(** 254-259: the layers, [k] being the position of the first of them; [mask k] is the dropout inside layer k, [mask' k] that after it *)
Fixpoint s4_stack (gelu : R -> R) (m : s4model) (mask mask' : nat -> nat -> nat -> R) (k : nat) (ls : list s4) (x : tensor R) : res (tensor R) :=
  match ls with
  | [] => Ok x
  | s :: ls =>
    let* z := s4_forward gelu s (mask k) x in
    let z := dropout1d (m_p m) (mask' k) z in
    let* zx := bzip Rplus z x in
    let* zt := transpose (-1) (-2) zx in
    let* x := transpose (-1) (-2) (layer_norm (m_lw m k) (m_lb m k) zt) in
    s4_stack gelu m mask mask' (S k) ls x
  end.
(** x.mean(dim=1) *)
Definition mean1 (x : tensor R) : res (tensor R) :=
  match shape x with
  | b :: n :: s => Ok (mk (b :: s) (fun i => match i with p :: r => rmean n (fun t => elt x (p :: t :: r)) | [] => 0 end))
  | _ => Err IndexError end.
(** 242-263, [S4Model.forward] *)
Definition s4model_forward (gelu : R -> R) (m : s4model) (mask mask' : nat -> nat -> nat -> R) (x : tensor R) : res (tensor R) :=
  let* x := transpose (-1) (-2) x in
  let* x := linear (m_in m) (m_d m) (m_eW m) (m_eb m) x in
  let* x := transpose (-1) (-2) x in
  let* x := s4_stack gelu m mask mask' 0 (m_layers m) x in
  let* x := transpose (-1) (-2) x in
  let* x := mean1 x in
  linear (m_d m) (m_out m) (m_dW m) (m_db m) x.
(** 205-240, [S4Model.__init__]: layer k gets the k-th random and learned parameters *)
Definition s4model_create (d_input d_output d_model d_state n_layers : nat) (dropout : pyarg) (dt_min dt_max : R)
  (rand : nat -> nat -> R) (cn : nat -> nat -> nat -> C) (D : nat -> nat -> R) (W : nat -> nat -> nat -> R) (b : nat -> nat -> R)
  (eW : nat -> nat -> R) (eb : nat -> R) (lw lb : nat -> nat -> R) (dW : nat -> nat -> R) (db : nat -> R) : res s4model :=
  let* layers := sequence (map (fun k => s4_create d_model d_state dropout true dt_min dt_max (rand k) (cn k) (D k) (W k) (b k)) (seq 0 n_layers)) in
  let p := match dropout with PyNum (Some p) => p | _ => 0 end in   (* Dropout1d(dropout) is built once per layer, after the layers have accepted it *)
  Ok (mks4m d_input d_output d_model layers p eW eb lw lb dW db).
