(** Model of ml4gw/transforms/pearson.py, decimator.py, integrator.py and heterodyne.py (real arithmetic). *)
From Coq Require Import String.
From Verif Require Import Base Tensor Rutil Slicing_model Autoenc_model Norm_model Dft Gw_model.
From Coquelicot Require Import Complex.
Local Open Scope R_scope.

(** ** pearson.py *)
(** floating point division of finite numbers: nan (None) when the divisor is 0 (an infinity, if the dividend is not 0,
    is not distinguished from nan) *)
Definition fdiv (a b : R) : option R := if Req_EM_T b 0 then None else Some (a / b).
(** pearson.py 45-63, [_shape_checks]: the sizes are compared from the last dimension on *)
Fixpoint same_prefix (y x : list nat) : bool :=
  match y, x with
  | [], _ => true
  | d :: y', e :: x' => (d =? e)%nat && same_prefix y' x'
  | _ :: _, [] => false
  end.
Definition pearson_checks (x y : tensor R) : res unit :=
  if (3 <? ndim x)%nat then Err ValueError
  else if (ndim x <? ndim y)%nat then Err ValueError
  else if negb (same_prefix (rev (shape y)) (rev (shape x))) then Err ValueError
  else Ok tt.
(** pearson.py 65-89, [forward]; max_shift non-negative.  [x.size(-1)] of a 0-d tensor is an IndexError; the mean of a 0-d
    tensor over dim -1 is its value, so that a 0-d y becomes 0 (and the empty sum of squares below is 0 as well). *)
Definition pearson (max_shift : nat) (x y : tensor R) : res (tensor (option R)) :=
  let* _ := pearson_checks x y in                                               (* 68 *)
  match shape x with
  | [] => Err IndexError
  | _ =>
    let dim := last (shape x) 0%nat in                                          (* 69 *)
    let x := pad_last 0 max_shift max_shift x in                                (* 73-74 *)
    let* (x, _) := unfold_windows 0 x (Z.of_nat dim) 1 true in                  (* 77 *)
    let* x := bzip Rminus x (mean_last true x) in                               (* 81 *)
    let* y := match shape y with [] => Ok (tmap (fun _ => 0) y) | _ => bzip Rminus y (mean_last true y) end in (* 82 *)
    let* xy := bzip Rmult x y in
    let corr := sum_last xy in                                                  (* 86 *)
    let* norm := bzip Rmult (sum_last (tmap (fun v => v ^ 2) x)) (sum_last (tmap (fun v => v ^ 2) y)) in (* 87 *)
    bzip (fun c n => fdiv c (sqrt n)) corr norm                                 (* 89 *)
  end.

(** ** integrator.py *)
(** torch conv1d of a (n, 1, l) signal with a (1, 1, k) kernel, stride 1, no padding: cross-correlation *)
Definition conv1d_1 (x : tensor R) (kern : nat -> R) (k : nat) : res (tensor R) :=
  match shape x with
  | [n; c; l] => if (l <? k)%nat || (k =? 0)%nat || negb (c =? 1)%nat then Err RuntimeError
                 else Ok (mk [n; 1%nat; (l - k + 1)%nat]
                        (fun i => match i with [b; _; t] => Rsum k (fun j => elt x [b; 0%nat; (t + j)%nat] * kern j) | _ => 0 end))
  | _ => Err RuntimeError
  end.
(** integrator.py 31-38, [TophatIntegrator.__init__]: window_size = int(sample_rate * integration_length) + 1 *)
Definition tophat_window (sample_rate integration_length : R) : Z := (rtrunc (sample_rate * integration_length) + 1)%Z.
(** integrator.py 40-48, [forward], for a positive window *)
Definition tophat (W : nat) (x : tensor R) : res (tensor R) :=
  match shape x with
  | [] => Err IndexError
  | _ => let s := shape x in
         let L := last s 0%nat in                                               (* 42 *)
         let* x := reshape [-1; 1; Z.of_nat L]%Z x in                           (* 44 *)
         let x := pad_last 0 (W - 1) 0 x in                                     (* 45 *)
         let* x := conv1d_1 x (fun _ => 1 / INR W) W in                         (* 46; the window of 36-38 *)
         reshape_to s x                                                         (* 48 *)
  end.
(** torch.cumsum / torch.cummin along the last axis *)
Fixpoint cummin (f : nat -> R) (t : nat) : R := match t with O => f O | S t' => Rmin (cummin f t') (f t) end.
Definition cumsum_last (x : tensor R) : tensor R := mk (shape x) (fun i => Rsum (S (last i 0%nat)) (fun j => elt x (removelast i ++ [j]))).
Definition cummin_last (x : tensor R) : tensor R := mk (shape x) (fun i => cummin (fun j => elt x (removelast i ++ [j])) (last i 0%nat)).
Record leaky := mkleaky { lk_threshold : R; lk_decay : R; lk_lower : R; lk_count : bool }.
(** integrator.py 82-100, [LeakyIntegrator.__init__] *)
Definition leaky_create (threshold decay lower_bound : R) (integrate_value : string) : res leaky :=
  if string_dec integrate_value "count" then Ok (mkleaky threshold decay lower_bound true)
  else if string_dec integrate_value "score" then Ok (mkleaky threshold decay lower_bound false)
  else Err ValueError.
(** integrator.py 102-118, [forward].  dim=-1 of a 0-d tensor is its only element: cumsum and cummin leave it as it is. *)
Definition leaky_forward (m : leaky) (x : tensor R) : res (tensor R) :=
  match shape x with
  | [] => let delta := if Rle_dec (lk_threshold m) (elt x []) then (if lk_count m then 1 else elt x []) else - lk_decay m in
          Ok (mk [] (fun _ => delta - Rmin (delta - lk_lower m) (lk_lower m)))
  | _ =>
    let increment := if lk_count m then tmap (fun _ => 1) x else x in                                   (* 104-106 *)
    let score_delta := mk (shape x) (fun i => if Rle_dec (lk_threshold m) (elt x i) then elt increment i else - lk_decay m) in (* 108 *)
    let raw_sum := cumsum_last score_delta in                                                           (* 110 *)
    let offset := cummin_last (tmap (fun v => v - lk_lower m) raw_sum) in                               (* 112 *)
    let offset := tmap (fun v => Rmin v (lk_lower m)) offset in                                         (* 114-116 *)
    bzip Rminus raw_sum offset                                                                          (* 118 *)
  end.

(** ** decimator.py *)
(** a schedule row: start time, end time, target sample rate.  Integer schedules are the special case of integral reals;
    the arithmetic of a float schedule is idealised. *)
Record row := mkrow { r_start : R; r_end : R; r_rate : R }.
Record decimator := mkdec { dc_sr : Z; dc_sched : list row; dc_split : bool; dc_idx : list Z; dc_len : Z }.
(** torch.arange(start, stop, step) of integers *)
Definition arange3 (start stop step : Z) : res (list Z) :=
  (if (step =? 0) then Err RuntimeError
   else if ((0 <? step) && (stop <? start)) || ((step <? 0) && (start <? stop)) then Err RuntimeError
   else Ok (map (fun k => start + step * Z.of_nat k) (seq 0 (Z.to_nat (- ((start - stop) / step))))))%Z.
(** decimator.py 118-146, [_validate_inputs] (the (N, 3) shape is built into the type of the schedule) *)
Definition overlaps (l : list row) : bool :=
  existsb (fun p => if Rlt_dec (r_start (snd p)) (r_end (fst p)) then true else false) (combine l (tl l)).
Definition dec_validate (sr : Z) (l : list row) (split : bool) : res unit :=
  if negb (forallb (fun r => if Rlt_dec (r_start r) (r_end r) then true else false) l) then Err ValueError   (* 128-131 *)
  else if existsb (fun r => rtrunc (r_rate r) =? 0)%Z l then Err RuntimeError                                (* 133: modulo 0 *)
  else if existsb (fun r => negb (sr mod rtrunc (r_rate r) =? 0))%Z l then Err ValueError                    (* 133-137 *)
  else if negb split && overlaps l then Err ValueError                                                       (* 139-146 *)
  else Ok tt.
(** int(sample_rate // rate) *)
Definition dec_step (sr : Z) (r : row) : Z := Int_part (IZR sr / r_rate r).
(** decimator.py 148-167, [build_variable_indices] *)
Fixpoint dec_indices (sr : Z) (l : list row) (idx : list Z) : res (list Z) :=
  match l with
  | [] => Ok idx
  | s :: l' =>
    let* start := match rev idx with
                  | [] => Ok (rtrunc (r_start s * IZR sr))                                                   (* 159-160 *)
                  | [_] => Err IndexError
                  | a :: b :: _ => Ok (a + (a - b))%Z                                                        (* 162 *)
                  end in
    let stop := rtrunc (IZR start + (r_end s - r_start s) * IZR sr) in                                       (* 163 *)
    let* new := arange3 start stop (dec_step sr s) in                                                        (* 164-165 *)
    dec_indices sr l' (idx ++ new)                                                                           (* 166 *)
  end.
(** decimator.py 98-116, [__init__] *)
Definition dec_create (sr : Z) (sched : list row) (split : bool) : res decimator :=
  let* _ := dec_validate sr sched split in
  let* idx := dec_indices sr sched [] in
  match sched with
  | [] => Err IndexError
  | r0 :: _ => Ok (mkdec sr sched split idx (rtrunc ((r_end (last sched r0) - r_start r0) * IZR sr)))
  end.
(** X.index_select(-1, idx) *)
Definition index_select_last {A} (x : tensor A) (idx : list Z) : res (tensor A) :=
  let n := Z.of_nat (last (shape x) 0%nat) in
  if forallb (fun k => (0 <=? k) && (k <? n))%Z idx
  then Ok (mk (removelast (shape x) ++ [List.length idx]) (fun i => elt x (removelast i ++ [Z.to_nat (nth (last i 0%nat) idx 0%Z)])))
  else Err IndexError.
(** decimator.py 169-203, [split_by_schedule] *)
Definition dec_segment {A} (sr : Z) (x : tensor A) (s : row) : res (tensor A) :=
  let* idx := arange3 (rtrunc (r_start s * IZR sr)) (rtrunc (r_end s * IZR sr)) (dec_step sr s) in
  index_select_last x idx.
(** decimator.py 205-233, [forward] *)
Definition dec_forward {A} (m : decimator) (x : tensor A) : res (tensor A + list (tensor A)) :=
  if negb (Z.of_nat (last (shape x) 0%nat) =? dc_len m)%Z then Err ValueError
  else if dc_split m then let* l := sequence (map (dec_segment (dc_sr m) x) (dc_sched m)) in Ok (inr l)
  else let* r := index_select_last x (dc_idx m) in Ok (inl r).

(** ** heterodyne.py *)
Inductive hkind := HTime | HFreq | HBoth.
Record heterodyne := mkhet { ht_sr : R; ht_phase : tensor C; ht_kind : hkind }.
(** heterodyne.py 67-106, [__init__] and [_heterodyning_phase].  mtsun is the constant MTSUN_SI.  At zero frequency
    pi_m_f ** (-5/3) is inf and the phase nan; here it is some complex number, and [forward] overwrites that bin. *)
Definition het_create (mtsun sr kernel_length : R) (chirp_mass : tensor R) (return_type : string) : res heterodyne :=
  match shape chirp_mass with
  | [M] =>
    let N := rtrunc (kernel_length * sr) in
    if (N <=? 0)%Z then Err RuntimeError else
    let n := Z.to_nat N in
    let phase := mk [M; rbins n] (fun i => match i with
      | [m; k] => let pi_m_f := PI * (elt chirp_mass [m] * mtsun) * rfftfreq n sr k in cis (3 / 128 * Rpower pi_m_f (- (5 / 3)))
      | _ => RtoC 0 end) in
    if string_dec return_type "time" then Ok (mkhet sr phase HTime)
    else if string_dec return_type "freq" then Ok (mkhet sr phase HFreq)
    else if string_dec return_type "both" then Ok (mkhet sr phase HBoth)
    else Err ValueError
  | _ => Err IndexError                              (* the exact failure depends on the rank *)
  end.
(** x[:, :, None] of a tensor with at least two dimensions *)
Definition unsqueeze2 {A} (t : tensor A) : tensor A :=
  mk (match shape t with a :: b :: s => a :: b :: 1%nat :: s | s => s end)
     (fun i => match i with a :: b :: _ :: r => elt t (a :: b :: r) | _ => elt t i end).
(** heterodyne.py 108-137, [forward]; the pair (time, freq) of which the requested parts are returned.  Any rank: with fewer
    than two dimensions the index [:, :, None] of line 127 (or dim=-1 of line 125) fails. *)
Definition het_both (m : heterodyne) (x : tensor R) : res (tensor R * tensor C) :=
  match shape x with
  | [] => Err IndexError
  | _ =>
    let T := last (shape x) 0%nat in
    if (T =? 0)%nat then Err RuntimeError else
    let X := mk (removelast (shape x) ++ [rbins T])
       (fun i => Cmult (RtoC (/ ht_sr m)) (rfft T (fun t => elt x (removelast i ++ [t])) (last i 0%nat))) in  (* 125-126 *)
    if (ndim X <? 2)%nat then Err IndexError else
    let* Y := bzip Cmult (unsqueeze2 X) (unsqueeze0 (ht_phase m)) in                                         (* 127 *)
    let Y := mk (shape Y) (fun i => if (last i 0 =? 0)%nat then RtoC 0 else elt Y i) in                      (* 128 *)
    let F := last (shape Y) 0%nat in
    if (2 * (F - 1) <? 1)%nat then Err RuntimeError else
    let y := mk (removelast (shape Y) ++ [2 * (F - 1)]%nat)
               (fun i => ht_sr m * irfft (2 * (F - 1)) (fun k => elt Y (removelast i ++ [k])) (last i 0%nat)) in (* 129-130 *)
    Ok (y, Y)
  end.
Definition het_forward (m : heterodyne) (x : tensor R) : res (option (tensor R) * option (tensor C)) :=
  let* (y, Y) := het_both m x in
  Ok (match ht_kind m with HTime => (Some y, None) | HFreq => (None, Some Y) | HBoth => (Some y, Some Y) end).  (* 132-137 *)
