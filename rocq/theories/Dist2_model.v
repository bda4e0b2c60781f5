(** Model of the argument checking and of the log-densities of ml4gw/distributions.py (LogUniform, LogNormal, PowerLaw) in idealised
    floating-point arithmetic with infinities and NaN (one unsigned zero), together with the parts of torch.distributions they inherit:
    Distribution (default validation, checks of parameters and values), Uniform, Normal and TransformedDistribution with ExpTransform,
    AffineTransform and PowerTransform.  One batch element; values handed to log_prob are tensors. *)
From Coq Require Import Reals Lra.
From Verif Require Import Base.
Local Open Scope R_scope.

(** ** extended numbers: finite, +inf, -inf, NaN *)
Inductive er := EF (r : R) | EP | EM | EN.
Definition sgn_inf (r : R) : er := if Rlt_dec 0 r then EP else if Rlt_dec r 0 then EM else EN.
Definition eneg (a : er) : er := match a with EF x => EF (- x) | EP => EM | EM => EP | EN => EN end.
Definition eadd (a b : er) : er :=
  match a, b with
  | EN, _ | _, EN | EP, EM | EM, EP => EN
  | EF x, EF y => EF (x + y) | EP, _ | _, EP => EP | EM, _ | _, EM => EM end.
Definition esub (a b : er) : er := eadd a (eneg b).
Definition emul (a b : er) : er :=
  match a, b with
  | EN, _ | _, EN => EN
  | EF x, EF y => EF (x * y)
  | EF x, EP | EP, EF x => sgn_inf x | EF x, EM | EM, EF x => sgn_inf (- x)
  | EP, EP | EM, EM => EP | EP, EM | EM, EP => EM end.
Definition ediv (a b : er) : er :=
  match a, b with
  | EN, _ | _, EN => EN
  | EF x, EF y => if Req_EM_T y 0 then sgn_inf x else EF (x / y)
  | EF _, _ => EF 0
  | EP, EF y => if Rlt_dec y 0 then EM else EP | EM, EF y => if Rlt_dec y 0 then EP else EM
  | _, _ => EN end.
Definition eabs (a : er) : er := match a with EF x => EF (Rabs x) | EM => EP | a => a end.
Definition elog (a : er) : er :=
  match a with EF x => if Rlt_dec 0 x then EF (ln x) else if Req_EM_T x 0 then EM else EN | EP => EP | _ => EN end.
Definition eexp (a : er) : er := match a with EF x => EF (exp x) | EP => EP | EM => EF 0 | EN => EN end.
(** x.pow(a) for x >= 0 and a <> 0 (a negative base is outside this model) *)
Definition epow (x : er) (a : R) : er :=
  match x with
  | EF x => if Rlt_dec 0 x then EF (Rpower x a) else if Req_EM_T x 0 then (if Rlt_dec 0 a then EF 0 else EP) else EN
  | EP => if Rlt_dec 0 a then EP else EF 0
  | _ => EN end.
(** comparisons: false as soon as one side is NaN *)
Definition ele (a b : er) : bool :=
  match a, b with
  | EN, _ | _, EN => false | EM, _ | _, EP => true
  | EF x, EF y => if Rle_dec x y then true else false | _, _ => false end.
Definition elt (a b : er) : bool :=
  match a, b with
  | EN, _ | _, EN => false
  | EF x, EF y => if Rlt_dec x y then true else false
  | EM, EM | EP, EP => false | EM, _ | _, EP => true | _, _ => false end.

(** ** torch.distributions *)
(** Distribution.__init__: validate_args=None leaves the class default, which is on (__debug__) *)
Definition checked (v : option bool) : bool := match v with None => true | Some b => b end.
(** Uniform: low < high is checked, and log_prob checks the closed interval, but gives 0 the density at [high] *)
Record unif := mku { un_low : er; un_high : er; un_chk : bool }.
Definition uniform_create (lo hi : er) (v : option bool) : res unif :=
  if checked v && negb (elt lo hi) then Err ValueError else Ok (mku lo hi (checked v)).
Definition uniform_rsample (s : unif) (u : R) : er := eadd (un_low s) (emul (EF u) (esub (un_high s) (un_low s))).
Definition ind (b : bool) : R := if b then 1 else 0.
Definition uniform_log_prob (s : unif) (x : er) : res er :=
  if un_chk s && negb (ele (un_low s) x && ele x (un_high s)) then Err ValueError else
  Ok (esub (elog (EF (ind (ele (un_low s) x) * ind (elt x (un_high s))))) (elog (esub (un_high s) (un_low s)))).
(** Normal: scale > 0 is checked (loc is any real) *)
Record norm_ := mkn { no_loc : R; no_scale : R; no_chk : bool }.
Definition normal_create (loc scale : R) (v : option bool) : res norm_ :=
  if checked v && negb (elt (EF 0) (EF scale)) then Err ValueError else Ok (mkn loc scale (checked v)).
Definition normal_rsample (s : norm_) (eps : R) : R := no_loc s + eps * no_scale s.
Definition normal_log_prob (s : norm_) (x : er) : res er :=
  if no_chk s && negb (ele x EP && ele EM x) then Err ValueError else      (* constraints.real: value == value *)
  Ok (esub (esub (eneg (ediv (emul (esub x (EF (no_loc s))) (esub x (EF (no_loc s)))) (EF (2 * (no_scale s * no_scale s)))))
                 (elog (EF (no_scale s)))) (EF (ln (sqrt (2 * PI))))).

(** ** LogUniform, distributions.py 89-99.  TransformedDistribution.log_prob: the value is checked against the support (here the codomain
    of ExpTransform: positive numbers), the inverse transform is applied and its log-Jacobian subtracted *)
Record logu := mklu { lu_base : unif; lu_chk : bool }.
Definition logu_create (low high : R) (v : option bool) : res logu :=
  let* b := uniform_create (elog (EF low)) (elog (EF high)) v in Ok (mklu b (checked v)).
Definition logu_sample (s : logu) (u : R) : er := eexp (uniform_rsample (lu_base s) u).
Definition logu_log_prob (s : logu) (y : R) : res er :=
  if lu_chk s && negb (elt (EF 0) (EF y)) then Err ValueError else
  let x := elog (EF y) in
  let lp := esub (EF 0) x in
  let* b := uniform_log_prob (lu_base s) x in
  Ok (eadd lp b).

(** ** LogNormal, distributions.py 102-115 *)
Record logn := mkln { ln_low : option R; ln_base : norm_; ln_chk : bool }.
Definition logn_create (mean std : R) (low : option R) (v : option bool) : res logn :=   (* 103-111 *)
  let* b := normal_create mean std v in Ok (mkln low b (checked v)).
(** 113-115: [support] is a plain method: d.support is a bound method, d.support() the constraint value > low, if any *)
Definition logn_support (s : logn) : option (R -> bool) :=
  match ln_low s with Some l => Some (fun y => elt (EF l) (EF y)) | None => None end.
Definition logn_sample (s : logn) (eps : R) : R := exp (normal_rsample (ln_base s) eps).
(** the check of the value evaluates self.support.check, an attribute a method does not have *)
Definition logn_log_prob (s : logn) (y : R) : res er :=
  if ln_chk s then Err AttributeError else
  let x := elog (EF y) in
  let* b := normal_log_prob (ln_base s) x in
  Ok (eadd (esub (EF 0) x) b).

(** ** PowerLaw, distributions.py 137-161 *)
(** Python's float power for a base >= 0 (a negative base is outside this model) *)
Definition pypow (x a : R) : res R :=
  if Rlt_dec 0 x then Ok (Rpower x a) else if Rlt_dec 0 a then Ok 0 else Err ZeroDivisionError.
Record plaw := mkpl { pl_index : R; pl_base : unif; pl_chk : bool }.
Definition pl_create (minimum maximum index : R) (v : option bool) : res plaw :=
  if Req_EM_T index 0 then Err ValueError else                                          (* 142-143 *)
  if Req_EM_T index (-1) then                                                           (* 144-147 *)
    let* b := uniform_create (elog (EF minimum)) (elog (EF maximum)) (Some false) in Ok (mkpl index b (checked v))
  else
    let a := index + 1 in                                                               (* 149-151 *)
    let* lo := pypow minimum a in let* hi := pypow maximum a in
    let* b := uniform_create (EF (lo / a)) (EF (hi / a)) (Some false) in                (* 156 *)
    Ok (mkpl index b (checked v)).
Definition pl_sample (s : plaw) (u : R) : er :=
  let x := uniform_rsample (pl_base s) u in
  if Req_EM_T (pl_index s) (-1) then eexp x
  else let a := pl_index s + 1 in epow (eadd (EF 0) (emul (EF a) x)) (1 / a).           (* 152-155 *)
(** the support is [nonnegative] (137) *)
Definition pl_log_prob (s : plaw) (y : R) : res er :=
  if pl_chk s && negb (ele (EF 0) (EF y)) then Err ValueError else
  if Req_EM_T (pl_index s) (-1) then
    let x := elog (EF y) in
    let* b := uniform_log_prob (pl_base s) x in Ok (eadd (esub (EF 0) x) b)
  else
    let a := pl_index s + 1 in
    let x := epow (EF y) (1 / (1 / a)) in                                               (* PowerTransform *)
    let lp := esub (EF 0) (elog (eabs (ediv (emul (EF (1 / a)) (EF y)) x))) in
    let z := ediv (esub x (EF 0)) (EF a) in                                             (* AffineTransform *)
    let lp := esub lp (EF (ln (Rabs a))) in
    let* b := uniform_log_prob (pl_base s) z in Ok (eadd lp b).
