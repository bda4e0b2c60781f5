(** Specification vocabulary for utils/slicing.py, independent of the model. *)
From Verif Require Import Base.

(** Specification of the interval [lo, hi) of window starts that sample_kernels draws from, for a
    timeseries of [T] samples, kernels of [k] samples and the given max_center_offset. *)
Definition start_range (T k : Z) (off : option Z) (lo hi : Z) : Prop :=
  match off with
  | None => lo = 0 /\ hi = T - k
  | Some o => lo = T / 2 - o - k /\ hi = if (0 <=? o) then T / 2 else T / 2 + o
  end%Z.

(** The error raised when that interval is not a non-empty interval of valid starts: sample_kernels itself rejects
    (ValueError) a negative first start and, for a negative offset, an empty interval; any other empty interval is
    left to torch.randint (RuntimeError). *)
Definition range_error (off : option Z) (lo hi : Z) : exn :=
  (if (lo <? 0) || (match off with Some o => o <? 0 | None => false end && (hi <=? lo)) then ValueError else RuntimeError)%Z.

