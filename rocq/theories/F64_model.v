(** Sizes and indices computed in double precision.  Elsewhere in the model the products and quotients below are exact reals;
    here they are rounded as IEEE binary64 rounds them (to nearest, ties to even).  Overflow to infinity is not modelled
    (exponents are unbounded above). *)
From Coq Require Import Reals ZArith Lra List.
From Flocq Require Import Core.
From Verif Require Import Base Gw_model.
Local Open Scope R_scope.
Definition fexp64 : Z -> Z := FLT_exp (-1074) 53.
(** being a double *)
Definition F64 (x : R) : Prop := generic_format radix2 fexp64 x.
(** the double nearest to x *)
Definition fl (x : R) : R := round radix2 fexp64 ZnearestE x.
(** [int(duration * sample_rate)]: transforms/heterodyne.py 80, transforms/spectral.py 68-69, transforms/spectrogram.py 67,
    transforms/decimator.py 190-191, transforms/snr_rescaler.py 22, transforms/whitening.py 67, 155, 274, transforms/transform.py 55, 58,
    transforms/qtransform.py 98, waveforms/generator.py 86, waveforms/adhoc/ringdown.py 22, waveforms/adhoc/sine_gaussian.py 27 *)
Definition samples64 (duration sample_rate : R) : Z := rtrunc (fl (duration * sample_rate)).
(** [int(fduration * sample_rate / 2)]: spectral.py 424, 535, transforms/whitening.py 282 *)
Definition half64 (fduration sample_rate : R) : Z := rtrunc (fl (fl (fduration * sample_rate) / 2)).
(** [int(cutoff / df)] with [df = sample_rate / N]: spectral.py 405, 407, 410 *)
Definition cut64 (cutoff sample_rate : R) (n : Z) : Z := rtrunc (fl (cutoff / fl (sample_rate / IZR n))).
(** spectral.py 405-411: is bin k of the inverse amplitude spectrum set to zero by the high-pass (low-pass) option?
    The indices are non-negative here; an index past the end leaves nothing (everything) to the slice. *)
Definition highpassed64 (cutoff sample_rate : R) (n : Z) (k : Z) : bool := (k <? cut64 cutoff sample_rate n)%Z.
Definition lowpassed64 (cutoff sample_rate : R) (n : Z) (k : Z) : bool := (cut64 cutoff sample_rate n <=? k)%Z.
