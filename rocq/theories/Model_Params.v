(** * Integers that the code obtains from doubles: the parameters computed with literals such as 0.49.
    Everything here is computed with the kernel's binary64 numbers, as CPython and numpy do.
    Simplification: a Python integer is converted to a double exactly when it is at most 2^53 in absolute value; larger
    ones (up to 2^63) are rounded correctly by [float_ofZ]; beyond that the model says nothing. *)
From Coq Require Import List ZArith Lia Bool Arith.
From Coq Require Import Floats.
From Verif Require Import Base Num Model_Core Model_Stats Model_Post Model_Utils Model_Trans Model_SESD.
Import ListNotations.

(** int(v) for a double v: truncation; ValueError for nan, OverflowError (OtherError here) for an infinity. *)
Definition float_int (v : float) : res Z :=
  match Prim2SF v with
  | S754_zero _ => Ok 0%Z
  | S754_finite s m e => Ok ((if s then -1 else 1) * (if 0 <=? e then Zpos m * 2 ^ e else Zpos m / 2 ^ (- e)))%Z
  | S754_infinity _ => Raise OtherError
  | S754_nan => Raise ValueError
  end.
(** int(numpy.ceil(v)) *)
Definition float_int_ceil (v : float) : res Z :=
  match Prim2SF v with
  | S754_zero _ => Ok 0%Z
  | S754_finite s m e => let k := ((if s then -1 else 1) * Zpos m)%Z in Ok (if 0 <=? e then k * 2 ^ e else - ((- k) / 2 ^ (- e)))%Z
  | S754_infinity _ => Raise OtherError
  | S754_nan => Raise ValueError
  end.
(** pysad/models/seasonal_esd.py 39: int(window_size * 0.49) *)
Definition se_limit (window_size : Z) : res Z := float_int (float_ofZ window_size * 0.49)%float.
(** pysad/models/seasonal_esd.py 25-56, with the limit computed as in the code.  As in [SESD_init], np.isfinite(alpha) is part of
    0 < alpha < 1. *)
Definition SESD_init_code (period window_size max_anomalies : Z) (alpha : float) : res (sesd float) :=
  if (max_anomalies <? 1)%Z then Raise ValueError
  else if (window_size <? 2 * period)%Z then Raise ValueError
  else rbind (se_limit window_size) (fun limit =>
  if (limit <? max_anomalies)%Z then Raise ValueError
  else if negb (oltb n0 alpha && oltb alpha (nofZ 1)) then Raise ValueError
  else rbind (MSTL_init (A := float) period (Some window_size)) (fun _ => Ok (mkSESD period window_size max_anomalies alpha (Window_init window_size)))).
(** pysad/models/knn_cad.py 60: int(self.probationaryPeriod / 2); 102: int(self.probationaryPeriod / 5) *)
Definition kn_half (probationary_period : Z) : res Z := float_int (float_ofZ probationary_period / 2)%float.
Definition kn_fifth (probationary_period : Z) : res Z := float_int (float_ofZ probationary_period / 5)%float.
(** pysad/models/kitnet_model/dA.py 44-45: int(numpy.ceil(self.params.n_visible*self.params.hiddenRatio)); KitNET.py 20: hidden_ratio=0.75 *)
Definition da_units (n_visible : Z) (hidden_ratio : float) : res Z := float_int_ceil (float_ofZ n_visible * hidden_ratio)%float.
(** pysad/transform/projection/streamhash_projector.py 13: density=1 / 3.0 *)
Definition default_density : float := (1 / 3)%float.
