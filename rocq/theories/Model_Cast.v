(** * The conversion of grid cells to 32-bit integers (pysad/models/rs_hash.py, pysad/models/xstream.py) *)
From Coq Require Import ZArith Bool.

(** rs_hash.py 69, xstream.py 122, 135 and 160: numpy's astype(np.int32) of an integral double.  Integers from -2^31 to
    2^31 - 1 are kept.  For all others, and for nan and the infinities, the result of the conversion is left to the machine;
    [out] is that result (-2^31 on x86; numpy warns at most).  Simplification: the machine gives the same result for every
    value it cannot convert. *)
Definition int32 (out z : Z) : Z := if ((- 2 ^ 31 <=? z) && (z <? 2 ^ 31))%Z then z else out.
(** rs_hash.py 65-69, xstream.py 122: np.floor followed by the conversion; it takes the place of the argument [floor] of the
    models RSHash and xStream. *)
Definition floor32 {A} (out : Z) (floor : A -> Z) (v : A) : Z := int32 out (floor v).
