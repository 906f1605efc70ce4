(** * Arithmetic on numpy arrays of a fixed-width integer type
    An instance with an integer dtype (images, counters, time stamps) is stored as it is; what pysad computes with it follows
    numpy's type rules (NEP 50, numpy 2.1.3 in requirements.txt:1).  The models of pysad/statistics/*.py,
    pysad/models/median_absolute_deviation.py, standard_absolute_deviation.py and knn_cad.py are generic in the arithmetic
    (class [Num]); this file gives them that arithmetic. *)
From Coq Require Import ZArith Reals Bool.
From Verif Require Import Num.

(** numpy.uint8 is [UInt 8], numpy.int64 is [SInt 64]. *)
Inductive inttype : Type := UInt (bits : nat) | SInt (bits : nat).
(** The value an integer result is stored as: modulo 2^bits, within 0 .. 2^bits - 1 or -2^(bits-1) .. 2^(bits-1) - 1. *)
Definition wrap (ty : inttype) (z : Z) : Z :=
  match ty with
  | UInt w => z mod 2 ^ Z.of_nat w
  | SInt w => (z + 2 ^ (Z.of_nat w - 1)) mod 2 ^ Z.of_nat w - 2 ^ (Z.of_nat w - 1)
  end.
(** A number of the instance's integer type, or a float64.  Simplification: float64 arithmetic is exact here, as in [NumR]. *)
Inductive tnum : Type := TI (z : Z) | TF (r : R).
Definition tval (t : tnum) : R := match t with TI z => IZR z | TF r => r end.
(** integer op integer stays an integer, wrapped; anything with a float64 (or a Python float such as 0.0 or 1e-10) is a float64. *)
Definition t2 (ty : inttype) (fz : Z -> Z -> Z) (fr : R -> R -> R) (a b : tnum) : tnum :=
  match a, b with TI x, TI y => TI (wrap ty (fz x y)) | _, _ => TF (fr (tval a) (tval b)) end.
Definition t1 (ty : inttype) (fz : Z -> Z) (fr : R -> R) (a : tnum) : tnum :=
  match a with TI x => TI (wrap ty (fz x)) | TF r => TF (fr r) end.
(** Comparisons are by value. *)
Definition OrdT : Ord tnum := {|
  oltb := fun a b => Rltb (tval a) (tval b);
  oleb := fun a b => Rleb (tval a) (tval b);
  oeqb := fun a b => Reqb (tval a) (tval b) |}.
(** [n0] and [nofZ] are the literals of the models above: 0.0 of the meters, the counts divisions are made by (true division
    gives a float64 in any case) and np.ones in knn_cad.py:46.  [num**2] stays in the integer type, as [num*num] does. *)
Definition NumT (ty : inttype) : Num tnum := {|
  num_ord := OrdT; n0 := TF 0;
  nadd := t2 ty Z.add Rplus; nsub := t2 ty Z.sub Rminus; nmul := t2 ty Z.mul Rmult;
  ndiv := fun a b => TF (tval a / tval b);
  nneg := t1 ty Z.opp Ropp; nabs := t1 ty Z.abs Rabs;
  nsqrt := fun a => TF (R_sqrt.sqrt (tval a)); nofZ := fun z => TF (IZR z) |}.
