(** * Spec: the vocabulary in which the properties are stated.

    Nothing here refers to the model.  Everything is a textbook definition:
    last n elements, sums, means, variances, order statistics, replay of a history
    of insertions and deletions on a multiset (a list up to permutation). *)
From Coq Require Import List ZArith Lia Bool Reals Lra Permutation Sorted.
Import ListNotations.

(** The last [n] elements of [l], in order (all of [l] if it is shorter). *)
Definition lastn {A} (n : nat) (l : list A) : list A := skipn (length l - n) l.

(** The non-empty prefixes of a list, shortest first. *)
Fixpoint prefixes {A} (l : list A) : list (list A) :=
  match l with
  | [] => []
  | x :: l' => [x] :: map (cons x) (prefixes l')
  end.

(** Consecutive blocks of [w] elements: the [k]-th one. *)
Definition block {A} (w k : nat) (l : list A) : list A := firstn w (skipn (k * w) l).

(** ** Multisets and histories *)

(** An operation on a meter. *)
Inductive mop (A : Type) : Type := Upd (x : A) | Rem (x : A) | Get.
Arguments Upd {A} x.
Arguments Rem {A} x.
Arguments Get {A}.

(** Remove one occurrence of [x] (nothing happens if there is none). *)
Fixpoint remove1 {A} (dec : forall a b : A, {a = b} + {a <> b}) (x : A) (l : list A) : list A :=
  match l with
  | [] => []
  | y :: l' => if dec x y then l' else y :: remove1 dec x l'
  end.

(** The values present after a history: inserted and not yet removed. *)
Definition replay1 {A} dec (l : list A) (o : mop A) : list A :=
  match o with
  | Upd x => x :: l
  | Rem x => remove1 dec x l
  | Get => l
  end.
Definition replay {A} dec (h : list (mop A)) : list A := fold_left (replay1 dec) h [].

(** Every removed value is present when it is removed. *)
Fixpoint valid_from {A} dec (l : list A) (h : list (mop A)) : Prop :=
  match h with
  | [] => True
  | o :: h' => match o with Rem x => In x l | _ => True end /\ valid_from dec (replay1 dec l o) h'
  end.
Definition valid {A} dec (h : list (mop A)) : Prop := valid_from dec [] h.

(** ** Real statistics *)
Open Scope R_scope.

Definition Rsum (l : list R) : R := fold_right Rplus 0 l.
Definition Rlen {A} (l : list A) : R := INR (length l).
Definition mean (l : list R) : R := Rsum l / Rlen l.
Definition variance (l : list R) : R := mean (map (fun x => (x - mean l) ^ 2) l).
Definition std (l : list R) : R := sqrt (variance l).

(** [m] is a maximum / minimum of [l]. *)
Definition is_max (m : R) (l : list R) : Prop := In m l /\ forall x, In x l -> x <= m.
Definition is_min (m : R) (l : list R) : Prop := In m l /\ forall x, In x l -> m <= x.

(** [m] is the median of [l]: the middle element of a sorted arrangement of [l], or
    the mean of the two middle ones. *)
Definition is_median (m : R) (l : list R) : Prop :=
  exists s, Permutation s l /\ Sorted Rle s /\ l <> [] /\
    m = if Nat.odd (length l)
        then nth (length l / 2) s 0
        else (nth (length l / 2 - 1) s 0 + nth (length l / 2) s 0) / 2.

(** Fraction of the elements of [l] satisfying [P]. *)
Definition fraction {A} (P : A -> bool) (l : list A) : R := Rlen (filter P l) / Rlen l.

Close Scope R_scope.
