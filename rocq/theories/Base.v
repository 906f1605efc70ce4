(** * Base: Python results, exceptions, mutable objects and for loops.

    Not a model of a particular file of /repo: this is the (small) semantics of the
    Python fragment in which pysad is written, used by all the Model_*.v files. *)
From Coq Require Import List ZArith Lia Bool.
Import ListNotations.

(** The Python exception classes the modelled code can raise. *)
Inductive exn : Type :=
| ValueError | IndexError | KeyError | TypeError | AttributeError
| ZeroDivisionError | AssertionError | LinAlgError | NotFittedError | OtherError.

(** Outcome of evaluating a Python expression. *)
Inductive res (A : Type) : Type :=
| Ok (a : A)
| Raise (e : exn).
Arguments Ok {A} a.
Arguments Raise {A} e.

Definition exn_eqb (a b : exn) : bool :=
  match a, b with
  | ValueError, ValueError | IndexError, IndexError | KeyError, KeyError
  | TypeError, TypeError | AttributeError, AttributeError
  | ZeroDivisionError, ZeroDivisionError | AssertionError, AssertionError
  | LinAlgError, LinAlgError | NotFittedError, NotFittedError | OtherError, OtherError => true
  | _, _ => false
  end.

Definition rmap {A B} (f : A -> B) (r : res A) : res B :=
  match r with Ok a => Ok (f a) | Raise e => Raise e end.
Definition rbind {A B} (r : res A) (f : A -> res B) : res B :=
  match r with Ok a => f a | Raise e => Raise e end.
Definition is_ok {A} (r : res A) : bool := match r with Ok _ => true | Raise _ => false end.

(** A method of an object whose attributes have type [S]: it returns a value or
    raises, and in both cases leaves the object in some state.  On a raise the state
    component is the object as mutated so far (Python does not roll back). *)
Definition M (S A : Type) : Type := S -> res A * S.

Definition ret {S A} (a : A) : M S A := fun s => (Ok a, s).
Definition raise {S A} (e : exn) : M S A := fun s => (Raise e, s).
Definition bind {S A B} (m : M S A) (k : A -> M S B) : M S B :=
  fun s => match m s with
           | (Ok a, s') => k a s'
           | (Raise e, s') => (Raise e, s')
           end.
Definition gets {S A} (f : S -> A) : M S A := fun s => (Ok (f s), s).
Definition modify {S} (f : S -> S) : M S unit := fun s => (Ok tt, f s).
Definition lift {S A} (r : res A) : M S A := fun s => (r, s).

(** A method call on a sub-object stored in an attribute ([getter]/[setter]). *)
Definition zoom {S T A} (getter : S -> T) (setter : T -> S -> S) (m : M T A) : M S A :=
  fun s => let '(r, t) := m (getter s) in (r, setter t s).

Declare Scope m_scope.
Delimit Scope m_scope with M.
Notation "x <- m ;; k" := (bind m (fun x => k)) (at level 61, m at next level, right associativity) : m_scope.
Notation "m ;;; k" := (bind m (fun _ => k)) (at level 61, right associativity) : m_scope.

Definition exec {S A} (m : M S A) (s : S) : S := snd (m s).
Definition eval {S A} (m : M S A) (s : S) : res A := fst (m s).

(** Python [for x in l: body x]. *)
Fixpoint iterM {S X} (body : X -> M S unit) (l : list X) : M S unit :=
  match l with
  | [] => ret tt
  | x :: l' => bind (body x) (fun _ => iterM body l')
  end.

(** Python [for x in l: out.append(body x)] (or writing out[i]). *)
Fixpoint mapM {S X B} (body : X -> M S B) (l : list X) : M S (list B) :=
  match l with
  | [] => ret []
  | x :: l' => bind (body x) (fun b => bind (mapM body l') (fun bs => ret (b :: bs)))
  end.

(** A Python generator that has been run to exhaustion: what it yields, and the
    exception (if any) raised by the last [next()].  Loops over it see the items
    first and then the exception. *)
Definition gen (X : Type) : Type := (list X * option exn)%type.

Definition for_gen {S X} (body : X -> M S unit) (g : gen X) : M S unit :=
  bind (iterM body (fst g)) (fun _ =>
  match snd g with None => ret tt | Some e => raise e end).

Definition map_gen {S X B} (body : X -> M S B) (g : gen X) : M S (list B) :=
  bind (mapM body (fst g)) (fun bs =>
  match snd g with None => ret bs | Some e => raise e end).

(** ** Basic facts *)
Lemma iterM_app : forall S X (b : X -> M S unit) l1 l2 s,
  iterM b (l1 ++ l2) s = bind (iterM b l1) (fun _ => iterM b l2) s.
Proof.
  intros S X b l1; induction l1 as [|x l1 IH]; intros l2 s; simpl.
  - reflexivity.
  - unfold bind in *. destruct (b x s) as [[[]|e] s']; auto.
Qed.

Lemma bind_ok : forall S A B (m : M S A) (k : A -> M S B) s a s',
  m s = (Ok a, s') -> bind m k s = k a s'.
Proof. intros. unfold bind. rewrite H. reflexivity. Qed.

Lemma bind_raise : forall S A B (m : M S A) (k : A -> M S B) s e s',
  m s = (Raise e, s') -> bind m k s = (Raise e, s').
Proof. intros. unfold bind. rewrite H. reflexivity. Qed.

Lemma mapM_length : forall S X B (f : X -> M S B) l s bs s',
  mapM f l s = (Ok bs, s') -> length bs = length l.
Proof.
  intros S X B f l; induction l as [|x l IH]; simpl; intros s bs s' H.
  - inversion H; reflexivity.
  - unfold bind in H. destruct (f x s) as [[b|e] s1]; [|discriminate].
    destruct (mapM f l s1) as [[bs1|e] s2] eqn:E; [|discriminate].
    inversion H; subst. simpl. f_equal. eauto.
Qed.

(** Replace element [i] of a Python list ([l[i] = x]); out-of-range positions are
    handled by the callers, which raise [IndexError] before writing. *)
Fixpoint set_nth {A} (i : nat) (x : A) (l : list A) : list A :=
  match l, i with
  | [], _ => []
  | _ :: l', O => x :: l'
  | y :: l', S i' => y :: set_nth i' x l'
  end.

Lemma set_nth_length : forall A i (x : A) l, length (set_nth i x l) = length l.
Proof. intros A i; induction i; intros x [|y l]; simpl; auto. Qed.

Lemma nth_error_set_nth_eq : forall A i (x : A) l, i < length l -> nth_error (set_nth i x l) i = Some x.
Proof. intros A i; induction i; intros x [|y l] H; simpl in *; try lia; auto. apply IHi; lia. Qed.

Lemma nth_error_set_nth_neq : forall A i j (x : A) l, i <> j -> nth_error (set_nth i x l) j = nth_error l j.
Proof.
  intros A i; induction i; intros j x [|y l] H; simpl; auto.
  - destruct j; [lia | reflexivity].
  - destruct j; simpl; [reflexivity | apply IHi; lia].
Qed.

Lemma nth_set_nth_eq : forall A i (x d : A) l, i < length l -> nth i (set_nth i x l) d = x.
Proof. intros A i; induction i; intros x d [|y l] H; simpl in *; try lia; auto. apply IHi; lia. Qed.

Lemma nth_set_nth_neq : forall A i j (x d : A) l, i <> j -> nth j (set_nth i x l) d = nth j l d.
Proof.
  intros A i; induction i; intros j x d [|y l] H; simpl; auto.
  - destruct j; [lia | reflexivity].
  - destruct j; simpl; [reflexivity | apply IHi; lia].
Qed.

(** Python list indexing with a non-negative index. *)
Definition py_index {A} (l : list A) (i : nat) : res A :=
  match nth_error l i with Some a => Ok a | None => Raise IndexError end.

(** Python list indexing with an arbitrary integer (negative = from the end). *)
Definition py_index_Z {A} (l : list A) (i : Z) : res A :=
  (if (0 <=? i)%Z then py_index l (Z.to_nat i)
   else if (0 <=? i + Z.of_nat (length l))%Z then py_index l (Z.to_nat (i + Z.of_nat (length l)))
   else Raise IndexError).

(** [list.remove(x)]: deletes the first element equal to x, [None] if absent. *)
Fixpoint list_remove {A} (eqb : A -> A -> bool) (x : A) (l : list A) : option (list A) :=
  match l with
  | [] => None
  | y :: l' => if eqb y x then Some l'
               else match list_remove eqb x l' with
                    | Some l'' => Some (y :: l'')
                    | None => None
                    end
  end.
