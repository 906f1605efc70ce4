(** * Model of pysad/statistics *)
From Coq Require Import List ZArith Lia Bool.
From Verif Require Import Base Num Spec.
Import ListNotations.
Open Scope m_scope.

(** A concrete UnivariateStatistic class: its attributes, constructor (no arguments) and
    methods.  pysad/core/base_statistic.py:10-45.  [update] and [remove] return [self] in
    Python; here they return [tt] and the new attributes are the state component. *)
Record Meter (A B : Type) : Type := mkMeter {
  mt_state : Type;
  mt_init : mt_state;
  mt_update : A -> M mt_state unit;
  mt_remove : A -> M mt_state unit;
  mt_get : M mt_state B
}.
Arguments mt_state {A B} m.
Arguments mt_init {A B} m.
Arguments mt_update {A B} m.
Arguments mt_remove {A B} m.
Arguments mt_get {A B} m.

(** One client call; exceptions are caught by the client, the object keeps the state it
    was left in. *)
Definition mt_do {A B} (m : Meter A B) (s : mt_state m) (o : mop A) : mt_state m :=
  match o with
  | Upd x => exec (mt_update m x) s
  | Rem x => exec (mt_remove m x) s
  | Get => exec (mt_get m) s
  end.
(** The object after a history of client calls on a fresh instance. *)
Definition mt_run {A B} (m : Meter A B) (h : list (mop A)) : mt_state m :=
  fold_left (mt_do m) h (mt_init m).
(** What get() answers after a history. *)
Definition mt_answer {A B} (m : Meter A B) (h : list (mop A)) : res B := eval (mt_get m) (mt_run m h).

(** ** pysad/statistics/count_meter.py *)
(** CountMeter: 11-12 __init__, 14-25 update, 27-38 remove, 40-46 get. *)
Definition CountMeter (A : Type) : Meter A Z := {|
  mt_state := Z;
  mt_init := 0%Z;
  mt_update := fun _ => modify (fun c => (c + 1)%Z);
  mt_remove := fun _ => modify (fun c => (c - 1)%Z);
  mt_get := gets (fun c => c)
|}.

Section Arith.
Context {A : Type} `{Num A}.

(** Attributes [sum]/[sum_squares] and [num_items]. *)
Record sumst : Type := mkSum { ss_sum : A; ss_n : Z }.

(** ** pysad/statistics/sum_meter.py: 12-14 __init__, 16-28 update, 30-42 remove, 44-50 get. *)
Definition SumMeter : Meter A A := {|
  mt_state := sumst;
  mt_init := mkSum n0 0;
  mt_update := fun x => modify (fun s => mkSum (nadd (ss_sum s) x) (ss_n s + 1));
  mt_remove := fun x => modify (fun s => mkSum (nsub (ss_sum s) x) (ss_n s - 1));
  mt_get := gets ss_sum
|}.

(** ** pysad/statistics/sum_squares_meter.py: 12-14, 16-28, 30-42, 44-50.
    [num**2] is modelled as [num*num]. *)
Definition SumSquaresMeter : Meter A A := {|
  mt_state := sumst;
  mt_init := mkSum n0 0;
  mt_update := fun x => modify (fun s => mkSum (nadd (ss_sum s) (nsq x)) (ss_n s + 1));
  mt_remove := fun x => modify (fun s => mkSum (nsub (ss_sum s) (nsq x)) (ss_n s - 1));
  mt_get := gets ss_sum
|}.

(** Python [a / n] for a float [a] and an int [n]. *)
Definition div_int (a : A) (n : Z) : res A :=
  if (n =? 0)%Z then Raise ZeroDivisionError else Ok (ndiv a (nofZ n)).

(** ** pysad/statistics/average_meter.py: 12-14, 16-28, 30-42, 44-50.
    The values are Python floats; numpy scalars would make the division by a zero
    count a nan instead of an exception. *)
Definition AverageMeter : Meter A A := {|
  mt_state := sumst;
  mt_init := mkSum n0 0;
  mt_update := fun x => modify (fun s => mkSum (nadd (ss_sum s) x) (ss_n s + 1));
  mt_remove := fun x => modify (fun s => mkSum (nsub (ss_sum s) x) (ss_n s - 1));
  mt_get := s <- gets (fun s => s) ;; lift (div_int (ss_sum s) (ss_n s))
|}.

(** ** pysad/statistics/variance_meter.py: 16-19 __init__, 21-35 update, 37-51 remove,
    53-65 get.  Composed of the three meters above, called in the order of the source. *)
Record varst : Type := mkVar {
  vs_sum : mt_state SumMeter; vs_sq : mt_state SumSquaresMeter; vs_cnt : mt_state (CountMeter A) }.
Definition set_vs_sum (x : mt_state SumMeter) (s : varst) := mkVar x (vs_sq s) (vs_cnt s).
Definition set_vs_sq (x : mt_state SumSquaresMeter) (s : varst) := mkVar (vs_sum s) x (vs_cnt s).
Definition set_vs_cnt (x : mt_state (CountMeter A)) (s : varst) := mkVar (vs_sum s) (vs_sq s) x.

Definition VarianceMeter : Meter A A := {|
  mt_state := varst;
  mt_init := mkVar (mt_init SumMeter) (mt_init SumSquaresMeter) (mt_init (CountMeter A));
  mt_update := fun x =>
    zoom vs_sq set_vs_sq (mt_update SumSquaresMeter x) ;;;
    zoom vs_cnt set_vs_cnt (mt_update (CountMeter A) x) ;;;
    zoom vs_sum set_vs_sum (mt_update SumMeter x);
  mt_remove := fun x =>
    zoom vs_sq set_vs_sq (mt_remove SumSquaresMeter x) ;;;
    zoom vs_sum set_vs_sum (mt_remove SumMeter x) ;;;
    zoom vs_cnt set_vs_cnt (mt_remove (CountMeter A) x);
  mt_get :=
    sq <- zoom vs_sq set_vs_sq (mt_get SumSquaresMeter) ;;
    sm <- zoom vs_sum set_vs_sum (mt_get SumMeter) ;;
    cnt <- zoom vs_cnt set_vs_cnt (mt_get (CountMeter A)) ;;
    q <- lift (div_int (nsq sm) cnt) ;;
    lift (div_int (nsub sq q) cnt)
|}.
End Arith.
Arguments sumst A : clear implicits.
Arguments varst A {H}.

(** ** heapq.heappush (CPython Lib/heapq.py, used by the three order meters):
    append, then _siftdown(heap, 0, len-1), which moves ancestors down into the hole
    while they are greater than the new item, and writes the new item once. *)
Section Order.
Context {A : Type} `{Ord A}.

Fixpoint siftdown (fuel : nat) (newitem : A) (heap : list A) (pos : nat) : list A :=
  match fuel with
  | O => set_nth pos newitem heap
  | S fuel' =>
    match pos with
    | O => set_nth pos newitem heap                          (* while pos > startpos *)
    | S _ =>
      let parentpos := (pos - 1) / 2 in                      (* (pos - 1) >> 1 *)
      match nth_error heap parentpos with
      | None => set_nth pos newitem heap                     (* unreachable: parentpos < pos < len *)
      | Some parent =>
        if oltb newitem parent
        then siftdown fuel' newitem (set_nth pos parent heap) parentpos
        else set_nth pos newitem heap
      end
    end
  end.

Definition heappush (heap : list A) (item : A) : list A :=
  siftdown (length heap) item (heap ++ [item]) (length heap).

(** ** pysad/statistics/max_meter.py: 15-18, 20-35, 37-54, 56-62.
    [minf] is -math.inf, the least value of the number type.  np.max of a non-empty
    list is the left fold of maximum (NaN never enters an ordered type; for binary64
    see P_Float.v). *)
Record maxst : Type := mkMax { mx_max : A; mx_lst : list A }.
Definition omax (a b : A) : A := if oltb a b then b else a.
Definition omin (a b : A) : A := if oltb b a then b else a.
(** numpy.max / numpy.min of a list; ValueError on an empty one. *)
Definition np_max (l : list A) : res A :=
  match l with [] => Raise ValueError | x :: l' => Ok (fold_left omax l' x) end.
Definition np_min (l : list A) : res A :=
  match l with [] => Raise ValueError | x :: l' => Ok (fold_left omin l' x) end.

Definition MaxMeter (minf : A) : Meter A A := {|
  mt_state := maxst;
  mt_init := mkMax minf [];
  mt_update := fun x => modify (fun s =>
    mkMax (if oltb (mx_max s) x then x else mx_max s) (heappush (mx_lst s) x));
  mt_remove := fun x =>
    l <- gets mx_lst ;;
    match list_remove oeqb x l with
    | None => raise ValueError
    | Some l' =>
      modify (fun s => mkMax (mx_max s) l') ;;;
      match l' with
      | [] => modify (fun s => mkMax minf (mx_lst s))
      | _ => m <- lift (np_max l') ;; modify (fun s => mkMax m (mx_lst s))
      end
    end;
  mt_get := gets mx_max
|}.

(** ** pysad/statistics/min_meter.py: 15-18, 20-34, 36-52, 54-60. *)
Definition MinMeter (pinf : A) : Meter A A := {|
  mt_state := maxst;
  mt_init := mkMax pinf [];
  mt_update := fun x => modify (fun s =>
    mkMax (if oltb x (mx_max s) then x else mx_max s) (heappush (mx_lst s) x));
  mt_remove := fun x =>
    l <- gets mx_lst ;;
    match list_remove oeqb x l with
    | None => raise ValueError
    | Some l' =>
      modify (fun s => mkMax (mx_max s) l') ;;;
      match l' with
      | [] => modify (fun s => mkMax pinf (mx_lst s))
      | _ => m <- lift (np_min l') ;; modify (fun s => mkMax m (mx_lst s))
      end
    end;
  mt_get := gets mx_max
|}.

(** Python's [sorted]: a stable sort; insertion sort gives the same result. *)
Fixpoint insert_sorted (x : A) (l : list A) : list A :=
  match l with
  | [] => [x]
  | y :: l' => if oleb x y then x :: l else y :: insert_sorted x l'
  end.
Definition sorted (l : list A) : list A := fold_right insert_sorted [] l.
End Order.
Arguments maxst A : clear implicits.

(** ** pysad/statistics/median_meter.py: 13-15, 17-29, 31-43, 45-55.
    [num_items % 2] and [num_items // 2] are Python integer operations; the two
    list indexings may raise IndexError, negative indices count from the end. *)
Record medst (A : Type) : Type := mkMed { md_lst : list A; md_n : Z }.
Arguments mkMed {A}.
Arguments md_lst {A}.
Arguments md_n {A}.

Definition MedianMeter {A} `{Num A} : Meter A A := {|
  mt_state := medst A;
  mt_init := mkMed [] 0;
  mt_update := fun x => modify (fun s => mkMed (heappush (md_lst s) x) (md_n s + 1));
  mt_remove := fun x =>
    l <- gets md_lst ;;
    match list_remove oeqb x l with
    | None => raise ValueError
    | Some l' => modify (fun s => mkMed l' (md_n s - 1))
    end;
  mt_get :=
    modify (fun s => mkMed (sorted (md_lst s)) (md_n s)) ;;;
    s <- gets (fun s => s) ;;
    let n := md_n s in
    if (n mod 2 =? 0)%Z then
      a <- lift (py_index_Z (md_lst s) (n / 2)) ;;
      b <- lift (py_index_Z (md_lst s) (n / 2 - 1)) ;;
      lift (div_int (nadd a b) 2)
    else lift (py_index_Z (md_lst s) (n / 2))
|}.

(** ** pysad/statistics/abs_statistic.py: 12-15, 17-29, 31-43, 45-51. *)
Definition AbsStatistic {A} `{Num A} (m : Meter A A) : Meter A A := {|
  mt_state := mt_state m;
  mt_init := mt_init m;
  mt_update := mt_update m;
  mt_remove := mt_remove m;
  mt_get := v <- mt_get m ;; ret (nabs v)
|}.

(** ** pysad/statistics/running_statistic.py *)
(** 13-19: __init__.  [super().__init__( **kwargs )] reaches object.__init__, which takes no
    keyword argument; [statistic_cls()] is called without arguments.  [kwargs] is the
    list of keyword names given by the caller; [required] says whether statistic_cls has
    a mandatory constructor argument. *)
Record runst (S A : Type) : Type := mkRun { rn_stat : S; rn_size : Z; rn_win : list A }.
Arguments mkRun {S A}.
Arguments rn_stat {S A}.
Arguments rn_size {S A}.
Arguments rn_win {S A}.

Definition RunningStatistic_init {A B K} (m : Meter A B) (required : bool) (w : Z) (kwargs : list K)
  : res (runst (mt_state m) A) :=
  match kwargs with
  | _ :: _ => Raise TypeError
  | [] => if required then Raise TypeError else Ok (mkRun (mt_init m) w [])
  end.

(** 21-38: update. *)
Definition RunningStatistic_update {A B} (m : Meter A B) (x : A) : M (runst (mt_state m) A) unit :=
  modify (fun s => mkRun (rn_stat s) (rn_size s) (rn_win s ++ [x])) ;;;
  zoom rn_stat (fun t s => mkRun t (rn_size s) (rn_win s)) (mt_update m x) ;;;
  s <- gets (fun s => s) ;;
  if (rn_size s <? Z.of_nat (length (rn_win s)))%Z then
    x0 <- lift (py_index (rn_win s) 0) ;;
    zoom rn_stat (fun t s => mkRun t (rn_size s) (rn_win s)) (mt_remove m x0) ;;;
    modify (fun s => mkRun (rn_stat s) (rn_size s) (skipn 1 (rn_win s)))
  else ret tt.

(** 40-46: get. *)
Definition RunningStatistic_get {A B} (m : Meter A B) : M (runst (mt_state m) A) B :=
  zoom rn_stat (fun t s => mkRun t (rn_size s) (rn_win s)) (mt_get m).
