(** * Models of the elementary detectors in pysad/models: null, random, perfect, exact_storm,
    median_absolute_deviation, standard_absolute_deviation. *)
From Coq Require Import List ZArith Lia Bool.
From Verif Require Import Base Num Model_Stats Model_Utils Model_Core.
Import ListNotations.
Open Scope m_scope.

(** The record of a subclass of BaseModel that does not override fit_score_partial. *)
Definition plain_model {X Y A} (S : Type) (fit : X -> option Y -> M S unit) (score : X -> M S (pyval A)) : Model X Y A :=
  {| md_state := S; md_fit := fit; md_score := score; md_fit_score := default_fit_score fit score |}.

(** ** pysad/models/null_model.py: 8-9 __init__ (labels is never used), 11-21 fit_partial, 23-32 score_partial.
    [half] is the literal 0.5. *)
Definition NullModel {X Y A} (half : A) : Model X Y A :=
  plain_model unit (fun _ _ => ret tt) (fun _ => ret (VScalar half)).

(** ** pysad/models/random_model.py: 10-20 fit_partial, 22-31 score_partial.
    np.random's global generator is the sequence [draw]; the state is the number of draws consumed. *)
Definition RandomModel {X Y A} (draw : nat -> A) : Model X Y A :=
  plain_model nat (fun _ _ => ret tt) (fun _ => k <- gets (fun k => k) ;; modify S ;;; ret (VScalar (draw k))).

(** ** pysad/models/perfect_model.py: 8-9 __init__, 11-26 fit_partial, 28-40 score_partial *)
Definition PerfectModel {X Y} : Model X Y Y :=
  plain_model (list Y)
    (fun _ y => match y with None => raise ValueError | Some y => modify (fun l => l ++ [y]) end)
    (fun _ => s <- gets (fun l => l) ;; v <- lift (py_index s 0) ;; modify (skipn 1) ;;; ret (VScalar v)).

(** ** pysad/models/exact_storm.py *)
(** scipy's Euclidean cdist between two vectors. *)
Definition euclid {A} `{Num A} (a b : list A) : A :=
  nsqrt (nsum (map (fun p => nsq (nsub (fst p) (snd p))) (combine a b))).
(** 44-50 on the stored instances: cdist raises ValueError on instances of different lengths; the mean of a boolean
    array is the number of True over its size. *)
Definition storm_score {A} `{Num A} (radius : A) (stored : list (list A)) (x : list A) : res A :=
  let window := removelast stored in
  if (length window =? 0)%nat then Ok n0
  else if forallb (fun r => (length r =? length x)%nat) window
       then Ok (ndiv (nofZ (Z.of_nat (length (filter (fun r => oltb (euclid r x) radius) window)))) (nofZ (Z.of_nat (length window))))
       else Raise ValueError.
(** 17-19 __init__: the state is the window, initially [Window_init window_size]; 21-33 fit_partial; 35-50 score_partial. *)
Definition ExactStorm {Y A} `{Num A} (radius : A) : Model (list A) Y A :=
  plain_model (window (list A))
    (fun x _ => Window_update x)
    (fun x => w <- Window_get ;; v <- lift (storm_score radius w x) ;; ret (VScalar v)).

(** ** pysad/models/median_absolute_deviation.py
    Instances are 1-D arrays; the meters receive the one-element array, modelled as its element, and the score is an
    array of the shape of X.  [eps] is the literal 1e-10. *)
Record madst (A : Type) : Type := mkMAD { mad_median : medst A; mad_mad : medst A }.
Arguments mkMAD {A}.
Arguments mad_median {A}.
Arguments mad_mad {A}.
Definition on_median {A B} (m : M (medst A) B) : M (madst A) B := zoom mad_median (fun t s => mkMAD t (mad_mad s)) m.
Definition on_mad {A B} (m : M (medst A) B) : M (madst A) B := zoom mad_mad (fun t s => mkMAD (mad_median s) t) m.
(** 34, 41 (assert len(X) == 1) *)
Definition the_value {A} (x : list A) : res A := match x with [v] => Ok v | _ => Raise AssertionError end.
(** 53-55 / 60-62: (X - center) / (spread + eps), with abs if absolute. *)
Definition deviation_score {A} `{Num A} (eps : A) (absolute : bool) (x : list A) (center spread : A) : pyval (npres A) :=
  VArray (map (fun v => let q := npdiv (nsub v center) (nadd spread eps) in if absolute then npmap nabs q else q) x).
Definition MedianAbsoluteDeviation {Y A} `{Num A} (eps b : A) (absolute : bool) : Model (list A) Y (npres A) :=
  plain_model (madst A)
    (fun x _ =>                                                   (* 24-40 *)
       v <- lift (the_value x) ;;
       on_median (mt_update MedianMeter v) ;;;
       m <- on_median (mt_get MedianMeter) ;;
       on_mad (mt_update MedianMeter (nabs (nsub v m))))
    (fun x =>                                                     (* 42-55 *)
       m <- on_median (mt_get MedianMeter) ;;
       d <- on_mad (mt_get MedianMeter) ;;
       ret (deviation_score eps absolute x m (nmul b d))).
Definition MAD_init {A} `{Num A} : madst A := mkMAD (mt_init MedianMeter) (mt_init MedianMeter).   (* 18-22 *)

(** ** pysad/models/standard_absolute_deviation.py
    The second meter is chosen by name at construction (23-29): [SAD_statistic]. *)
Inductive statname : Type := NMedian | NMean | NOther.
Definition SAD_statistic {A} `{Num A} (n : statname) : res (Meter A A) :=
  match n with NMedian => Ok MedianMeter | NMean => Ok AverageMeter | NOther => Raise ValueError end.
(** 31-46 fit_partial, 48-62 score_partial; variance ** 0.5 is modelled by the square root. *)
Definition StandardAbsoluteDeviation {Y A} `{Num A} (eps : A) (absolute : bool) (m : Meter A A) : Model (list A) Y (npres A) :=
  let on_var {B} (c : M (varst A) B) : M (varst A * mt_state m) B := zoom fst (fun t s => (t, snd s)) c in
  let on_sub {B} (c : M (mt_state m) B) : M (varst A * mt_state m) B := zoom snd (fun t s => (fst s, t)) c in
  plain_model (varst A * mt_state m)
    (fun x _ => v <- lift (the_value x) ;; on_var (mt_update VarianceMeter v) ;;; on_sub (mt_update m v))
    (fun x => c <- on_sub (mt_get m) ;; q <- on_var (mt_get VarianceMeter) ;;
              ret (deviation_score eps absolute x c (nsqrt q))).
Definition SAD_init {A} `{Num A} (m : Meter A A) : varst A * mt_state m := (mt_init VarianceMeter, mt_init m).
