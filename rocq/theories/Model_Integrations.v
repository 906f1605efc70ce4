(** * Models of pysad/models/integrations (pyod_model, one_fit_model, reference_window_model), pysad/models/iforest_asd.py
    and pysad/models/loop.py: batch detectors of other libraries run on a stream. *)
From Coq Require Import List ZArith Lia Bool.
From Verif Require Import Base Num Model_Utils Model_Core Model_Simple.
Import ListNotations.
Open Scope m_scope.

(** A batch detector class model_cls of PyOD together with its keyword arguments (external code):
    [dt_new k] is the object made by the k-th call of the class (they differ only by the random state),
    [dt_fit] is its method fit(X) or fit(X, y), [dt_score] is decision_function([x])[0].
    decision_function is assumed not to change the detector. *)
Record Detector (X Y A : Type) : Type := mkDetector {
  dt_state : Type;
  dt_new : nat -> dt_state;
  dt_fit : list X -> option (list Y) -> M dt_state unit;
  dt_score : X -> dt_state -> res A
}.
Arguments dt_state {X Y A}.
Arguments dt_new {X Y A}.
Arguments dt_fit {X Y A}.
Arguments dt_score {X Y A}.

(** ** pysad/models/integrations/pyod_model.py
    6-15 __init__: self.model is None ([None] below) until 17-20 reset_model makes a new detector.
    score_partial of the subclasses: None has no attribute decision_function. *)
Definition pyod_score {X Y A} (d : Detector X Y A) (m : option (dt_state d)) (x : X) : res (pyval A) :=
  match m with None => Raise AttributeError | Some s => rmap VScalar (dt_score d x s) end.

(** ** pysad/models/integrations/one_fit_model.py
    The state is self.model.  14-19 __init__ and 33-40 _fit_model: the result says whether the constructor raises. *)
Definition OneFit_init {X Y A} (d : Detector X Y A) (initial_X : list X) (initial_y : option (list Y)) : res unit * option (dt_state d) :=
  let '(r, s) := dt_fit d initial_X initial_y (dt_new d 0) in (r, Some s).
(** 21-31 fit_partial, 42-53 score_partial *)
Definition OneFitModel {X Y A} (d : Detector X Y A) : Model X Y A :=
  plain_model (option (dt_state d)) (fun _ _ => ret tt) (fun x => m <- gets (fun m => m) ;; lift (pyod_score d m x)).

(** ** pysad/models/integrations/reference_window_model.py
    [rw_built] counts the constructions made so far; it is not an attribute of the Python object.
    window_size is a natural number here.  Simplification: np.concatenate of two lists of instances is list
    concatenation, i.e. all instances have the same width and a given initial window is not empty; np.concatenate
    with None raises ValueError. *)
Record rwst (X Y D : Type) : Type := mkRW {
  rw_curX : list X; rw_curY : list Y; rw_refX : option (list X); rw_refY : option (list Y);
  rw_initial : bool; rw_model : option D; rw_built : nat }.
Arguments mkRW {X Y D}.
Arguments rw_curX {X Y D}.
Arguments rw_curY {X Y D}.
Arguments rw_refX {X Y D}.
Arguments rw_refY {X Y D}.
Arguments rw_initial {X Y D}.
Arguments rw_model {X Y D}.
Arguments rw_built {X Y D}.
Definition rw_set_cur {X Y D} cx cy (s : rwst X Y D) : rwst X Y D := mkRW cx cy (rw_refX s) (rw_refY s) (rw_initial s) (rw_model s) (rw_built s).
Definition rw_set_refX {X Y D} r (s : rwst X Y D) : rwst X Y D := mkRW (rw_curX s) (rw_curY s) r (rw_refY s) (rw_initial s) (rw_model s) (rw_built s).
Definition rw_set_refY {X Y D} r (s : rwst X Y D) : rwst X Y D := mkRW (rw_curX s) (rw_curY s) (rw_refX s) r (rw_initial s) (rw_model s) (rw_built s).
Definition rw_set_initial {X Y D} b (s : rwst X Y D) : rwst X Y D := mkRW (rw_curX s) (rw_curY s) (rw_refX s) (rw_refY s) b (rw_model s) (rw_built s).
Definition rw_set_model {X Y D} m n (s : rwst X Y D) : rwst X Y D := mkRW (rw_curX s) (rw_curY s) (rw_refX s) (rw_refY s) (rw_initial s) m n.

(** 90-96 _fit_model (the reference window is never None when it is called). *)
Definition rw_fit_model {X Y A} (d : Detector X Y A) : M (rwst X Y (dt_state d)) unit :=
  fun s =>
    match rw_refX s with
    | None => (Raise ValueError, s)
    | Some xs => let '(r, m) := dt_fit d xs (rw_refY s) (dt_new d (rw_built s)) in (r, rw_set_model (Some m) (S (rw_built s)) s)
    end.
(** 17-49 __init__: whether it raises, and the object. *)
Definition RW_init {X Y A} (d : Detector X Y A) (x0 : option (list X)) (y0 : option (list Y)) : res unit * rwst X Y (dt_state d) :=
  let s := mkRW [] [] x0 y0 false None 0 in
  match x0 with None => (Ok tt, s) | Some _ => let '(r, s') := rw_fit_model d s in (r, rw_set_initial true s') end.
(** np.concatenate([reference, current])[max(0, len - window_size):] (73-76, 79-82) *)
Definition rw_slide {T} (window_size : nat) (reference : option (list T)) (current : list T) : res (list T) :=
  match reference with
  | None => Raise ValueError
  | Some r => let l := r ++ current in Ok (skipn (length l - window_size) l)
  end.
(** 51-88 *)
Definition rw_fit {X Y A} (d : Detector X Y A) (window_size sliding_size : nat) (x : X) (y : option Y) : M (rwst X Y (dt_state d)) unit :=
  modify (fun s => rw_set_cur (rw_curX s ++ [x]) (rw_curY s) s) ;;;
  modify (fun s => match y with None => s | Some v => rw_set_cur (rw_curX s) (rw_curY s ++ [v]) s end) ;;;
  s <- gets (fun s => s) ;;
  if negb (rw_initial s) && (length (rw_curX s) <? window_size) &&
     match rw_refX s with None => true | Some r => length r <? window_size end
  then
    modify (rw_set_refX (Some (rw_curX s))) ;;;
    modify (rw_set_refY (match y with None => None | Some _ => Some (rw_curY s) end)) ;;;
    rw_fit_model d
  else if sliding_size =? 0 then raise ZeroDivisionError
  else if length (rw_curX s) mod sliding_size =? 0
  then
    r <- lift (rw_slide window_size (rw_refX s) (rw_curX s)) ;;
    modify (rw_set_refX (Some r)) ;;;
    match y with
    | None => ret tt
    | Some _ => ry <- lift (rw_slide window_size (rw_refY s) (rw_curY s)) ;; modify (rw_set_refY (Some ry))
    end ;;;
    modify (rw_set_cur [] []) ;;;
    rw_fit_model d
  else ret tt.
Definition ReferenceWindowModel {X Y A} (d : Detector X Y A) (window_size sliding_size : nat) : Model X Y A :=
  plain_model (rwst X Y (dt_state d)) (rw_fit d window_size sliding_size)
    (fun x => m <- gets rw_model ;; lift (pyod_score d m x)).                              (* 98-109 *)

(** ** pysad/models/iforest_asd.py: 12-13; [d] is PyOD's IForest; no initial labels. *)
Definition IForestASD {X Y A} (d : Detector X Y A) (window_size : nat) : Model X Y A := ReferenceWindowModel d window_size window_size.
Definition IForestASD_init {X Y A} (d : Detector X Y A) (x0 : option (list X)) : res unit * rwst X Y (dt_state d) := RW_init d x0 None.

(** ** pysad/models/loop.py: [stream] is PyNomaly's method stream of the object built by 14-18 (external code, which may
    change that object). *)
Definition LocalOutlierProbability {X Y A L} (stream : X -> M L A) : Model X Y A :=
  plain_model L (fun _ _ => ret tt) (fun x => v <- stream x ;; ret (VScalar v)).           (* 20-41 *)
