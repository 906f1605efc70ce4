(** * Model of pysad/evaluation *)
From Coq Require Import List ZArith Lia Bool.
From Verif Require Import Base Num Spec Model_Stats.
Import ListNotations.
Open Scope m_scope.

(** A metric class (pysad/core/base_metric.py:4-28): constructor taking keyword arguments
    [K], update(y_true, y_pred), get(). *)
Record Metric (Y P B K : Type) : Type := mkMetric {
  me_state : Type;
  me_init : list K -> res me_state;
  me_update : Y -> P -> M me_state unit;
  me_get : M me_state B
}.
Arguments me_state {Y P B K} m.
Arguments me_init {Y P B K} m.
Arguments me_update {Y P B K} m.
Arguments me_get {Y P B K} m.

(** ** pysad/evaluation/metrics.py *)
(** BaseSKLearnMetric: 10-12 __init__ (no argument: keyword arguments are a TypeError), 14-22
    update, 24-32 get.  [evaluate] is the subclass's _evaluate, a function of the two lists. *)
Record skst (Y P : Type) : Type := mkSK { sk_true : list Y; sk_pred : list P }.
Arguments mkSK {Y P}.
Arguments sk_true {Y P}.
Arguments sk_pred {Y P}.
Definition SKMetric {Y P B K} (evaluate : list Y -> list P -> res B) : Metric Y P B K := {|
  me_state := skst Y P;
  me_init := fun kwargs => match kwargs with [] => Ok (mkSK [] []) | _ => Raise TypeError end;
  me_update := fun y p => modify (fun s => mkSK (sk_true s ++ [y]) (sk_pred s)) ;;;
                          modify (fun s => mkSK (sk_true s) (sk_pred s ++ [p]));
  me_get := s <- gets (fun s => s) ;; lift (evaluate (sk_true s) (sk_pred s))
|}.

(** 45-77: the four classes; [precision_score], [recall_score], [roc_auc_score] and
    [average_precision_score] are the sklearn functions (oracles; they may raise). *)
Definition PrecisionMetric {Y P B K} (precision_score : list Y -> list P -> res B) : Metric Y P B K :=
  SKMetric precision_score.                                                    (* 45-50 *)
Definition RecallMetric {Y P B K} (recall_score : list Y -> list P -> res B) : Metric Y P B K :=
  SKMetric recall_score.                                                       (* 53-58 *)
(** 61-69 AUROCMetric: len(set(y_true)) <= 1. *)
Definition auroc_evaluate {Y P B} (dec : forall a b : Y, {a = b} + {a <> b})
  (roc_auc_score : list Y -> list P -> res B) (ys : list Y) (ps : list P) : res B :=
  if (length (nodup dec ys) <=? 1)%nat then Raise ValueError else roc_auc_score ys ps.
Definition AUROCMetric {Y P B K} dec (roc_auc_score : list Y -> list P -> res B) : Metric Y P B K :=
  SKMetric (auroc_evaluate dec roc_auc_score).
Definition AUPRMetric {Y P B K} (average_precision_score : list Y -> list P -> res B) : Metric Y P B K :=
  SKMetric average_precision_score.                                            (* 72-77 *)

(** ** pysad/evaluation/windowed_metric.py *)
(** Python [a % b] on ints. *)
Definition pymod (a b : Z) : res Z := if (b =? 0)%Z then Raise ZeroDivisionError else Ok (a mod b)%Z.

Record wmst (S A : Type) : Type := mkWM {
  wm_ignore : bool; wm_size : Z; wm_metric : S; wm_meter : sumst A; wm_step : Z; wm_num : Z }.
Arguments mkWM {S A}.
Arguments wm_ignore {S A}.
Arguments wm_size {S A}.
Arguments wm_metric {S A}.
Arguments wm_meter {S A}.
Arguments wm_step {S A}.
Arguments wm_num {S A}.

Section Windowed.
Context {Y P K A : Type} `{Num A} (m : Metric Y P A K).
Definition set_wm_metric (x : me_state m) (s : wmst (me_state m) A) :=
  mkWM (wm_ignore s) (wm_size s) x (wm_meter s) (wm_step s) (wm_num s).
Definition set_wm_meter (x : sumst A) (s : wmst (me_state m) A) :=
  mkWM (wm_ignore s) (wm_size s) (wm_metric s) x (wm_step s) (wm_num s).
Definition set_wm_step (x : Z) (s : wmst (me_state m) A) :=
  mkWM (wm_ignore s) (wm_size s) (wm_metric s) (wm_meter s) x (wm_num s).
Definition set_wm_num (x : Z) (s : wmst (me_state m) A) :=
  mkWM (wm_ignore s) (wm_size s) (wm_metric s) (wm_meter s) (wm_step s) x.

(** 14-29 __init__; 31-33 _init_metric. *)
Definition WindowedMetric_init (window_size : Z) (ignore_nonempty_last : bool) (kwargs : list K)
  : res (wmst (me_state m) A) :=
  rmap (fun m0 => mkWM ignore_nonempty_last window_size m0 (mt_init AverageMeter) 0 1) (me_init m kwargs).

(** 35-56 update; line 54 re-creates the metric without the keyword arguments. *)
Definition WindowedMetric_update (y : Y) (p : P) : M (wmst (me_state m) A) unit :=
  modify (fun s => set_wm_step (wm_step s + 1) s) ;;;
  zoom wm_metric set_wm_metric (me_update m y p) ;;;
  s <- gets (fun s => s) ;;
  r <- lift (pymod (wm_step s) (wm_size s)) ;;
  if (r =? 0)%Z then
    modify (fun s => set_wm_num (wm_num s + 1) s) ;;;
    score <- zoom wm_metric set_wm_metric (me_get m) ;;
    zoom wm_meter set_wm_meter (mt_update AverageMeter score) ;;;
    m0 <- lift (me_init m []) ;;
    modify (set_wm_metric m0)
  else ret tt.

(** 58-69 get. *)
Definition WindowedMetric_get : M (wmst (me_state m) A) A :=
  s <- gets (fun s => s) ;;
  if (wm_num s =? 1)%Z then zoom wm_metric set_wm_metric (me_get m)
  else
    last <- (if wm_ignore s then ret false
             else r <- lift (pymod (wm_step s) (wm_size s)) ;; ret (negb (r =? 0)%Z)) ;;
    if last : bool then
      a <- zoom wm_metric set_wm_metric (me_get m) ;;
      b <- zoom wm_meter set_wm_meter (mt_get AverageMeter) ;;
      lift (div_int (nadd a (nmul b (nofZ (wm_num s - 1)))) (wm_num s))
    else zoom wm_meter set_wm_meter (mt_get AverageMeter).
End Windowed.
