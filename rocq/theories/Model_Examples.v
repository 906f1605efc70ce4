(** * Model of the example programs the project ships (examples/). *)
From Coq Require Import List ZArith Bool.
From Verif Require Import Base Num Model_Stats Model_Utils Model_Core Model_Trans Model_Post Model_Eval Model_Metrics.
Import ListNotations.
Open Scope m_scope.

(** examples/example_probability_calibration.py:16-22: the body of the loop for one instance, and whether it prints an alert.
    The label is not passed on.  fit_transform (pysad/core/base_postprocessor.py:85) reads scores.shape[0]: a NumPy scalar has
    the empty shape, None has no shape.  Simplified: a Python float, which has no shape either, is not told apart from a NumPy
    scalar (AttributeError instead of IndexError).  The condition of line 21 is the truth value of an array: that of its only
    element (nan > 0.95 is False), False for an empty array and a ValueError for more than one element.  Simplified: the detector
    and the threshold 0.95 are arguments. *)
Definition calibration_step {X Y A} `{Num A} (m : Model X Y A) (threshold : A) (x : X) : M (md_state m * cwin A) bool :=
  v <- zoom fst (fun t s => (t, snd s)) (md_fit_score m x None) ;;
  scores <- lift (match v with VArray l => Ok l | VScalar _ => Raise IndexError | VNone => Raise AttributeError end) ;;
  calibrated <- zoom snd (fun t s => (fst s, t)) (Post_fit_transform ConformalProbabilityCalibrator scores) ;;
  lift (match calibrated with
        | [] => Ok false
        | [FinV (FinV q)] => Ok (oltb threshold q)
        | [_] => Ok false
        | _ => Raise ValueError
        end).

(** examples/example_probability_calibration.py:11-22: the program, run on the instances the streamer yields; for each of them
    whether it is announced as anomalous.  windowed=True, window_size=300 on line 12: the window size is an argument here. *)
Definition calibration_example {X Y A} `{Num A} (m : Model X Y A) (s0 : md_state m) (window_size : Z) (threshold : A) (xs : list X) : res (list bool) :=
  eval (mapM (calibration_step m threshold) xs) (s0, Conformal_init true window_size).

(** ** The evaluation programs *)
(** A score as the metric or the running average sees it: a one-element array counts as its element (sklearn ravels the column).
    Simplified: an array of another size is refused here and not in get(), and arrays and numbers may be mixed. *)
Definition score_number {A} (v : pyval A) : res A :=
  match v with VScalar a => Ok a | VArray [a] => Ok a | VArray _ => Raise ValueError | VNone => Raise TypeError end.
(** AUROCMetric() in examples/example_usage_short.py:8, example_usage.py:26, example_ensemble.py:20, example_pyod_integration.py:24. *)
Definition ExampleMetric {A} `{Num A} : Metric bool (pyval A) A Empty_set :=
  AUROCMetric bool_dec (fun ys vs => rbind (res_map score_number vs) (roc_auc_score ys)).

(** examples/example_usage_short.py:11-17: the program, run on the labelled instances the streamer yields; the printed value.
    Simplified: the detector, LODA() on line 7, is an argument. *)
Definition short_step {X Y A} `{Num A} (m : Model X Y A) (q : X * bool) : M (md_state m * skst bool (pyval A)) unit :=
  v <- zoom fst (fun t s => (t, snd s)) (md_fit_score m (fst q) None) ;;
  zoom snd (fun t s => (fst s, t)) (me_update ExampleMetric (snd q) v).
Definition short_example {X Y A} `{Num A} (m : Model X Y A) (s0 : md_state m) (data : list (X * bool)) : res A :=
  eval (iterM (short_step m) data ;;; zoom snd (fun t s => (fst s, t)) (me_get ExampleMetric)) (s0, mkSK [] []).

(** examples/example_usage.py:28-37 and example_usage_inqmad.py:28-37: preprocess, fit and score, smooth, record.  The detector, the
    preprocessor and the window size of the running average are arguments.  A preprocessor may return nan: the detector sees it. *)
Definition usage_step {X Y A} `{Num A} (t : Transformer X (npres A)) (m : Model (list (npres A)) Y A) (q : X * bool)
  : M (tr_state t * md_state m * pp_state (RunningAveragePostprocessor (A := A)) * skst bool (pyval A)) unit :=
  v <- zoom (fun s => fst (fst (fst s))) (fun u s => (u, snd (fst (fst s)), snd (fst s), snd s)) (tr_fit_transform t (AInst (fst q))) ;;
  x <- lift (match v with VArray l => Ok l | _ => Raise TypeError end) ;;
  sc <- zoom (fun s => snd (fst (fst s))) (fun u s => (fst (fst (fst s)), u, snd (fst s), snd s)) (md_fit_score m x None) ;;
  a <- lift (score_number sc) ;;
  sm <- zoom (fun s => snd (fst s)) (fun u s => (fst (fst s), u, snd s)) (pp_fit_transform RunningAveragePostprocessor a) ;;
  zoom snd (fun u s => (fst s, u)) (me_update ExampleMetric (snd q) sm).
Definition usage_example {X Y A} `{Num A} (t : Transformer X (npres A)) (m : Model (list (npres A)) Y A) (t0 : tr_state t) (s0 : md_state m)
  (window_size : Z) (data : list (X * bool)) : res A :=
  rbind (RunningPost_init AverageMeter window_size) (fun p0 =>
  eval (iterM (usage_step t m) data ;;; zoom snd (fun u s => (fst s, u)) (me_get ExampleMetric)) (t0, s0, p0, mkSK [] [])).

(** examples/example_ensemble.py:22-25: a list of detectors of any classes. *)
Record detector (X Y A : Type) : Type := mkDet { dt_model : Model X Y A; dt_state : md_state dt_model }.
Arguments mkDet {X Y A}.
Arguments dt_model {X Y A}.
Arguments dt_state {X Y A}.
(** 29-34: fit and score every detector; the scores are stored in a float array. *)
Definition det_step {X Y A} (x : X) (d : detector X Y A) : res (npres A) * detector X Y A :=
  let '(r, s') := (md_fit (dt_model d) x None ;;; v <- md_score (dt_model d) x ;; lift (store v)) (dt_state d) in (r, mkDet (dt_model d) s').
Fixpoint dets_step {X Y A} (x : X) (ds : list (detector X Y A)) : res (list (npres A)) * list (detector X Y A) :=
  match ds with
  | [] => (Ok [], [])
  | d :: ds' => match det_step x d with
      | (Raise e, d') => (Raise e, d' :: ds')
      | (Ok v, d') => let '(r, ds'') := dets_step x ds' in (rmap (cons v) r, d' :: ds'')
      end
  end.
(** Simplified: a nan score, which get() refuses with a ValueError, is refused at once. *)
Definition finite_row {A} (l : list (npres A)) : res (list A) := res_map (fun v => match v with FinV a => Ok a | NonFin => Raise ValueError end) l.
(** 28-41: the loop and the printed value; the ensembler, AverageScoreEnsembler() on line 26, is an argument. *)
Definition ensemble_step {X Y A} `{Num A} (e : Postprocessor (list A) A) (q : X * bool) : M (list (detector X Y A) * pp_state e * skst bool (pyval A)) unit :=
  r <- zoom (fun s => fst (fst s)) (fun u s => (u, snd (fst s), snd s)) (dets_step (fst q)) ;;
  scores <- lift (finite_row r) ;;
  v <- zoom (fun s => snd (fst s)) (fun u s => (fst (fst s), u, snd s)) (pp_fit_transform e scores) ;;
  zoom snd (fun u s => (fst s, u)) (me_update ExampleMetric (snd q) v).
Definition ensemble_example {X Y A} `{Num A} (e : Postprocessor (list A) A) (e0 : pp_state e) (ds : list (detector X Y A)) (data : list (X * bool)) : res A :=
  eval (iterM (ensemble_step e) data ;;; zoom snd (fun u s => (fst s, u)) (me_get ExampleMetric)) (ds, e0, mkSK [] []).

(** examples/example_pyod_integration.py:26-34: as the short program, with fit_partial and score_partial called one after the other. *)
Definition integration_step {X Y A} `{Num A} (m : Model X Y A) (q : X * bool) : M (md_state m * skst bool (pyval A)) unit :=
  zoom fst (fun t s => (t, snd s)) (md_fit m (fst q) None) ;;;
  v <- zoom fst (fun t s => (t, snd s)) (md_score m (fst q)) ;;
  zoom snd (fun t s => (fst s, t)) (me_update ExampleMetric (snd q) v).
Definition integration_example {X Y A} `{Num A} (m : Model X Y A) (s0 : md_state m) (data : list (X * bool)) : res A :=
  eval (iterM (integration_step m) data ;;; zoom snd (fun t s => (fst s, t)) (me_get ExampleMetric)) (s0, mkSK [] []).

(** examples/example_statistics.py:12-22: the two trackers, the loop and the two printed values.  The array X (line 10) is an argument, of any length. *)
Definition statistics_step {A} `{Num A} (x : A) : M (mt_state (AverageMeter (A := A)) * mt_state (VarianceMeter (A := A))) unit :=
  zoom fst (fun t s => (t, snd s)) (mt_update AverageMeter x) ;;;
  zoom snd (fun t s => (fst s, t)) (mt_update VarianceMeter x).
Definition statistics_example {A} `{Num A} (xs : list A) : res (A * A) :=
  eval (iterM statistics_step xs ;;;
        a <- zoom fst (fun t s => (t, snd s)) (mt_get AverageMeter) ;;
        v <- zoom snd (fun t s => (fst s, t)) (mt_get VarianceMeter) ;;
        ret (a, nsqrt v)) (mt_init AverageMeter, mt_init VarianceMeter).
