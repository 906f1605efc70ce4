(** * Model of pysad/transform/postprocessing, probability_calibration and ensemble *)
From Coq Require Import List ZArith Lia Bool.
From Verif Require Import Base Num Spec Model_Stats Model_Utils Model_Core.
Import ListNotations.
Open Scope m_scope.

(** ** pysad/transform/postprocessing/postprocessors.py *)
(** AveragePostprocessor (9-39), MaxPostprocessor (42-71) and MedianPostprocessor (74-103) have the
    same text up to the meter class: fit_partial updates the meter, transform_partial returns
    meter.get() and ignores its argument. *)
Definition MeterPost {A} (m : Meter A A) : Postprocessor A A := {|
  pp_state := mt_state m;
  pp_fit := mt_update m;
  pp_transform := fun _ => v <- mt_get m ;; ret (VScalar v)
|}.
Definition AveragePostprocessor {A} `{Num A} : Postprocessor A A := MeterPost AverageMeter.      (* 13-39 *)
Definition MaxPostprocessor {A} `{Ord A} (minf : A) : Postprocessor A A := MeterPost (MaxMeter minf). (* 46-71 *)
Definition MedianPostprocessor {A} `{Num A} : Postprocessor A A := MeterPost MedianMeter.        (* 78-103 *)

(** numpy.sqrt: nan (with a warning) on negative input. *)
Definition np_sqrt {A} `{Num A} (v : A) : npres A := if oltb v n0 then NonFin else FinV (nsqrt v).
(** float / numpy.float64. *)
Definition np_div_by {A} `{Num A} (a : A) (d : npres A) : npres A :=
  match d with NonFin => NonFin | FinV d => npdiv a d end.

(** ZScorePostprocessor: 110-112, 114-126, 128-140.  The numerator is evaluated first. *)
Definition ZScorePostprocessor {A} `{Num A} : Postprocessor A (npres A) := {|
  pp_state := (mt_state VarianceMeter * mt_state AverageMeter)%type;
  pp_fit := fun x =>
    zoom fst (fun t s => (t, snd s)) (mt_update VarianceMeter x) ;;;
    zoom snd (fun t s => (fst s, t)) (mt_update AverageMeter x);
  pp_transform := fun x =>
    a <- zoom snd (fun t s => (fst s, t)) (mt_get AverageMeter) ;;
    v <- zoom fst (fun t s => (t, snd s)) (mt_get VarianceMeter) ;;
    ret (VScalar (np_div_by (nsub x a) (np_sqrt v)))
|}.

(** ** pysad/transform/postprocessing/running_postprocessors.py *)
(** RunningAverage (10-45), RunningMax (48-82), RunningMedian (85-119). *)
Definition RunningPost {A} (m : Meter A A) : Postprocessor A A := {|
  pp_state := runst (mt_state m) A;
  pp_fit := RunningStatistic_update m;
  pp_transform := fun _ => v <- RunningStatistic_get m ;; ret (VScalar v)
|}.
Definition RunningPost_init {A} (m : Meter A A) (w : Z) : res (pp_state (RunningPost m)) :=
  RunningStatistic_init m false w (@nil unit).
Definition RunningAveragePostprocessor {A} `{Num A} := RunningPost (A := A) AverageMeter.
Definition RunningMaxPostprocessor {A} `{Ord A} (minf : A) := RunningPost (MaxMeter minf).
Definition RunningMedianPostprocessor {A} `{Num A} := RunningPost (A := A) MedianMeter.
(** RunningZScorePostprocessor: 129-134, 136-148, 150-162. *)
Definition RunningZScorePostprocessor {A} `{Num A} : Postprocessor A (npres A) := {|
  pp_state := (runst (mt_state VarianceMeter) A * runst (mt_state AverageMeter) A)%type;
  pp_fit := fun x =>
    zoom fst (fun t s => (t, snd s)) (RunningStatistic_update VarianceMeter x) ;;;
    zoom snd (fun t s => (fst s, t)) (RunningStatistic_update AverageMeter x);
  pp_transform := fun x =>
    a <- zoom snd (fun t s => (fst s, t)) (RunningStatistic_get AverageMeter) ;;
    v <- zoom fst (fun t s => (t, snd s)) (RunningStatistic_get VarianceMeter) ;;
    ret (VScalar (np_div_by (nsub x a) (np_sqrt v)))
|}.
Definition RunningZScore_init {A} `{Num A} (w : Z) : res (pp_state (RunningZScorePostprocessor (A := A))) :=
  rbind (RunningStatistic_init VarianceMeter false w (@nil unit)) (fun v =>
  rmap (fun a => (v, a)) (RunningStatistic_init AverageMeter false w (@nil unit))).

(** ** pysad/transform/probability_calibration/conformal_prediction.py *)
(** 16-19: the window attribute is a Window or an UnlimitedWindow. *)
Inductive cwin (A : Type) : Type := CW (w : window A) | CU (l : list A).
Arguments CW {A}.
Arguments CU {A}.
Definition Conformal_init {A} (windowed : bool) (window_size : Z) : cwin A :=
  if windowed then CW (Window_init window_size) else CU UnlimitedWindow_init.
Definition cwin_get {A} (c : cwin A) : list A := match c with CW w => wd_items w | CU l => l end.
(** 21-31 fit_partial; 33-42 transform_partial: np.sum(...) is a numpy integer, so the division by
    a zero length yields nan. *)
Definition ConformalProbabilityCalibrator {A} `{Num A} : Postprocessor A (npres A) := {|
  pp_state := cwin A;
  pp_fit := fun x c => match c with
    | CW w => let '(r, w') := Window_update x w in (r, CW w')
    | CU l => let '(r, l') := UnlimitedWindow_update x l in (r, CU l')
    end;
  pp_transform := fun x =>
    l <- gets cwin_get ;;
    ret (VScalar (npdiv (nofZ (Z.of_nat (length (filter (fun s => oltb x s) l)))) (nofZ (Z.of_nat (length l)))))
|}.

(** ** pysad/transform/probability_calibration/gaussian_tail.py *)
(** 17-26: avg_meter is a RunningStatistic or (running_statistics=False) an AverageMeter;
    var_meter is a RunningStatistic in both cases. *)
Inductive avgst (A : Type) : Type := AvRun (s : runst (sumst A) A) | AvAll (s : sumst A).
Arguments AvRun {A}.
Arguments AvAll {A}.
Definition Gaussian_init {A} `{Num A} (running_statistics : bool) (window_size : Z)
  : res (avgst A * runst (mt_state VarianceMeter) A) :=
  if running_statistics then
    rbind (RunningStatistic_init AverageMeter false window_size (@nil unit)) (fun a =>
    rmap (fun v => (AvRun a, v)) (RunningStatistic_init VarianceMeter false window_size (@nil unit)))
  else rmap (fun v => (AvAll (mt_init AverageMeter), v)) (RunningStatistic_init VarianceMeter false window_size (@nil unit)).
Definition avg_update {A} `{Num A} (x : A) : M (avgst A) unit := fun a =>
  match a with
  | AvRun s => let '(r, s') := RunningStatistic_update AverageMeter x s in (r, AvRun s')
  | AvAll s => let '(r, s') := mt_update AverageMeter x s in (r, AvAll s')
  end.
Definition avg_get {A} `{Num A} : M (avgst A) A := fun a =>
  match a with
  | AvRun s => let '(r, s') := RunningStatistic_get AverageMeter s in (r, AvRun s')
  | AvAll s => let '(r, s') := mt_get AverageMeter s in (r, AvAll s')
  end.
(** 28-39 fit_partial; 41-57 transform_partial; 59-69 _qfunction.  [erfc] is math.erfc. The divisor std is
    numpy's sqrt of a positive number or 1.0.  [half], [one], [sqrt2] are the literals 0.5, 1, math.sqrt(2). *)
Definition GaussianTailProbabilityCalibrator {A} `{Num A} (erfc : A -> A) (half one sqrt2 : A) : Postprocessor A A := {|
  pp_state := (avgst A * runst (mt_state VarianceMeter) A)%type;
  pp_fit := fun x =>
    zoom fst (fun t s => (t, snd s)) (avg_update x) ;;;
    zoom snd (fun t s => (fst s, t)) (RunningStatistic_update VarianceMeter x);
  pp_transform := fun x =>
    mean <- zoom fst (fun t s => (t, snd s)) avg_get ;;
    var <- zoom snd (fun t s => (fst s, t)) (RunningStatistic_get VarianceMeter) ;;
    let std := if oltb n0 var then nsqrt var else one in
    ret (VScalar (nsub one (nmul half (erfc (ndiv (ndiv (nsub x mean) std) sqrt2)))))
|}.

(** ** pysad/transform/ensemble/ensemblers.py *)
(** PYODScoreEnsembler: 23-33 fit_partial is a no-op, 35-47 transform_partial reshapes the scores to one row
    and calls _combine, whose result is a one-element array. [combine] works on that row. *)
Definition ScoreEnsembler {A} (combine : list A -> res A) : Postprocessor (list A) A := {|
  pp_state := unit;
  pp_fit := fun _ => ret tt;
  pp_transform := fun scores => v <- lift (combine scores) ;; ret (VArray [v])
|}.

(** The PyOD functions (pyod/models/combination.py; external code, modelled from its
    documentation): one row of detector scores. numpy means of an empty row are nan, modelled as an
    exception since no caller-visible value is defined. *)
Definition np_mean {A} `{Num A} (l : list A) : res A := div_int (nsum l) (Z.of_nat (length l)).
Definition np_median {A} `{Num A} (l : list A) : res A :=
  eval (mt_get MedianMeter) (mkMed l (Z.of_nat (length l))).
(** average(scores, estimator_weights): weights must have one entry per estimator. *)
Definition pyod_average {A} `{Num A} (weights : option (list A)) (l : list A) : res A :=
  match weights with
  | None => np_mean l
  | Some ws => if (length ws =? length l)%nat
               then pydiv (nsum (map (fun p => nmul (fst p) (snd p)) (combine l ws))) (nsum ws)
               else Raise ValueError
  end.
(** Consecutive slices [shuffled[i : i + size]] for i = 0, size, 2 size, ... *)
Fixpoint slices {A} (n size : nat) (l : list A) : list (list A) :=
  match n with O => [] | S n' => firstn size l :: slices n' size (skipn size l) end.
(** aom / moa with method='static', bootstrap_estimators=False: [order] is the shuffled row of
    estimator scores (sklearn.utils.shuffle); ValueError unless the division has no remainder and PyOD's
    check_parameter accepts n_buckets for the range from 2 to n_estimators. Whether the ends of that range are accepted
    depends on the PyOD release: [in_range n_buckets n_estimators] is its answer. *)
Definition pyod_buckets {A} (in_range : nat -> nat -> bool) (n_buckets : nat) (l : list A) : res (list (list A)) :=
  if (in_range n_buckets (length l) && (length l mod n_buckets =? 0))%nat
  then Ok (slices n_buckets (length l / n_buckets) l) else Raise ValueError.
Definition pyod_aom {A} `{Num A} in_range (n_buckets : nat) (shuffle : list A -> list A) (l : list A) : res A :=
  rbind (pyod_buckets in_range n_buckets (shuffle l)) (fun bs => rbind (res_map np_max bs) np_mean).
Definition pyod_moa {A} `{Num A} in_range (n_buckets : nat) (shuffle : list A -> list A) (l : list A) : res A :=
  rbind (pyod_buckets in_range n_buckets (shuffle l)) (fun bs => rbind (res_map np_mean bs) np_max).

Definition AverageScoreEnsembler {A} `{Num A} weights := ScoreEnsembler (A := A) (pyod_average weights).  (* 50-71 *)
Definition MaximumScoreEnsembler {A} `{Num A} := ScoreEnsembler (A := A) np_max.                           (* 74-87 *)
Definition MedianScoreEnsembler {A} `{Num A} := ScoreEnsembler (A := A) np_median.                         (* 90-103 *)
Definition AverageOfMaximumScoreEnsembler {A} `{Num A} rg nb sh := ScoreEnsembler (A := A) (pyod_aom rg nb sh).  (* 106-137 *)
Definition MaximumOfAverageScoreEnsembler {A} `{Num A} rg nb sh := ScoreEnsembler (A := A) (pyod_moa rg nb sh).  (* 140-173 *)
