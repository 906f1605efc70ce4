(** * MaxMeter and MinMeter on binary64 with missing values (pysad/statistics/max_meter.py, min_meter.py).
    Model_Stats leaves nan out: np.max and np.min of a list with a nan are nan, and list.remove finds a nan because it is the same object. *)
From Coq Require Import List Bool Floats.
From Verif Require Import Base Num Model_Stats.
Import ListNotations.
Open Scope m_scope.

(** np.max and np.min of a non-empty list: nan if there is one; [better v m] is v > m or v < m. *)
Definition np_extreme (better : float -> float -> bool) (l : list float) : res float :=
  match l with
  | [] => Raise ValueError
  | x :: l' => Ok (if existsb is_nan l then nan else fold_left (fun m v => if better v m then v else m) l' x)
  end.
(** list.remove(x): the first element that is x or equals x.
    Simplification: of several nans the first is removed, whichever object it is; the others are left, in the same number. *)
Definition is_or_equals (y x : float) : bool := PrimFloat.eqb y x || (is_nan y && is_nan x).
(** max_meter.py 15-62 and min_meter.py 15-60 *)
Definition ExtremeMeter (better : float -> float -> bool) (worst : float) : Meter float float := {|
  mt_state := maxst float;
  mt_init := mkMax worst [];
  mt_update := fun x => modify (fun s => mkMax (if better x (mx_max s) then x else mx_max s) (heappush (mx_lst s) x));
  mt_remove := fun x =>
    l <- gets mx_lst ;;
    match list_remove is_or_equals x l with
    | None => raise ValueError
    | Some l' =>
      modify (fun s => mkMax (mx_max s) l') ;;;
      match l' with
      | [] => modify (fun s => mkMax worst (mx_lst s))
      | _ => m <- lift (np_extreme better l') ;; modify (fun s => mkMax m (mx_lst s))
      end
    end;
  mt_get := gets mx_max
|}.
Definition MaxMeterNan : Meter float float := ExtremeMeter (fun v m => (m <? v)%float) neg_infinity.
Definition MinMeterNan : Meter float float := ExtremeMeter (fun v m => (v <? m)%float) infinity.
