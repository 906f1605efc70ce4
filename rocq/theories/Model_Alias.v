(** * Detectors that keep references to the arrays they are given.
    Python passes an array by reference: a detector that stores X stores the array object, and sees what the caller
    writes into it later.  The model: an array is an address, the memory maps addresses to contents, a call receives an
    address.  Detectors that copy what they need during the call (all the others) are the models of the other files
    applied to the content at that moment. *)
From Coq Require Import List ZArith Lia Bool Arith.
From Verif Require Import Base Num Model_Stats Model_Utils Model_Core Model_Trans Model_Simple Model_Integrations Model_Sketch P_Models.
Import ListNotations.
Open Scope m_scope.

Definition mem (X : Type) : Type := nat -> X.
Definition mem_set {X} (a : nat) (x : X) (m : mem X) : mem X := fun b => if (b =? a)%nat then x else m b.
(** A detector whose methods receive addresses and may read the memory. *)
Record RModel (X Y A : Type) : Type := mkRModel { rm_state : Type; rm_fit : mem X -> nat -> option Y -> M rm_state unit; rm_score : mem X -> nat -> M rm_state (pyval A) }.
Arguments mkRModel {X Y A}.
Arguments rm_state {X Y A}.
Arguments rm_fit {X Y A}.
Arguments rm_score {X Y A}.
(** The detector while the memory does not change; fit_score_partial is inherited (core/base_model.py:35-45). *)
Definition rm_at {X Y A} (r : RModel X Y A) (m : mem X) : Model nat Y A := plain_model (rm_state r) (rm_fit r m) (rm_score r m).

(** ** models/exact_storm.py: 31 window.update(X) stores the array; 48 cdist reads the stored arrays. *)
Definition ExactStormRef {Y A} `{Num A} (radius : A) : RModel (list A) Y A :=
  mkRModel (window nat)
    (fun _ a _ => Window_update a)
    (fun m a => w <- Window_get ;; v <- lift (storm_score radius (map m w) (m a)) ;; ret (VScalar v)).

(** ** models/relative_entropy.py: 60 self.util.append(X) stores the array; 67 reads the last W stored arrays. *)
Record rerst (A : Type) : Type := mkRER { rer_util : list nat; rer_m : nat; rer_P : list (list (npres A)); rer_c : list Z; rer_hat : option (list (npres A)) }.
Arguments mkRER {A}.
Arguments rer_util {A}.
Arguments rer_m {A}.
Arguments rer_P {A}.
Arguments rer_c {A}.
Arguments rer_hat {A}.
Definition RER_init {A} : rerst A := mkRER [] 0 [] [] None.
Definition RelativeEntropyRef {Y A} `{Num A} (log : A -> A) (ceil : A -> Z) (thr min_val step : A) (num_bins window_size : nat) : RModel (list A) Y A :=
  mkRModel (rerst A)
    (fun m a _ =>                                                                          (* 50-82 *)
       modify (fun s => mkRER (rer_util s ++ [a]) (rer_m s) (rer_P s) (rer_c s) (rer_hat s)) ;;;
       s <- gets (fun s => s) ;;
       if (window_size <=? length (rer_util s))%nat then
         bs <- lift (res_map (re_quantize ceil min_val step) (map m (py_last window_size (rer_util s)))) ;;
         let h := np_density (np_histogram num_bins bs) in
         modify (fun s => mkRER (rer_util s) (rer_m s) (rer_P s) (rer_c s) (Some h)) ;;;
         if (rer_m s =? 0)%nat then modify (fun s => mkRER (rer_util s) 1 (rer_P s ++ [h]) (rer_c s ++ [1%Z]) (rer_hat s)) else ret tt
       else ret tt)
    (fun _ _ =>                                                                            (* 84-98 *)
       s <- gets (fun s => s) ;;
       match rer_hat s with
       | Some h => if (window_size <=? length (rer_util s))%nat && (0 <? rer_m s)%nat
                   then ret (VScalar (nofZ (agreement log thr (nofZ (2 * Z.of_nat window_size)) h (firstn (rer_m s) (rer_P s)) 0 None (-1))))
                   else ret (VScalar n0)
       | None => ret (VScalar n0)
       end).

(** ** models/integrations/reference_window_model.py: 61 and 69 keep the arrays themselves (the copy of line 69 is
    shallow); np.concatenate (73-74) copies the contents into a new array.  The external detector reads the contents
    when it is trained. *)
Inductive slot (X : Type) : Type := Held (a : nat) | Copied (x : X).
Arguments Held {X}.
Arguments Copied {X}.
Definition slot_get {X} (m : mem X) (s : slot X) : X := match s with Held a => m a | Copied x => x end.
Definition det_at {X Y A} (d : Detector X Y A) (m : mem X) : Detector (slot X) Y A :=
  mkDetector (slot X) Y A (dt_state d) (dt_new d) (fun xs ys => dt_fit d (map (slot_get m) xs) ys) (fun x => dt_score d (slot_get m x)).
(** rw_fit is the method of Model_Integrations; the current window is empty exactly when it has just been merged into the
    reference window, which is then a new array. *)
Definition rwr_fit {X Y A} (d : Detector X Y A) (window_size sliding_size : nat) (m : mem X) (a : nat) (y : option Y) : M (rwst (slot X) Y (dt_state d)) unit :=
  fun s => let '(r, s') := rw_fit (det_at d m) window_size sliding_size (Held a) y s in
    (r, match rw_curX s' with
        | [] => rw_set_refX (match rw_refX s' with None => None | Some l => Some (map (fun e => Copied (slot_get m e)) l) end) s'
        | _ => s'
        end).
Definition ReferenceWindowRef {X Y A} (d : Detector X Y A) (window_size sliding_size : nat) : RModel X Y A :=
  mkRModel (rwst (slot X) Y (dt_state d)) (rwr_fit d window_size sliding_size)
    (fun m a => mdl <- gets rw_model ;; lift (pyod_score d mdl (m a))).
(** Without an initial window. *)
Definition RWR_init {X Y A} (d : Detector X Y A) : rwst (slot X) Y (dt_state d) := mkRW [] [] None None false None 0.

(** ** transform/preprocessing/seasonal_trend_decomposer.py: np.asarray (46) makes no copy of an array, so 79 and 122 keep the
    array that was passed; 56 reads the kept arrays.  [sr_kept] are their addresses; the field st_window of [sr_rest] is
    replaced by their contents at every call.  [keeps] says whether the method appends X (fit_partial, fit_transform_partial)
    or not (transform_partial). *)
Record stdref (A : Type) : Type := mkSTDR { sr_kept : list nat; sr_rest : stdst A }.
Arguments mkSTDR {A}.
Arguments sr_kept {A}.
Arguments sr_rest {A}.
Definition std_set_window {A} (w : list (list A)) (s : stdst A) : stdst A := mkSTD (st_season s) (st_trendw s) w (st_sums s) (st_counts s) (st_seen s).
Definition stdref_call {A B} (keeps : bool) (method : pyarg (list A) -> M (stdst A) B) (m : mem (list A)) (a : nat) : M (stdref A) B := fun s =>
  let '(r, t) := method (AInst (m a)) (std_set_window (map m (sr_kept s)) (sr_rest s)) in
  (r, mkSTDR (if keeps then deque_append (st_trendw (sr_rest s)) a (sr_kept s) else sr_kept s) t).
Definition stdref_fit {A} `{Num A} := stdref_call (A := A) true std_fit.                          (* 64-88 *)
Definition stdref_transform {A} `{Num A} := stdref_call (A := A) false std_transform.             (* 90-105 *)
Definition stdref_fit_transform {A} `{Num A} := stdref_call (A := A) true std_fit_transform.      (* 107-132 *)
Definition STDR_init {A} (season_length : Z) (trend_window : option Z) : res (stdref A) := rmap (mkSTDR []) (STD_init season_length trend_window).   (* 24-40 *)
