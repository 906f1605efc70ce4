(** * Window sizes that are any Python integer, also 0 and negative (pysad/models/half_space_trees.py, xstream.py,
    integrations/reference_window_model.py).  Nothing in these classes checks them.  The same methods with a natural number are in
    Model_HST, Model_XStream and Model_Integrations. *)
From Coq Require Import List ZArith Bool String.
From Verif Require Import Base Num Model_Stats Model_Utils Model_Core Model_Trans Model_Simple Model_Sketch Model_HST Model_XStream Model_Integrations Model_Eval.
Import ListNotations.
Open Scope m_scope.

(** half_space_trees.py 108-151; 123: self.step % self.window_size == 0. *)
Definition HalfSpaceTreesZ {Y A} `{Num A} (window_size : Z) (max_depth : nat) : Model (list A) Y A :=
  plain_model (hstst A)
    (fun x _ =>
       modify (fun s => mkHST (hs_roots s) (hs_first s) (S (hs_step s))) ;;;
       (fun s => let '(o, f) := each_tree (hs_update_mass max_depth x (hs_first s)) (hs_roots s) in (o, mkHST f (hs_first s) (hs_step s))) ;;;
       s <- gets (fun s => s) ;;
       r <- lift (pymod (Z.of_nat (hs_step s)) window_size) ;;
       if (r =? 0)%Z then modify hs_next_window else ret tt)
    (fun x =>
       s <- gets (fun s => s) ;;
       vs <- lift (res_map (hs_score_tree x) (hs_roots s)) ;;
       ret (VScalar (nneg (nsum vs)))).
(** xstream.py 36-77; 55: self.step % self.window_size == 0. *)
Definition xStreamZ {Y A} `{Num A} (two one tiny : A) (mmh3 : string -> nat -> Z) (p : shproj A) (floor : A -> Z) (log2 : A -> A) (K : nat) (window_size : Z) : Model (list A) Y A :=
  plain_model (xsst A)
    (fun x _ =>
       modify (fun s => mkXS (S (xs_step s)) (xs_window s) (xs_chains s)) ;;;
       z <- lift (xs_project two one mmh3 p x) ;;
       modify (fun s => mkXS (xs_step s) (xs_window s ++ [z]) (map (xc_fit floor z) (xs_chains s))) ;;;
       s <- gets (fun s => s) ;;
       r <- lift (pymod (Z.of_nat (xs_step s)) window_size) ;;
       if (r =? 0)%Z then
         modify (fun s => mkXS (xs_step s) [] (xs_chains s)) ;;;
         delta <- lift (xs_compute_deltamax tiny K (xs_window s)) ;;
         modify (fun s => mkXS (xs_step s) (xs_window s) (map (fun c => xc_next_window (xc_set_deltamax delta c)) (xs_chains s)))
       else ret tt)
    (fun x =>
       z <- lift (xs_project two one mmh3 p x) ;;
       s <- gets (fun s => s) ;;
       v <- lift (xs_score floor log2 (xs_chains s) z) ;;
       ret (VArray [v])).
(** reference_window_model.py 73-76, 79-82: np.concatenate([reference, current])[max(0, len - window_size):] *)
Definition rwz_slide {T} (window_size : Z) (reference : option (list T)) (current : list T) : res (list T) :=
  match reference with
  | None => Raise ValueError
  | Some r => let l := (r ++ current)%list in Ok (skipn (Z.to_nat (Z.max 0 (Z.of_nat (List.length l) - window_size))) l)
  end.
(** 51-88 *)
Definition rwz_fit {X Y A} (d : Detector X Y A) (window_size sliding_size : Z) (x : X) (y : option Y) : M (rwst X Y (dt_state d)) unit :=
  modify (fun s => rw_set_cur (rw_curX s ++ [x]) (rw_curY s) s) ;;;
  modify (fun s => match y with None => s | Some v => rw_set_cur (rw_curX s) (rw_curY s ++ [v]) s end) ;;;
  s <- gets (fun s => s) ;;
  if negb (rw_initial s) && (Z.of_nat (List.length (rw_curX s)) <? window_size)%Z &&
     match rw_refX s with None => true | Some r => (Z.of_nat (List.length r) <? window_size)%Z end
  then
    modify (rw_set_refX (Some (rw_curX s))) ;;;
    modify (rw_set_refY (match y with None => None | Some _ => Some (rw_curY s) end)) ;;;
    rw_fit_model d
  else
    m <- lift (pymod (Z.of_nat (List.length (rw_curX s))) sliding_size) ;;
    if (m =? 0)%Z
    then
      r <- lift (rwz_slide window_size (rw_refX s) (rw_curX s)) ;;
      modify (rw_set_refX (Some r)) ;;;
      match y with
      | None => ret tt
      | Some _ => ry <- lift (rwz_slide window_size (rw_refY s) (rw_curY s)) ;; modify (rw_set_refY (Some ry))
      end ;;;
      modify (rw_set_cur [] []) ;;;
      rw_fit_model d
    else ret tt.
(** 98-109 *)
Definition ReferenceWindowModelZ {X Y A} (d : Detector X Y A) (window_size sliding_size : Z) : Model X Y A :=
  plain_model (rwst X Y (dt_state d)) (rwz_fit d window_size sliding_size)
    (fun x => m <- gets rw_model ;; lift (pyod_score d m x)).
