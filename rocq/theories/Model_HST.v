(** * Model of pysad/models/half_space_trees.py *)
From Coq Require Import List ZArith Lia Bool.
From Verif Require Import Base Num Model_Utils Model_Core Model_Simple Model_Sketch.
Import ListNotations.
Open Scope m_scope.

(** 153-161 _Node, or None. *)
Inductive hst (A : Type) : Type :=
| HNone
| HNode (left right : hst A) (r_mass l_mass : Z) (split_att : nat) (split_value : A) (k : nat).
Arguments HNone {A}.
Arguments HNode {A}.

(** 48-82 _build_single_hs_tree; [n] is max_depth - current_depth.  The random numbers np.random.randint returns are
    [draw 0, draw 1, ...]; the state is the number of draws.  [cast] is the conversion made when a number is stored in the
    arrays mins and maxes: the identity for float arrays and lists, truncation for integer arrays.
    Simplification: the recursion never ends if max_depth < 0; max_depth is a natural number here. *)
Fixpoint hs_build {A} `{Num A} (cast : A -> A) (draw : nat -> nat) (n : nat) (mins maxes : list A) (depth : nat) : M nat (hst A) :=
  match n with
  | O => ret (HNode HNone HNone 0 0 0 n0 depth)                                          (* 49-57 *)
  | S n' =>
      i <- gets (fun i => i) ;;
      (if (length maxes =? 0)%nat then raise ValueError else modify S) ;;;               (* 59 *)
      let q := draw i in
      hi <- lift (py_index maxes q) ;; lo <- lift (py_index mins q) ;;
      let p := ndiv (nadd hi lo) (nofZ 2) in                                             (* 60 *)
      left <- hs_build cast draw n' mins (set_nth q (cast p) maxes) (S depth) ;;         (* 62-67 *)
      right <- hs_build cast draw n' (set_nth q (cast p) mins) maxes (S depth) ;;        (* 68-73 *)
      ret (HNode left right 0 0 q p depth)                                               (* 75-82 *)
  end.

(** 84-94 _update_mass *)
Fixpoint hs_update_mass {A} `{Num A} (max_depth : nat) (x : list A) (first : bool) (t : hst A) : res unit * hst A :=
  match t with
  | HNone => (Raise AttributeError, HNone)
  | HNode L R r l q p k =>
      let r' := if first then (r + 1)%Z else r in
      let l' := (l + 1)%Z in
      if (k <? max_depth)%nat then
        match py_index x q with
        | Raise e => (Raise e, HNode L R r' l' q p k)
        | Ok v => if oltb p v then let '(o, R') := hs_update_mass max_depth x first R in (o, HNode L R' r' l' q p k)
                  else let '(o, L') := hs_update_mass max_depth x first L in (o, HNode L' R r' l' q p k)
        end
      else (Ok tt, HNode L R r' l' q p k)
  end.
(** 96-106 _update_model on one tree *)
Fixpoint hs_update_model {A} (t : hst A) : hst A :=
  match t with
  | HNone => HNone
  | HNode L R r l q p k => HNode (hs_update_model L) (hs_update_model R) l 0 q p k
  end.
(** 129-135 _score_tree *)
Fixpoint hs_score_tree {A} `{Num A} (x : list A) (t : hst A) : res A :=
  match t with
  | HNone => Ok n0
  | HNode L R r l q p k =>
      rbind (py_index x q) (fun v =>
      rmap (fun s => nadd (nofZ (r * 2 ^ Z.of_nat k)) s) (if oltb p v then hs_score_tree x R else hs_score_tree x L))
  end.
(** Attributes roots, is_first_window, step. *)
Record hstst (A : Type) : Type := mkHST { hs_roots : list (hst A); hs_first : bool; hs_step : nat }.
Arguments mkHST {A}.
Arguments hs_roots {A}.
Arguments hs_first {A}.
Arguments hs_step {A}.
(** _update_model(root) on every root; is_first_window becomes False if there is a root (99-101). *)
Definition hs_next_window {A} (s : hstst A) : hstst A :=
  mkHST (map hs_update_model (hs_roots s)) (match hs_roots s with [] => hs_first s | _ => false end) (hs_step s).
Definition HalfSpaceTrees {Y A} `{Num A} (window_size max_depth : nat) : Model (list A) Y A :=
  plain_model (hstst A)
    (fun x _ =>                                                                           (* 108-127 *)
       modify (fun s => mkHST (hs_roots s) (hs_first s) (S (hs_step s))) ;;;
       (fun s => let '(o, f) := each_tree (hs_update_mass max_depth x (hs_first s)) (hs_roots s) in (o, mkHST f (hs_first s) (hs_step s))) ;;;
       s <- gets (fun s => s) ;;
       if (window_size =? 0)%nat then raise ZeroDivisionError
       else if (hs_step s mod window_size =? 0)%nat then modify hs_next_window else ret tt)
    (fun x =>                                                                             (* 137-151 *)
       s <- gets (fun s => s) ;;
       vs <- lift (res_map (hs_score_tree x) (hs_roots s)) ;;
       ret (VScalar (nneg (nsum vs)))).
(** The argument initial_window_X: None, a list of instances, or a 2-D array. *)
Inductive initwin (A : Type) : Type := IWNone | IWList (rows : list (list A)) | IWArray (rows : list (list A)).
Arguments IWNone {A}.
Arguments IWList {A}.
Arguments IWArray {A}.
(** 45: bool(initial_window_X).  The truth value of an array with more than one element raises ValueError; that of an empty
    one is False. *)
Definition iw_truth {A} `{Num A} (w : initwin A) : res bool :=
  match w with
  | IWNone => Ok false
  | IWList rows => Ok (negb (length rows =? 0)%nat)
  | IWArray rows => match concat rows with [] => Ok false | [a] => Ok (negb (oeqb a n0)) | _ => Raise ValueError end
  end.
Definition iw_rows {A} (w : initwin A) : list (list A) := match w with IWNone => [] | IWList r => r | IWArray r => r end.
(** 18-46 __init__ *)
Definition HST_init {Y A} `{Num A} (cast : A -> A) (draw : nat -> nat) (feature_mins feature_maxes : list A) (window_size num_trees max_depth : nat)
    (w : initwin A) : res (hstst A) :=
  rbind (fst (mapM (fun _ => hs_build cast draw max_depth feature_mins feature_maxes 0) (seq 0 num_trees) 0%nat)) (fun roots =>
  let s := mkHST roots true 0 in
  rbind (iw_truth w) (fun b =>
  if b then match BaseModel_fit (HalfSpaceTrees (Y := Y) window_size max_depth) (iw_rows w) None s with (Ok _, s') => Ok s' | (Raise e, _) => Raise e end
  else Ok s)).
