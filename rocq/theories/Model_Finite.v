(** * LODA with values that are not finite (pysad/models/loda.py): np.histogram refuses them, np.searchsorted sorts nan last.
    Model_Loda leaves both out. *)
From Coq Require Import List ZArith Bool Arith.
From Verif Require Import Base Num Model_Stats Model_Utils Model_Core Model_Trans Model_Simple Model_Loda.
Import ListNotations.
Open Scope m_scope.

(** 46-54, one random cut.  np.histogram raises ValueError if the projected value is not finite.
    Simplification: recent releases of numpy also refuse finite values so large that the bins have no width. *)
Definition loda_cut_fin {A} `{Num A} (finite : A -> bool) (half eps : A) (perms : nat -> list nat) (n_bins : nat) (x : list A) (i : nat) : M (lodast A) unit :=
  s <- gets (fun s => s) ;;
  match loda_obj s with
  | None => raise AttributeError
  | Some o =>
      let rands := firstn (lo_dim o - Nat.sqrt (lo_dim o)) (perms (loda_draws s)) in
      let row := lo_zero (nth i (lo_proj o) []) rands in
      let proj := set_nth i row (lo_proj o) in
      modify (fun _ => mkLoda (Some (mkLo (lo_dim o) proj (lo_hist o) (lo_limits o))) (S (loda_draws s))) ;;;
      if (negb (length x =? lo_dim o)%nat) then raise ValueError
      else if (n_bins =? 0)%nat then raise ValueError
      else
        let v := dot row x in
        if negb (finite v) then raise ValueError
        else
          let edges := lo_edges half n_bins v in
          modify (fun _ => mkLoda (Some (mkLo (lo_dim o) proj (set_nth i (lo_normalise eps (lo_counts edges n_bins v)) (lo_hist o)) (set_nth i edges (lo_limits o)))) (S (loda_draws s)))
  end.
(** np.searchsorted(edges, v, side='left'): nan comes after everything else. *)
Definition searchsorted_nan {A} `{Num A} (isnan : A -> bool) (edges : list A) (v : A) : nat :=
  length (filter (fun e => (isnan v && negb (isnan e)) || oltb e v) edges).
(** 70-75, one random cut *)
Definition loda_cut_score_fin {A} `{Num A} (isnan : A -> bool) (log : A -> A) (n_bins n_cuts : nat) (o : lodaobj A) (x : list A) (i : nat) : res A :=
  if negb (length x =? lo_dim o)%nat then Raise ValueError
  else
    let ind := searchsorted_nan isnan (firstn (n_bins - 1) (nth i (lo_limits o) [])) (dot (nth i (lo_proj o) []) x) in
    rmap (fun h => nmul (nneg (ndiv (nofZ 1) (nofZ (Z.of_nat n_cuts)))) (log h)) (py_index (nth i (lo_hist o) []) ind).
(** The class: 18-56 and 58-78. *)
Definition LODA_fin {Y A} `{Num A} (finite isnan : A -> bool) (half eps : A) (log : A -> A) (randn : nat -> nat -> A) (perms : nat -> list nat) (n_bins n_cuts : nat) : Model (list A) Y A :=
  plain_model (lodast A)
    (fun x _ =>
       modify (fun s => match loda_obj s with
                        | Some _ => s
                        | None => mkLoda (Some (loda_setup randn n_bins n_cuts (length x))) (loda_draws s)
                        end) ;;;
       iterM (loda_cut_fin finite half eps perms n_bins x) (seq 0 n_cuts))
    (fun x =>
       s <- gets (fun s => s) ;;
       match loda_obj s with
       | None => raise AttributeError
       | Some o =>
           vs <- lift (res_map (loda_cut_score_fin isnan log n_bins n_cuts o x) (seq 0 n_cuts)) ;;
           ret (VArray [ndiv (nsum vs) (nofZ (Z.of_nat n_cuts))])
       end).
