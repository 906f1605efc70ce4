(** * Model of pysad/models/loda.py *)
From Coq Require Import List ZArith Lia Bool Arith.
From Verif Require Import Base Num Model_Stats Model_Utils Model_Core Model_Trans Model_Simple Model_Sketch.
Import ListNotations.
Open Scope m_scope.

(** The attributes that the first fit creates: num_features, projections_, histograms_, limits_ (one row per random cut);
    the counter numbers the calls of np.random.permutation. *)
Record lodaobj (A : Type) : Type := mkLo { lo_dim : nat; lo_proj : list (list A); lo_hist : list (list A); lo_limits : list (list A) }.
Arguments mkLo {A}.
Arguments lo_dim {A}.
Arguments lo_proj {A}.
Arguments lo_hist {A}.
Arguments lo_limits {A}.
Record lodast (A : Type) : Type := mkLoda { loda_obj : option (lodaobj A); loda_draws : nat }.
Arguments mkLoda {A}.
Arguments loda_obj {A}.
Arguments loda_draws {A}.

(** The bin edges of np.histogram for a single value v: n equal bins on [v - 0.5, v + 0.5]; [half] is 0.5. *)
Definition lo_edges {A} `{Num A} (half : A) (n : nat) (v : A) : list A :=
  let first := nsub v half in let last := nadd v half in
  map (fun i => nadd (nmul (nofZ (Z.of_nat i)) (ndiv (nsub last first) (nofZ (Z.of_nat n)))) first) (seq 0 (S n)).
(** The counts of np.histogram for a single value: bins are half open, the last one closed.
    Simplification: numpy finds the bin by arithmetic and corrects it with the edges; the outcome is the documented one. *)
Definition lo_counts {A} `{Num A} (edges : list A) (n : nat) (v : A) : list A :=
  map (fun i => if (oleb (nth i edges n0) v && (if (i =? n - 1)%nat then oleb v (nth (S i) edges n0) else oltb v (nth (S i) edges n0)))%bool
                then nofZ 1 else n0) (seq 0 n).
(** np.searchsorted(edges, v, side='left') on sorted edges *)
Definition searchsorted_left {A} `{Num A} (edges : list A) (v : A) : nat := length (filter (fun e => oltb e v) edges).
(** 53-54 *)
Definition lo_normalise {A} `{Num A} (eps : A) (counts : list A) : list A :=
  let h := map (fun c => nadd c eps) counts in map (fun c => ndiv c (nsum h)) h.
(** 49: components set to zero *)
Definition lo_zero {A} `{Num A} (row : list A) (idx : list nat) : list A := fold_left (fun r j => set_nth j n0 r) idx row.
(** 28-42.  [randn i j] is the entry (i, j) of the matrix that np.random.randn returns.
    np.int32(np.sqrt(num_features)) is the integer square root (exact below 2^52 features). *)
Definition loda_setup {A} `{Num A} (randn : nat -> nat -> A) (n_bins n_cuts dim : nat) : lodaobj A :=
  mkLo dim (map (fun i => map (randn i) (seq 0 dim)) (seq 0 n_cuts)) (repeat (repeat n0 n_bins) n_cuts) (repeat (repeat n0 (S n_bins)) n_cuts).
(** 46-54, one random cut.  [perms k] is the result of the k-th call of np.random.permutation.
    A shape mismatch in dot and bins = 0 in np.histogram raise ValueError, after line 49.
    Simplification: np.histogram also raises ValueError if the projected value is nan or infinite; finite here (Model_Finite has the rest). *)
Definition loda_cut {A} `{Num A} (half eps : A) (perms : nat -> list nat) (n_bins : nat) (x : list A) (i : nat) : M (lodast A) unit :=
  s <- gets (fun s => s) ;;
  match loda_obj s with
  | None => raise AttributeError
  | Some o =>
      let rands := firstn (lo_dim o - Nat.sqrt (lo_dim o)) (perms (loda_draws s)) in
      let row := lo_zero (nth i (lo_proj o) []) rands in
      let proj := set_nth i row (lo_proj o) in
      modify (fun _ => mkLoda (Some (mkLo (lo_dim o) proj (lo_hist o) (lo_limits o))) (S (loda_draws s))) ;;;
      if (negb (length x =? lo_dim o)%nat) then raise ValueError
      else if (n_bins =? 0)%nat then raise ValueError
      else
        let v := dot row x in
        let edges := lo_edges half n_bins v in
        modify (fun _ => mkLoda (Some (mkLo (lo_dim o) proj (set_nth i (lo_normalise eps (lo_counts edges n_bins v)) (lo_hist o)) (set_nth i edges (lo_limits o)))) (S (loda_draws s)))
  end.
(** 70-75, one random cut: the summand - weights[i] * log(...) *)
Definition loda_cut_score {A} `{Num A} (log : A -> A) (n_bins n_cuts : nat) (o : lodaobj A) (x : list A) (i : nat) : res A :=
  if negb (length x =? lo_dim o)%nat then Raise ValueError
  else
    let ind := searchsorted_left (firstn (n_bins - 1) (nth i (lo_limits o) [])) (dot (nth i (lo_proj o) []) x) in
    rmap (fun h => nmul (nneg (ndiv (nofZ 1) (nofZ (Z.of_nat n_cuts)))) (log h)) (py_index (nth i (lo_hist o) []) ind).
(** The class.  score_partial returns a one-element array.  Before the first fit the attributes do not exist.
    Simplification: with n_random_cuts = 0 the code divides by zero in numpy and returns nan; n_cuts is
    positive here, and Model_Zero has the rest. *)
Definition LODA {Y A} `{Num A} (half eps : A) (log : A -> A) (randn : nat -> nat -> A) (perms : nat -> list nat) (n_bins n_cuts : nat) : Model (list A) Y A :=
  plain_model (lodast A)
    (fun x _ =>                                                                          (* 18-56 *)
       modify (fun s => match loda_obj s with
                        | Some _ => s
                        | None => mkLoda (Some (loda_setup randn n_bins n_cuts (length x))) (loda_draws s)
                        end) ;;;
       iterM (loda_cut half eps perms n_bins x) (seq 0 n_cuts))
    (fun x =>                                                                            (* 58-78 *)
       s <- gets (fun s => s) ;;
       match loda_obj s with
       | None => raise AttributeError
       | Some o =>
           vs <- lift (res_map (loda_cut_score log n_bins n_cuts o x) (seq 0 n_cuts)) ;;
           ret (VArray [ndiv (nsum vs) (nofZ (Z.of_nat n_cuts))])
       end).
(** 13-16 *)
Definition LODA_init {A} : lodast A := mkLoda None 0.
