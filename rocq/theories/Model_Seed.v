(** * Model of pysad/utils/__init__.py fix_seed, and of the parts of pysad that share numpy's global random generator. *)
From Coq Require Import List ZArith Lia Bool Arith.
From Verif Require Import Base Num Model_Stats Model_Utils Model_Core Model_Trans Model_Simple Model_Sketch Model_HST Model_Loda Model_XStream P_Models.
From Coq Require Import String.
Local Notation length := List.length.
Import ListNotations.
Open Scope m_scope.

(** numpy's global generator np.random: an unknown state machine with states [G].  The functions are the ones pysad calls:
    seed(n), uniform(), the matrix of randn(r, c), permutation(n), shuffle of a list of n items (as the numbers that
    [np_shuffle] uses), randint(n), which is also randint(0, n), rand(k), uniform(low, high, size), randint(low, high) after the
    truncation of the bounds, and choice(a, size, replace=False). *)
Record rng (G A : Type) : Type := mkRng {
  rg_seed : Z -> G; rg_uniform : G -> A * G; rg_randn : nat -> nat -> G -> (nat -> nat -> A) * G;
  rg_permutation : nat -> G -> list nat * G; rg_shuffle : nat -> G -> (nat -> nat) * G; rg_randint : nat -> G -> nat * G;
  rg_rand : nat -> G -> list A * G; rg_uniforms : A -> A -> nat -> G -> list A * G; rg_between : Z -> Z -> G -> Z * G; rg_choice : list nat -> nat -> G -> list nat * G }.
Arguments mkRng {G A}.
Arguments rg_seed {G A}.
Arguments rg_uniform {G A}.
Arguments rg_randn {G A}.
Arguments rg_permutation {G A}.
Arguments rg_shuffle {G A}.
Arguments rg_randint {G A}.
Arguments rg_rand {G A}.
Arguments rg_uniforms {G A}.
Arguments rg_between {G A}.
Arguments rg_choice {G A}.
(** One draw. *)
Definition drawing {G B} (f : G -> B * G) : M G B := fun g => let '(v, g') := f g in (Ok v, g').

(** pysad/utils/__init__.py 14-21.  np.random.seed raises ValueError outside 0 .. 2^32 - 1.
    Simplification: line 20 seeds Python's own generator, which nothing in pysad reads. *)
Definition fix_seed {G A} (R : rng G A) (n : Z) : M G unit :=
  fun g => if ((0 <=? n) && (n <? 2 ^ 32))%Z then (Ok tt, rg_seed R n) else (Raise ValueError, g).

(** pysad/models/random_model.py 10-31 *)
Definition random_score {X G A} (R : rng G A) (x : X) : M (G * unit) (pyval A) :=
  fun s => let '(v, g) := rg_uniform R (fst s) in (Ok (VScalar v), (g, tt)).

(** pysad/models/loda.py 18-56 with the generator; the rest of the code is that of [LODA]: 28-42 draw the matrix at the first
    fit, 47 draws one permutation per random cut. *)
Definition loda_cut_shared {G A} `{Num A} (R : rng G A) (half eps : A) (n_bins : nat) (x : list A) (i : nat) : M (G * lodast A) unit :=
  fun s => match loda_obj (snd s) with
           | None => (Raise AttributeError, s)
           | Some o => let '(rands, g) := rg_permutation R (lo_dim o) (fst s) in
                       let '(r, l) := loda_cut half eps (fun _ => rands) n_bins x i (snd s) in (r, (g, l))
           end.
Definition loda_fit_shared {G A} `{Num A} (R : rng G A) (half eps : A) (n_bins n_cuts : nat) (x : list A) : M (G * lodast A) unit :=
  modify (fun s => match loda_obj (snd s) with
                   | Some _ => s
                   | None => let '(z, g) := rg_randn R n_cuts (length x) (fst s) in
                             (g, mkLoda (Some (loda_setup z n_bins n_cuts (length x))) (loda_draws (snd s)))
                   end) ;;;
  iterM (loda_cut_shared R half eps n_bins x) (seq 0 n_cuts).

(** ** A process *)
Section Process.
Context {X Y G A : Type}.
(** A detector: its own attributes, and calls that may also use the generator. *)
Record object : Type := Obj { ob_state : Type; ob_call : mcall X Y -> M (G * ob_state) (option (pyval A)); ob_now : ob_state }.
(** A detector that draws no random numbers in its methods. *)
Definition own (m : Model X Y A) (s : md_state m) : object :=
  Obj (md_state m) (fun c gs => let '(r, s') := model_call m c (snd gs) in (r, (fst gs, s'))) s.
(** One that does. *)
Definition shared {S : Type} (fit : X -> option Y -> M (G * S) unit) (score : X -> M (G * S) (pyval A)) (s : S) : object :=
  Obj S (model_call (plain_model (G * S) fit score)) s.
(** The state of the process: the generator and the detectors that exist. *)
Record process : Type := mkProc { pr_g : G; pr_objs : list object }.
(** What the program does next: fix_seed(n); create a detector; call a method of the i-th detector; get_iterator(file,
    shuffle=True, seed); start iterating over n shuffled instances. *)
Inductive op : Type := OSeed (n : Z) | ONew (mk : G -> res object * G) | OCall (i : nat) (c : mcall X Y) | OGetIterator (seed : option Z) | OStart (n : nat).
(** What the program sees: success or an exception, the answer of a detector, the order of the instances. *)
Inductive seen : Type := Done (r : res unit) | Answer (r : res (option (pyval A))) | Order (l : list nat).
Variable R : rng G A.
(** data.py 87-106: the seed is set at once; iter of array_streamer.py is a generator function, so the shuffling (22-24)
    happens when the first instance is asked for.  Detectors are kept in a list (IndexError for one that does not exist).
    Simplification: files are read without error. *)
Definition step (p : process) (o : op) : seen * process :=
  match o with
  | OSeed n => let '(r, g) := fix_seed R n (pr_g p) in (Done r, mkProc g (pr_objs p))
  | ONew mk => match mk (pr_g p) with
               | (Ok b, g) => (Done (Ok tt), mkProc g (pr_objs p ++ [b]))
               | (Raise e, g) => (Done (Raise e), mkProc g (pr_objs p))
               end
  | OCall i c => match nth_error (pr_objs p) i with
                 | None => (Answer (Raise IndexError), p)
                 | Some b => let '(r, gs) := ob_call b c (pr_g p, ob_now b) in
                             (Answer r, mkProc (fst gs) (set_nth i (Obj (ob_state b) (ob_call b) (snd gs)) (pr_objs p)))
                 end
  | OGetIterator None => (Done (Ok tt), p)
  | OGetIterator (Some n) => let '(r, g) := fix_seed R n (pr_g p) in (Done r, mkProc g (pr_objs p))
  | OStart n => let '(d, g) := rg_shuffle R n (pr_g p) in (Order (stream_indices n (Some d)), mkProc g (pr_objs p))
  end.
Fixpoint trace (p : process) (l : list op) : list seen := match l with [] => [] | o :: r => fst (step p o) :: trace (snd (step p o)) r end.
Definition after (p : process) (l : list op) : process := fold_left (fun p o => snd (step p o)) l p.
End Process.
Arguments object : clear implicits.
Arguments process : clear implicits.
Arguments op : clear implicits.
Arguments seen : clear implicits.

(** The detectors that use the generator: RandomModel, LODA; and the constructors of HalfSpaceTrees (half_space_trees.py
    18-46), which calls np.random.randint(num_dimensions) once per inner node, of xStream and of RSHash, which draw nothing
    afterwards. *)
Definition new_random {X Y G A} (R : rng G A) : object X Y G A := shared (fun _ _ => ret tt) (random_score R) tt.
Definition new_loda {Y G A} `{Num A} (R : rng G A) (half eps : A) (log : A -> A) (n_bins n_cuts : nat) : object (list A) Y G A :=
  shared (fun x _ => loda_fit_shared R half eps n_bins n_cuts x)
    (fun x s => let '(r, l) := md_score (LODA (Y := Y) half eps log (fun _ _ => n0) (fun _ => []) n_bins n_cuts) x (snd s) in (r, (fst s, l))) LODA_init.
Definition randint_state {G A} (R : rng G A) (d : nat) (g : G) (k : nat) : G := Nat.iter k (fun g => snd (rg_randint R d g)) g.
Definition new_hst {Y G A} `{Num A} (R : rng G A) (cast : A -> A) (mins maxes : list A) (window_size num_trees max_depth : nat) (w : initwin A) (g : G) : res (object (list A) Y G A) * G :=
  let d := length maxes in
  let draw := fun k => fst (rg_randint R d (randint_state R d g k)) in
  (rmap (own (HalfSpaceTrees window_size max_depth)) (HST_init (Y := Y) cast draw mins maxes window_size num_trees max_depth w),
   randint_state R d g (snd (mapM (fun _ => hs_build cast draw max_depth mins maxes 0) (seq 0 num_trees) 0%nat))).
(** xstream.py 92-101 for one chain, 183-191 for all of them, called in 27-30.  np.random.randint(0, 0) raises ValueError. *)
Definition xs_draw_chain {G A} (R : rng G A) (K depth : nat) : M G (list nat * list A) :=
  fs <- mapM (fun _ => if (K =? 0)%nat then raise ValueError else drawing (rg_randint R K)) (seq 0 depth) ;;
  rand <- drawing (rg_rand R K) ;;
  ret (fs, rand).
Definition new_xstream {Y G A} `{Num A} (R : rng G A) (two one tiny half : A) (mmh3 : string -> nat -> Z) (p : shproj A) (floor : A -> Z) (log2 : A -> A) (K n_chains depth window_size : nat) : M G (object (list A) Y G A) :=
  draws <- mapM (fun _ => xs_draw_chain R K depth) (seq 0 n_chains) ;;
  ret (own (xStream two one tiny mmh3 p floor log2 K window_size) (xStream_init tiny half K draws)).
(** rs_hash.py 128-135, 156-162 for one component; see [rs_num_feats] and [rs_sel]. *)
Definition rs_draw_features {G A} `{Num A} (R : rng G A) (log : A -> A) (floor : A -> Z) (effS : A) (arrays : bool) (mins maxs : list A) (f : A) : M G (list nat) :=
  let common := ndiv (log effS) (log (omax (nofZ 2) (ndiv (nofZ 1) f))) in
  let low := nadd (nofZ 1) (nmul (ndiv (nofZ 1) (nofZ 2)) common) in
  r <- (if (floor low =? floor common)%Z then ret 1%Z
        else if (floor common <=? floor low)%Z then raise ValueError
        else v <- drawing (rg_between R (floor low) (floor common)) ;; ret (Z.min v (Z.of_nat (length mins)))) ;;
  let feats := match rs_choice_feats arrays mins maxs with [] => seq 0 (length mins) | cf => cf end in
  let size := Nat.min (Z.to_nat r) (length feats) in
  if (length feats <? size)%nat then raise ValueError else drawing (rg_choice R feats size).
(** rs_hash.py 17-50: first all cell sizes, then the features of all components, then the shifts of all components. *)
Definition new_rshash {Y G A} `{Num A} (R : rng G A) (pow2 log sqrt : A -> A) (floor : A -> Z) (decay : A) (arrays : bool) (mins maxs : list A) (sampling_points : Z) (num_components num_hash_fns : nat) : M G (object (list A) Y G A) :=
  let effS := rs_effS pow2 decay in
  fs <- drawing (rg_uniforms R (rs_f_low sqrt effS) (rs_f_high sqrt effS) num_components) ;;
  Vs <- mapM (rs_draw_features R log floor effS arrays mins maxs) fs ;;
  alphas <- mapM (fun q => drawing (rg_uniforms R n0 (fst q) (length (snd q)))) (combine fs Vs) ;;
  ret (own (RSHash pow2 log floor decay (map (fun q => mkComp (fst (snd q)) (snd (snd q)) (fst q)) (combine fs (combine Vs alphas)))) (RSHash_init sampling_points num_hash_fns)).
