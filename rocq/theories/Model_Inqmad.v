(** * Model of pysad/models/inqmad.py (with JAX installed) *)
From Coq Require Import List ZArith Lia Bool Arith.
From Verif Require Import Base Num Spec Model_Stats Model_Utils Model_Core Model_Post Model_Trans Model_Simple.
Import ListNotations.
Open Scope m_scope.

(** ** Matrices: lists of rows *)
Definition outer {A} `{Num A} (u v : list A) : list (list A) := map (fun a => map (nmul a) v) u.
Definition madd {A} `{Num A} (a b : list (list A)) : list (list A) := map2 (map2 nadd) a b.
Definition mscale {A} `{Num A} (c : A) (a : list (list A)) : list (list A) := map (map (nmul c)) a.
(** A computation on arrays one of which is all nan gives an array that is all nan. *)
Definition np_lift2 {A B C} (f : A -> B -> C) (a : npres A) (b : npres B) : npres C :=
  match a, b with FinV a, FinV b => FinV (f a b) | _, _ => NonFin end.

(** ** QFeatureMap_rff, 94-154.  The parameters: the columns of random_weights_, random_offset_ (120-131, drawn by
    sklearn's RBFSampler: arbitrary), the dimension and the cosine function. *)
Record rffpar (A : Type) : Type := mkRff { rf_input : nat; rf_dim : Z; rf_weights : list (list A); rf_offset : list A; rf_cos : A -> A }.
Arguments mkRff {A}.
Arguments rf_input {A}.
Arguments rf_dim {A}.
Arguments rf_weights {A}.
Arguments rf_offset {A}.
Arguments rf_cos {A}.
(** 141-147 compute, on one row; jnp.dot raises TypeError when the number of features is not the fitted one *)
Definition rff_compute {A} `{Num A} (p : rffpar A) (x : list A) : res (list A) :=
  if (length x =? rf_input p)%nat
  then Ok (map2 (fun w o => nmul (rf_cos p (nadd (dot x w) o)) (ndiv (nsqrt (nofZ 2)) (nsqrt (nofZ (rf_dim p))))) (rf_weights p) (rf_offset p))
  else Raise TypeError.
(** 149-154 __call__, on one row: division of the row by its norm; a zero row gives nan everywhere.
    Simplification: the compiled function is the function (weights and offset never change after build). *)
Definition rff_call {A} `{Num A} (p : rffpar A) (x : list A) : res (npres (list A)) :=
  rbind (rff_compute p x) (fun vals =>
  let norm := nsqrt (nsum (map nsq vals)) in
  Ok (if oeqb norm n0 then NonFin else FinV (map (fun v => ndiv v norm) vals))).

(** ** InqMeasurement, 157-259 *)
(** The object.  [iq_cache] is what jax.jit has compiled predict to: for every shape of the argument seen so far, the
    attributes rho_res and num_samples that the trace captured as constants (self is a static argument, hashed by
    identity, so later changes of its attributes are not seen).  Simplification: all arguments have the same dtype. *)
Record inq (A : Type) : Type := mkInq { iq_rho : option (npres (list (list A))); iq_num : Z; iq_cache : list ((nat * nat) * (npres (list (list A)) * Z)) }.
Arguments mkInq {A}.
Arguments iq_rho {A}.
Arguments iq_num {A}.
Arguments iq_cache {A}.
(** 170-179 __init__ *)
Definition Inq_init {A} : inq A := mkInq None 0 [].
(** 181-187 train_pure and 189-191 sum on the rows of a batch (never empty) *)
Definition iq_sum {A} `{Num A} (ps : list (npres (list A))) : npres (list (list A)) :=
  match map (npmap (fun u => outer u u)) ps with
  | [] => NonFin
  | m :: ms => fold_left (np_lift2 madd) ms m
  end.
(** 194-200 compute_training_jit *)
Definition iq_train {A} `{Num A} (p : rffpar A) (alpha : A) (rho : option (npres (list (list A)))) (batch : list (list A)) : res (npres (list (list A))) :=
  rbind (res_map (rff_call p) batch) (fun inputs =>
  let rho_res := iq_sum inputs in
  Ok (match rho with
      | Some r => np_lift2 madd (npmap (mscale alpha) rho_res) (npmap (mscale (nsub (nofZ 1) alpha)) r)
      | None => rho_res
      end)).
(** 236-241 obtain_params_batches with 202-206, 250-254: consecutive batches of batch_size rows *)
Definition iq_batches {X} (b : nat) (rows : list X) : list (list X) :=
  map (fun i => firstn b (skipn (i * b) rows)) (seq 0 (length rows / b + if (length rows mod b =? 0)%nat then 0 else 1)).
(** 208-223 initial_train *)
Definition iq_initial_train {A} `{Num A} (p : rffpar A) (b : nat) (alpha : A) (rows : list (list A)) : M (inq A) unit :=
  (if (b =? 0)%nat then raise ZeroDivisionError else ret tt) ;;;
  iterM (fun batch =>
    s <- gets (fun s => s) ;;
    r <- lift (iq_train p alpha (iq_rho s) batch) ;;
    modify (fun s => mkInq (Some r) (iq_num s) (iq_cache s))) (iq_batches b rows) ;;;
  modify (fun s => mkInq (iq_rho s) (iq_num s + Z.of_nat (length rows)) (iq_cache s)).
(** 227-234 collapse of one row *)
Definition iq_collapse {A} `{Num A} (u : list A) (rho : list (list A)) : A :=
  let h := map (fun j => nsum (map (fun a => nmul (fst a) (nth j (snd a) n0)) (combine u rho))) (seq 0 (length u)) in
  nsum (map nsq h).
(** 247-259: what a trace with these attributes computes for the rows.  The rows are independent, so the split into
    batches does not matter to the values; no row gives no batch and None. *)
Definition iq_predict_with {A} `{Num A} (p : rffpar A) (rho : npres (list (list A))) (n : Z) (rows : list (list A)) : res (pyval (npres A)) :=
  rbind (res_map (rff_call p) rows) (fun us =>
  Ok (match us with
      | [] => VNone
      | _ => VArray (map (fun u => np_lift2 iq_collapse u (npmap (map (map (fun v => ndiv v (nofZ n)))) rho)) us)
      end)).
Definition iq_shape {A} (rows : list (list A)) : nat * nat := (length rows, match rows with [] => 0%nat | x :: _ => length x end).
Definition shape_eqb (a b : nat * nat) : bool := (fst a =? fst b)%nat && (snd a =? snd b)%nat.
(** 245-259 predict, compiled: an argument of a known shape runs the code compiled at the first call with that shape;
    a trace that raises is not kept *)
Definition iq_predict {A} `{Num A} (p : rffpar A) (b : nat) (rows : list (list A)) : M (inq A) (pyval (npres A)) :=
  s <- gets (fun s => s) ;;
  match find (fun e => shape_eqb (fst e) (iq_shape rows)) (iq_cache s) with
  | Some (_, (rho, n)) => lift (iq_predict_with p rho n rows)
  | None =>
      (if (b =? 0)%nat then raise ZeroDivisionError else ret tt) ;;;
      match iq_rho s with
      | None => raise AttributeError
      | Some rho =>
          v <- lift (iq_predict_with p rho (iq_num s) rows) ;;
          modify (fun s => mkInq (iq_rho s) (iq_num s) (iq_cache s ++ [(iq_shape rows, (rho, iq_num s))])) ;;;
          ret v
      end
  end.
(** ** Inqmad, 25-90.  The instance is given by its rows (72-73 and 87-88: a 1-D instance has one); fit_partial always
    trains with weight 1 (75). *)
Definition Inqmad {Y A} `{Num A} (p : rffpar A) (b : nat) : Model (list (list A)) Y (npres A) :=
  plain_model (inq A) (fun x _ => iq_initial_train p b (nofZ 1) x) (iq_predict p b).
