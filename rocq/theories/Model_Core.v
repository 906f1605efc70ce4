(** * Model of pysad/core: BaseModel, BasePostprocessor, BaseTransformer *)
From Coq Require Import List ZArith Lia Bool.
From Verif Require Import Base Num Model_Utils.
Import ListNotations.
Open Scope m_scope.

(** A Python value returned by score_partial / transform_partial: None, a scalar (Python
    number, numpy scalar or 0-d array), or an array with at least one dimension (its
    elements in C order). *)
Inductive pyval (A : Type) : Type := VNone | VScalar (a : A) | VArray (l : list A).
Arguments VNone {A}.
Arguments VScalar {A}.
Arguments VArray {A}.

(** Storing such a value in a cell of a float64 array as BaseModel does
    (base_model.py:73-74 and 91-94): arrays go through .item(), which raises
    ValueError unless the size is 1; numpy turns None into nan. *)
Definition store {A} (v : pyval A) : res (npres A) :=
  match v with
  | VNone => Ok NonFin
  | VScalar a => Ok (FinV a)
  | VArray [a] => Ok (FinV a)
  | VArray _ => Raise ValueError
  end.

(** ** pysad/core/base_model.py *)
(** A subclass of BaseModel: attributes, fit_partial (10-21), score_partial (23-33), and
    fit_score_partial, which a subclass may override (SeasonalESD does). *)
Record Model (X Y A : Type) : Type := mkModel {
  md_state : Type;
  md_fit : X -> option Y -> M md_state unit;
  md_score : X -> M md_state (pyval A);
  md_fit_score : X -> option Y -> M md_state (pyval A)
}.
Arguments md_state {X Y A} m.
Arguments md_fit {X Y A} m.
Arguments md_score {X Y A} m.
Arguments md_fit_score {X Y A} m.

(** 35-45: the inherited fit_score_partial. *)
Definition default_fit_score {S X Y A} (fit : X -> option Y -> M S unit) (score : X -> M S A)
  (x : X) (y : option Y) : M S A := fit x y ;;; score x.

(** 47-60: fit. *)
Definition BaseModel_fit {X Y A} (m : Model X Y A) (xs : list X) (ys : option (list Y)) : M (md_state m) unit :=
  for_gen (fun p => md_fit m (fst p) (snd p)) (iterate xs ys).

(** 62-76: score. *)
Definition BaseModel_score {X Y A} (m : Model X Y A) (xs : list X) : M (md_state m) (list (npres A)) :=
  map_gen (fun p => v <- md_score m (fst p) ;; lift (store v)) (@iterate X Y xs None).

(** 78-96: fit_score. *)
Definition BaseModel_fit_score {X Y A} (m : Model X Y A) (xs : list X) (ys : option (list Y))
  : M (md_state m) (list (npres A)) :=
  map_gen (fun p => v <- md_fit_score m (fst p) (snd p) ;; lift (store v)) (iterate xs ys).

(** ** pysad/core/base_postprocessor.py *)
Record Postprocessor (X A : Type) : Type := mkPost {
  pp_state : Type;
  pp_fit : X -> M pp_state unit;                  (* 10-20 *)
  pp_transform : X -> M pp_state (pyval A)        (* 22-32 *)
}.
Arguments pp_state {X A} p.
Arguments pp_fit {X A} p.
Arguments pp_transform {X A} p.
(** 34-43 *)
Definition pp_fit_transform {X A} (p : Postprocessor X A) (x : X) : M (pp_state p) (pyval A) :=
  pp_fit p x ;;; pp_transform p x.
(** 45-59 transform *)
Definition Post_transform {X A} (p : Postprocessor X A) (xs : list X) : M (pp_state p) (list (npres A)) :=
  map_gen (fun q => v <- pp_transform p (fst q) ;; lift (store v)) (@iterate X unit xs None).
(** 61-73 fit *)
Definition Post_fit {X A} (p : Postprocessor X A) (xs : list X) : M (pp_state p) unit :=
  for_gen (fun q => pp_fit p (fst q)) (@iterate X unit xs None).
(** 75-89 fit_transform *)
Definition Post_fit_transform {X A} (p : Postprocessor X A) (xs : list X) : M (pp_state p) (list (npres A)) :=
  map_gen (fun q => v <- pp_fit_transform p (fst q) ;; lift (store v)) (@iterate X unit xs None).

(** ** pysad/core/base_transformer.py *)
(** The argument fit_partial receives: an instance, or the pair (instance, None) that fit (67-79)
    passes because it does not unpack what _iterate yields. *)
Inductive pyarg (X : Type) : Type := AInst (x : X) | APair (x : X).
Arguments AInst {X}.
Arguments APair {X}.
(** output_dims: a positive or non-positive integer, or the string 'auto' which the random
    projectors accept as num_components. *)
Inductive dims : Type := DInt (n : Z) | DAuto.

Record Transformer (X A : Type) : Type := mkTrans {
  tr_state : Type;
  tr_dims : dims;                                    (* 10-11 *)
  tr_fit : pyarg X -> M tr_state unit;               (* 13-22 *)
  tr_transform : pyarg X -> M tr_state (pyval A);    (* 24-34 *)
  tr_fit_transform : pyarg X -> M tr_state (pyval A) (* 36-45, overridable *)
}.
Arguments tr_state {X A} t.
Arguments tr_dims {X A} t.
Arguments tr_fit {X A} t.
Arguments tr_transform {X A} t.
Arguments tr_fit_transform {X A} t.

(** The batch given to transform: a 2-D array with [width] columns, or a 1-D array. *)
Inductive batch (X : Type) : Type := B2 (width : nat) (rows : list X) | B1 (rows : list X).
Arguments B2 {X}.
Arguments B1 {X}.
Definition batch_rows {X} (b : batch X) : list X := match b with B2 _ r => r | B1 r => r end.

(** 56 / 90: output_dims if output_dims > 0 else X.shape[1]. *)
Definition output_width {X} (d : dims) (b : batch X) : res nat :=
  match d with
  | DAuto => Raise TypeError                               (* 'auto' > 0 *)
  | DInt n => if (0 <? n)%Z then Ok (Z.to_nat n)
              else match b with B2 w _ => Ok w | B1 _ => Raise IndexError end
  end.

(** 58-63 / 92-97: transformed_X[i] = result, numpy broadcasting a row of [width] cells:
    scalars and one-element arrays are repeated, None becomes nan, an array of any other
    length raises ValueError. *)
Definition store_row {A} (width : nat) (v : pyval A) : res (list (npres A)) :=
  match v with
  | VNone => Ok (repeat NonFin width)
  | VScalar a => Ok (repeat (FinV a) width)
  | VArray [a] => Ok (repeat (FinV a) width)
  | VArray l => if (length l =? width)%nat then Ok (map FinV l) else Raise ValueError
  end.

(** 47-65 transform *)
Definition Trans_transform {X A} (t : Transformer X A) (b : batch X) : M (tr_state t) (list (list (npres A))) :=
  width <- lift (output_width (tr_dims t) b) ;;
  map_gen (fun q => v <- tr_transform t (AInst (fst q)) ;; lift (store_row width v)) (@iterate X unit (batch_rows b) None).
(** 67-79 fit: [for xi in _iterate(X): self.fit_partial(xi)], xi is a pair. *)
Definition Trans_fit {X A} (t : Transformer X A) (b : batch X) : M (tr_state t) unit :=
  for_gen (fun q => tr_fit t (APair (fst q))) (@iterate X unit (batch_rows b) None).
(** 81-99 fit_transform *)
Definition Trans_fit_transform {X A} (t : Transformer X A) (b : batch X) : M (tr_state t) (list (list (npres A))) :=
  width <- lift (output_width (tr_dims t) b) ;;
  map_gen (fun q => v <- tr_fit_transform t (AInst (fst q)) ;; lift (store_row width v)) (@iterate X unit (batch_rows b) None).
