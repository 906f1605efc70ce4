(** * Model of pysad/models/knn_cad.py *)
From Coq Require Import List ZArith Lia Bool Arith.
From Verif Require Import Base Num Model_Stats Model_Utils Model_Core Model_Trans Model_Simple.
Import ListNotations.
Open Scope m_scope.

(** 45 and 19: the constants of the class. *)
Definition kn_dim : nat := 19.
Definition kn_k : nat := 27.
(** Attributes buf, training, calibration, scores, record_count, pred; sigma exists (with dim) after the first fit. *)
Record knst (A : Type) : Type := mkKN {
  kn_buf : list A; kn_train : list (list A); kn_cal : list (list A); kn_scores : list A; kn_count : nat; kn_pred : Z; kn_sigma : option (list (list A)) }.
Arguments mkKN {A}.
Arguments kn_buf {A}.
Arguments kn_train {A}.
Arguments kn_cal {A}.
Arguments kn_scores {A}.
Arguments kn_count {A}.
Arguments kn_pred {A}.
Arguments kn_sigma {A}.
(** 12-22 *)
Definition KNNCAD_init {A} : knst A := mkKN [] [] [] [] 0 (-1) None.
(** 46: np.diag(np.ones(dim)) *)
Definition kn_identity {A} `{Num A} : list (list A) := map (fun i => map (fun j => if (i =? j)%nat then nofZ 1 else n0) (seq 0 kn_dim)) (seq 0 kn_dim).
(** 24-27 _metric on two items of kn_dim values *)
Definition kn_metric {A} `{Num A} (sigma : list (list A)) (a b : list A) : A :=
  let diff := map (fun i => nsub (nth i a n0) (nth i b n0)) (seq 0 kn_dim) in
  let row := map (fun j => nsum (map (fun i => nmul (nth i diff n0) (nth j (nth i sigma []) n0)) (seq 0 kn_dim))) (seq 0 kn_dim) in
  nsum (map (fun j => nmul (nth j row n0) (nth j diff n0)) (seq 0 kn_dim)).
(** 29-32 _ncm; [extra] is item_in_array.  np.partition raises ValueError when kth is out of bounds.
    Simplification: the k smallest values are summed in increasing order. *)
Definition kn_ncm {A} `{Num A} (sigma training : list (list A)) (item : list A) (extra : nat) : res A :=
  let arr := map (fun x => kn_metric sigma x item) training in
  if (length arr <=? kn_k + extra)%nat then Raise ValueError else Ok (nsum (firstn (kn_k + extra) (sorted arr))).
(** self.buf[-self.dim:] *)
Definition kn_item {A} (buf : list A) : list A := skipn (length buf - kn_dim) buf.
(** 59-65.  [inverse] is the result of np.linalg.inv on the second moment matrix of the training items, None standing for
    LinAlgError; int(P / 2) is the quotient (on doubles: Model_Params). *)
Definition kn_update_sigma {A} (inverse : list (list A) -> option (list (list A))) (P : nat) : M (knst A) unit :=
  s <- gets (fun s => s) ;;
  let ost := (kn_count s mod P)%nat in
  if ((ost =? 0) || (ost =? P / 2))%nat then
    match inverse (kn_train s) with
    | Some sg => modify (fun s => mkKN (kn_buf s) (kn_train s) (kn_cal s) (kn_scores s) (kn_count s) (kn_pred s) (Some sg))
    | None => ret tt
    end
  else ret tt.
(** The attribute sigma where it exists. *)
Definition kn_matrix {A} (s : knst A) : list (list A) := match kn_sigma s with Some sg => sg | None => [] end.
(** 66-67 *)
Definition kn_init_scores {A} `{Num A} : M (knst A) unit :=
  s <- gets (fun s => s) ;;
  if (length (kn_scores s) =? 0)%nat then
    sc <- lift (res_map (fun v => kn_ncm (kn_matrix s) (kn_train s) v 1) (kn_train s)) ;;
    modify (fun s => mkKN (kn_buf s) (kn_train s) (kn_cal s) sc (kn_count s) (kn_pred s) (kn_sigma s))
  else ret tt.
(** 71-73; pop(0) of an empty list raises IndexError *)
Definition kn_rotate {A} (P : nat) : M (knst A) unit :=
  s <- gets (fun s => s) ;;
  if (2 * P <=? kn_count s)%nat then
    match kn_train s with
    | [] => raise IndexError
    | _ :: tr =>
        modify (fun s => mkKN (kn_buf s) tr (kn_cal s) (kn_scores s) (kn_count s) (kn_pred s) (kn_sigma s)) ;;;
        match kn_cal s with
        | [] => raise IndexError
        | c :: cal => modify (fun s => mkKN (kn_buf s) (tr ++ [c]) cal (kn_scores s) (kn_count s) (kn_pred s) (kn_sigma s))
        end
    end
  else ret tt.
(** The class.  P is probationary_period, an int >= 0; [alarm] is 0.9965, [half] is 0.5. *)
Definition KNNCAD {Y A} `{Num A} (half alarm : A) (inverse : list (list A) -> option (list (list A))) (P : nat) : Model (list A) Y A :=
  plain_model (knst A)
    (fun x _ =>                                                                              (* 34-79 *)
       modify (fun s => match kn_sigma s with Some _ => s | None => mkKN (kn_buf s) (kn_train s) (kn_cal s) (kn_scores s) (kn_count s) (kn_pred s) (Some kn_identity) end) ;;;
       x0 <- lift (py_index x 0) ;;
       modify (fun s => mkKN (kn_buf s ++ [x0]) (kn_train s) (kn_cal s) (kn_scores s) (S (kn_count s)) (kn_pred s) (kn_sigma s)) ;;;
       s <- gets (fun s => s) ;;
       if (length (kn_buf s) <? kn_dim)%nat then ret tt
       else
         let item := kn_item (kn_buf s) in
         if (kn_count s <? P)%nat then modify (fun s => mkKN (kn_buf s) (kn_train s ++ [item]) (kn_cal s) (kn_scores s) (kn_count s) (kn_pred s) (kn_sigma s))
         else if (P =? 0)%nat then raise ZeroDivisionError
         else
           kn_update_sigma inverse P ;;;
           kn_init_scores ;;;
           s <- gets (fun s => s) ;;
           new_score <- lift (kn_ncm (kn_matrix s) (kn_train s) item 0) ;;
           kn_rotate P ;;;
           s <- gets (fun s => s) ;;
           match kn_scores s with
           | [] => raise IndexError
           | _ :: sc => modify (fun s => mkKN (kn_buf s) (kn_train s) (kn_cal s ++ [item]) (sc ++ [new_score]) (kn_count s) (kn_pred s) (kn_sigma s))
           end)
    (fun _ =>                                                                                (* 81-104 *)
       s <- gets (fun s => s) ;;
       match kn_sigma s with
       | None => raise AttributeError
       | Some sigma =>
           if ((length (kn_buf s) <? kn_dim) || (kn_count s <? P))%nat then ret (VScalar n0)
           else
             new_score <- lift (kn_ncm sigma (kn_train s) (kn_item (kn_buf s)) 0) ;;
             result <- lift (pydiv (nofZ (Z.of_nat (length (filter (fun c => oltb c new_score) (kn_scores s))))) (nofZ (Z.of_nat (length (kn_scores s))))) ;;
             if (0 <? kn_pred s)%Z then
               modify (fun s => mkKN (kn_buf s) (kn_train s) (kn_cal s) (kn_scores s) (kn_count s) (kn_pred s - 1) (kn_sigma s)) ;;;
               ret (VScalar half)
             else
               (if oleb alarm result then modify (fun s => mkKN (kn_buf s) (kn_train s) (kn_cal s) (kn_scores s) (kn_count s) (Z.of_nat (P / 5)) (kn_sigma s)) else ret tt) ;;;
               ret (VScalar result)
       end).
