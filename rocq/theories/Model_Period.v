(** * KNNCAD with any Python integer as probationary_period, and RelativeEntropy with any integer window_size
    (pysad/models/knn_cad.py, relative_entropy.py).  Nothing in these classes checks them.  The same methods with a natural
    number are in Model_KNN and Model_Sketch. *)
From Coq Require Import List ZArith Bool Arith.
From Verif Require Import Base Num Model_Stats Model_Utils Model_Core Model_Trans Model_Simple Model_Sketch Model_KNN Model_Eval.
Import ListNotations.
Open Scope m_scope.

(** knn_cad.py 58-65.  record_count % probationaryPeriod raises for 0; int(P / 2) cuts off towards 0. *)
Definition knz_update_sigma {A} (inverse : list (list A) -> option (list (list A))) (P : Z) : M (knst A) unit :=
  s <- gets (fun s => s) ;;
  ost <- lift (pymod (Z.of_nat (kn_count s)) P) ;;
  if ((ost =? 0) || (ost =? Z.quot P 2))%Z then
    match inverse (kn_train s) with
    | Some sg => modify (fun s => mkKN (kn_buf s) (kn_train s) (kn_cal s) (kn_scores s) (kn_count s) (kn_pred s) (Some sg))
    | None => ret tt
    end
  else ret tt.
(** 71-73 *)
Definition knz_rotate {A} (P : Z) : M (knst A) unit :=
  s <- gets (fun s => s) ;;
  if (2 * P <=? Z.of_nat (kn_count s))%Z then
    match kn_train s with
    | [] => raise IndexError
    | _ :: tr =>
        modify (fun s => mkKN (kn_buf s) tr (kn_cal s) (kn_scores s) (kn_count s) (kn_pred s) (kn_sigma s)) ;;;
        match kn_cal s with
        | [] => raise IndexError
        | c :: cal => modify (fun s => mkKN (kn_buf s) (tr ++ [c]) cal (kn_scores s) (kn_count s) (kn_pred s) (kn_sigma s))
        end
    end
  else ret tt.
(** The class; 34-79 and 81-104. *)
Definition KNNCADZ {Y A} `{Num A} (half alarm : A) (inverse : list (list A) -> option (list (list A))) (P : Z) : Model (list A) Y A :=
  plain_model (knst A)
    (fun x _ =>
       modify (fun s => match kn_sigma s with Some _ => s | None => mkKN (kn_buf s) (kn_train s) (kn_cal s) (kn_scores s) (kn_count s) (kn_pred s) (Some kn_identity) end) ;;;
       x0 <- lift (py_index x 0) ;;
       modify (fun s => mkKN (kn_buf s ++ [x0]) (kn_train s) (kn_cal s) (kn_scores s) (S (kn_count s)) (kn_pred s) (kn_sigma s)) ;;;
       s <- gets (fun s => s) ;;
       if (length (kn_buf s) <? kn_dim)%nat then ret tt
       else
         let item := kn_item (kn_buf s) in
         if (Z.of_nat (kn_count s) <? P)%Z then modify (fun s => mkKN (kn_buf s) (kn_train s ++ [item]) (kn_cal s) (kn_scores s) (kn_count s) (kn_pred s) (kn_sigma s))
         else
           knz_update_sigma inverse P ;;;
           kn_init_scores ;;;
           s <- gets (fun s => s) ;;
           new_score <- lift (kn_ncm (kn_matrix s) (kn_train s) item 0) ;;
           knz_rotate P ;;;
           s <- gets (fun s => s) ;;
           match kn_scores s with
           | [] => raise IndexError
           | _ :: sc => modify (fun s => mkKN (kn_buf s) (kn_train s) (kn_cal s ++ [item]) (sc ++ [new_score]) (kn_count s) (kn_pred s) (kn_sigma s))
           end)
    (fun _ =>
       s <- gets (fun s => s) ;;
       match kn_sigma s with
       | None => raise AttributeError
       | Some sigma =>
           if (length (kn_buf s) <? kn_dim)%nat || (Z.of_nat (kn_count s) <? P)%Z then ret (VScalar n0)
           else
             new_score <- lift (kn_ncm sigma (kn_train s) (kn_item (kn_buf s)) 0) ;;
             result <- lift (pydiv (nofZ (Z.of_nat (length (filter (fun c => oltb c new_score) (kn_scores s))))) (nofZ (Z.of_nat (length (kn_scores s))))) ;;
             if (0 <? kn_pred s)%Z then
               modify (fun s => mkKN (kn_buf s) (kn_train s) (kn_cal s) (kn_scores s) (kn_count s) (kn_pred s - 1) (kn_sigma s)) ;;;
               ret (VScalar half)
             else
               (if oleb alarm result then modify (fun s => mkKN (kn_buf s) (kn_train s) (kn_cal s) (kn_scores s) (kn_count s) (Z.quot P 5) (kn_sigma s)) else ret tt) ;;;
               ret (VScalar result)
       end).

(** relative_entropy.py 64: self.util[-self.W:] *)
Definition py_lastZ {T} (w : Z) (l : list T) : list T :=
  if (w <=? 0)%Z then skipn (Z.to_nat (- w)) l else skipn (length l - Z.to_nat w) l.
(** 100-123; [thr] is self.T.  minEntropy: None is float("inf"), Some None is -inf, the product of a negative window size and an
    infinite entropy (0 * inf is nan and compares false with everything). *)
Fixpoint agreementZ {A} `{Num A} (log : A -> A) (thr : A) (w : Z) (p : list (npres A)) (ps : list (list (npres A))) (i : nat)
  (best : option (option A)) (index : Z) : Z :=
  match ps with
  | [] => index
  | q :: ps' =>
      match scipy_entropy log p q with
      | EFin e => let e' := nmul (nofZ (2 * w)) e in
                  if oltb e' thr && match best with None => true | Some None => false | Some (Some b) => oltb e' b end
                  then agreementZ log thr w p ps' (S i) (Some (Some e')) (Z.of_nat i)
                  else agreementZ log thr w p ps' (S i) best index
      | EInf => if (w <? 0)%Z && match best with Some None => false | _ => true end
                then agreementZ log thr w p ps' (S i) (Some None) (Z.of_nat i)
                else agreementZ log thr w p ps' (S i) best index
      | ENaN => agreementZ log thr w p ps' (S i) best index
      end
  end.
(** The class; 50-98. *)
Definition RelativeEntropyZ {Y A} `{Num A} (log : A -> A) (ceil : A -> Z) (thr min_val step : A) (num_bins : nat) (window_size : Z) : Model (list A) Y A :=
  plain_model (rest A)
    (fun x _ =>
       modify (fun s => mkRE (re_util s ++ [x]) (re_m s) (re_P s) (re_c s) (re_hat s)) ;;;
       s <- gets (fun s => s) ;;
       if (window_size <=? Z.of_nat (length (re_util s)))%Z then
         bs <- lift (res_map (re_quantize ceil min_val step) (py_lastZ window_size (re_util s))) ;;
         let h := np_density (np_histogram num_bins bs) in
         modify (fun s => mkRE (re_util s) (re_m s) (re_P s) (re_c s) (Some h)) ;;;
         if (re_m s =? 0)%nat then modify (fun s => mkRE (re_util s) 1 (re_P s ++ [h]) (re_c s ++ [1%Z]) (re_hat s)) else ret tt
       else ret tt)
    (fun _ =>
       s <- gets (fun s => s) ;;
       match re_hat s with
       | Some h => if (window_size <=? Z.of_nat (length (re_util s)))%Z && (0 <? re_m s)%nat
                   then ret (VScalar (nofZ (agreementZ log thr window_size h (firstn (re_m s) (re_P s)) 0 None (-1))))
                   else ret (VScalar n0)
       | None => ret (VScalar n0)
       end).
