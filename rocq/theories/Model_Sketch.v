(** * Models of pysad/models/relative_entropy.py, robust_random_cut_forest.py and rs_hash.py *)
From Coq Require Import List ZArith Lia Bool.
From Verif Require Import Base Num Model_Stats Model_Utils Model_Core Model_Simple.
Import ListNotations.
Open Scope m_scope.

(** ** pysad/models/relative_entropy.py *)
(** np.histogram(B, bins=N, range=(0, N)) for integers B: bin i holds i <= b < i+1, the last one also b = N. *)
Definition in_bin (n : nat) (i : nat) (b : Z) : bool :=
  (Z.of_nat i <=? b)%Z && ((b <? Z.of_nat i + 1)%Z || ((i + 1 =? n)%nat && (b =? Z.of_nat n)%Z)).
Definition np_histogram (n : nat) (bs : list Z) : list Z := map (fun i => Z.of_nat (length (filter (in_bin n i) bs))) (seq 0 n).
(** density=True: counts over bin width (1) over the total; nan when no value is in range. *)
Definition np_density {A} `{Num A} (counts : list Z) : list (npres A) :=
  map (fun c => npdiv (nofZ c) (nofZ (fold_left Z.add counts 0%Z))) counts.
(** scipy.stats.entropy(pk, qk): normalisation and sum of rel_entr; [ENaN] if an entry is not finite. *)
Inductive entr (A : Type) : Type := EFin (a : A) | EInf | ENaN.
Arguments EFin {A}.
Arguments EInf {A}.
Arguments ENaN {A}.
Definition entr_add {A} `{Num A} (a b : entr A) : entr A :=
  match a, b with EFin a, EFin b => EFin (nadd a b) | ENaN, _ | _, ENaN => ENaN | _, _ => EInf end.
Definition rel_entr {A} `{Num A} (log : A -> A) (p q : A) : entr A :=
  if oltb n0 p && oltb n0 q then EFin (nmul p (log (ndiv p q)))
  else if oeqb p n0 && oleb n0 q then EFin n0 else EInf.
Fixpoint all_fin {A} (l : list (npres A)) : option (list A) :=
  match l with
  | [] => Some []
  | FinV a :: l' => match all_fin l' with Some r => Some (a :: r) | None => None end
  | NonFin :: _ => None
  end.
Definition scipy_entropy {A} `{Num A} (log : A -> A) (pk qk : list (npres A)) : entr A :=
  match all_fin pk, all_fin qk with
  | Some p, Some q =>
      let p' := map (fun v => ndiv v (nsum p)) p in
      let q' := map (fun v => ndiv v (nsum q)) q in
      fold_left entr_add (map (fun u => rel_entr log (fst u) (snd u)) (combine p' q')) (EFin n0)
  | _, _ => ENaN
  end.
(** Attributes util, m, P, c, P_hat.  An instance is a 1-D array. *)
Record rest (A : Type) : Type := mkRE {
  re_util : list (list A); re_m : nat; re_P : list (list (npres A)); re_c : list Z; re_hat : option (list (npres A)) }.
Arguments mkRE {A}.
Arguments re_util {A}.
Arguments re_m {A}.
Arguments re_P {A}.
Arguments re_c {A}.
Arguments re_hat {A}.
Definition RE_init {A} : rest A := mkRE [] 0 [] [] None.                                   (* 22, 36, 43, 46, 48 *)
(** 17-48: the constructor fails only in the division at 39. *)
Definition RE_step {A} `{Num A} (min_val max_val : A) (num_bins : nat) : res A :=
  pydiv (nsub max_val min_val) (nofZ (Z.of_nat num_bins)).
(** 67-68: np.asarray(c).item() needs exactly one element. *)
Definition re_quantize {A} `{Num A} (ceil : A -> Z) (min_val step : A) (x : list A) : res Z :=
  match x with [v] => rmap ceil (pydiv (nsub v min_val) step) | _ => Raise ValueError end.
(** self.util[-W:] *)
Definition py_last {T} (w : nat) (l : list T) : list T := if (w =? 0)%nat then l else skipn (length l - w) l.
(** 100-123; [twoW] is 2 * self.W and [thr] is self.T.  None is float("inf"). *)
Fixpoint agreement {A} `{Num A} (log : A -> A) (thr twoW : A) (p : list (npres A)) (ps : list (list (npres A))) (i : nat)
  (best : option A) (index : Z) : Z :=
  match ps with
  | [] => index
  | q :: ps' =>
      match scipy_entropy log p q with
      | EFin e => let e' := nmul twoW e in
                  if oltb e' thr && match best with None => true | Some b => oltb e' b end
                  then agreement log thr twoW p ps' (S i) (Some e') (Z.of_nat i)
                  else agreement log thr twoW p ps' (S i) best index
      | _ => agreement log thr twoW p ps' (S i) best index
      end
  end.
Definition RelativeEntropy {Y A} `{Num A} (log : A -> A) (ceil : A -> Z) (thr min_val step : A) (num_bins window_size : nat) : Model (list A) Y A :=
  plain_model (rest A)
    (fun x _ =>                                                                            (* 50-82 *)
       modify (fun s => mkRE (re_util s ++ [x]) (re_m s) (re_P s) (re_c s) (re_hat s)) ;;;
       s <- gets (fun s => s) ;;
       if (window_size <=? length (re_util s))%nat then
         bs <- lift (res_map (re_quantize ceil min_val step) (py_last window_size (re_util s))) ;;
         let h := np_density (np_histogram num_bins bs) in
         modify (fun s => mkRE (re_util s) (re_m s) (re_P s) (re_c s) (Some h)) ;;;
         if (re_m s =? 0)%nat then modify (fun s => mkRE (re_util s) 1 (re_P s ++ [h]) (re_c s ++ [1%Z]) (re_hat s)) else ret tt
       else ret tt)
    (fun _ =>                                                                              (* 84-98 *)
       s <- gets (fun s => s) ;;
       match re_hat s with
       | Some h => if (window_size <=? length (re_util s))%nat && (0 <? re_m s)%nat
                   then ret (VScalar (nofZ (agreement log thr (nofZ (2 * Z.of_nat window_size)) h (firstn (re_m s) (re_P s)) 0 None (-1))))
                   else ret (VScalar n0)
       | None => ret (VScalar n0)
       end).

(** ** pysad/models/robust_random_cut_forest.py *)
(** The keys used for leaves: instance numbers, and the string test_point. *)
Inductive rkey : Type := KIndex (i : Z) | KTest.
(** A random cut tree of the external library rrcf: an object with the attribute leaves (a dictionary from keys to points)
    and the methods insert_point, forget_point, find_duplicate (the key of a leaf holding an equal point, if any; it may
    raise, as it does on an empty tree) and codisp.
    Its randomness is part of the state. *)
Record RCTree (X A : Type) : Type := mkRCTree {
  rc_state : Type;
  rc_leaves : rc_state -> list (rkey * X);
  rc_insert : X -> rkey -> M rc_state unit;
  rc_forget : rkey -> M rc_state unit;
  rc_find : X -> rc_state -> res (option rkey);
  rc_codisp : rkey -> rc_state -> res A
}.
Arguments rc_state {X A}.
Arguments rc_leaves {X A}.
Arguments rc_insert {X A}.
Arguments rc_forget {X A}.
Arguments rc_find {X A}.
Arguments rc_codisp {X A}.
(** for tree in self.forest: run a method on every tree in turn; an exception stops the loop. *)
Fixpoint each_tree {T B} (m : M T B) (l : list T) : res (list B) * list T :=
  match l with
  | [] => (Ok [], [])
  | t :: l' => match m t with
               | (Raise e, t') => (Raise e, t' :: l')
               | (Ok b, t') => let '(r, l'') := each_tree m l' in (rmap (cons b) r, t' :: l'')
               end
  end.
(** State: forest and index. *)
Definition RRCF_init {X A} (d : RCTree X A) (empty : nat -> rc_state d) (num_trees : nat) : list (rc_state d) * Z :=
  (map empty (seq 0 num_trees), 0%Z).                                                      (* 13-25 *)
Definition rrcf_fit_tree {X A} (d : RCTree X A) (tree_size : nat) (index : Z) (x : X) : M (rc_state d) unit :=
  n <- gets (fun t => length (rc_leaves d t)) ;;                                           (* 38-41 *)
  (if (tree_size <? n)%nat then rc_forget d (KIndex (index - Z.of_nat tree_size)) else ret tt) ;;;
  rc_insert d x (KIndex index).
Definition rrcf_score_tree {X A} (d : RCTree X A) (x : X) : M (rc_state d) A :=
  leaf <- (fun t => (rc_find d x t, t)) ;;                                                            (* 59-65 *)
  match leaf with
  | None => rc_insert d x KTest ;;; v <- (fun t => (rc_codisp d KTest t, t)) ;; rc_forget d KTest ;;; ret v
  | Some k => fun t => (rc_codisp d k t, t)
  end.
Definition RobustRandomCutForest {X Y A} `{Num A} (d : RCTree X A) (tree_size : nat) : Model X Y A :=
  plain_model (list (rc_state d) * Z)
    (fun x _ s =>                                                                          (* 27-45 *)
       let '(r, f) := each_tree (rrcf_fit_tree d tree_size (snd s) x) (fst s) in
       match r with Ok _ => (Ok tt, (f, (snd s + 1)%Z)) | Raise e => (Raise e, (f, snd s)) end)
    (fun x s =>                                                                            (* 47-67 *)
       let '(r, f) := each_tree (rrcf_score_tree d x) (fst s) in
       (rmap (fun ds => VScalar (nsum (map (fun v => ndiv v (nofZ (Z.of_nat (length (fst s))))) ds))) r, (f, snd s))).

(** ** pysad/models/rs_hash.py *)
(** Parameters sampled by the constructor (38-46, 108-164): for each component, the selected features V[r], the shifts
    alpha[r] and the cell size f[r]. *)
Record rscomp (A : Type) : Type := mkComp { rs_V : list nat; rs_alpha : list A; rs_f : A }.
Arguments mkComp {A}.
Arguments rs_V {A}.
Arguments rs_alpha {A}.
Arguments rs_f {A}.
(** 64-69: the key of the cell of x in component number r.  Simplification: floor and the conversion to int32 are one
    function [floor] to Z without overflow (Model_Cast has the conversion). *)
Definition rs_cell {A} `{Num A} (floor : A -> Z) (r : nat) (c : rscomp A) (x : list A) : res (list Z) :=
  rmap (fun vs => Z.of_nat r :: map (fun p => floor (ndiv (nadd (fst p) (snd p)) (rs_f c))) (combine vs (rs_alpha c)))
       (res_map (py_index x) (rs_V c)).
(** A sketch is a dictionary from keys to (time stamp, weight). *)
Definition keyeqb (a b : list Z) : bool := if list_eq_dec Z.eq_dec a b then true else false.
Fixpoint dict_get {B} (k : list Z) (d : list (list Z * B)) : option B :=
  match d with [] => None | (k', b) :: d' => if keyeqb k' k then Some b else dict_get k d' end.
Fixpoint dict_set {B} (k : list Z) (b : B) (d : list (list Z * B)) : list (list Z * B) :=
  match d with [] => [(k, b)] | (k', b') :: d' => if keyeqb k' k then (k', b) :: d' else (k', b') :: dict_set k b d' end.
(** Attributes index, cmsketches, last_score. *)
Record rsst (A : Type) : Type := mkRS { rs_index : Z; rs_sketches : list (list (list Z * (Z * A))); rs_last : option A }.
Arguments mkRS {A}.
Arguments rs_index {A}.
Arguments rs_sketches {A}.
Arguments rs_last {A}.
(** 72-86 for one sketch: the decayed weight and the sketch after the update.  [pow2 e] is np.power(2, e). *)
Definition rs_touch {A} `{Num A} (pow2 : A -> A) (decay : A) (index : Z) (key : list Z) (sk : list (list Z * (Z * A))) : A * list (list Z * (Z * A)) :=
  let value := match dict_get key sk with Some v => v | None => (index, n0) end in
  let new_wt := nmul (snd value) (pow2 (nmul (nneg decay) (nofZ (index - fst value)))) in
  (new_wt, dict_set key (index, nadd new_wt (nofZ 1)) sk).
(** 63-90 for one component: the summand log(1 + min). *)
Definition rs_component {A} `{Num A} (pow2 log : A -> A) (floor : A -> Z) (decay : A) (x : list A) (rc : nat * rscomp A) : M (rsst A) A :=
  key <- lift (rs_cell floor (fst rc) (snd rc) x) ;;
  s <- gets (fun s => s) ;;
  let touched := map (rs_touch pow2 decay (rs_index s) key) (rs_sketches s) in
  modify (fun s => mkRS (rs_index s) (map snd touched) (rs_last s)) ;;;
  m <- lift (match map fst touched with [] => Raise ValueError | a :: l => Ok (fold_left omin l a) end) ;;
  ret (log (nadd (nofZ 1) m)).
Definition RSHash {Y A} `{Num A} (pow2 log : A -> A) (floor : A -> Z) (decay : A) (comps : list (rscomp A)) : Model (list A) Y A :=
  plain_model (rsst A)
    (fun x _ =>                                                                            (* 52-96 *)
       cs <- mapM (rs_component pow2 log floor decay x) (combine (seq 0 (length comps)) comps) ;;
       v <- lift (pydiv (nsum cs) (nofZ (Z.of_nat (length comps)))) ;;
       modify (fun s => mkRS (rs_index s + 1) (rs_sketches s) (Some v)))
    (fun _ => s <- gets (fun s => s) ;; ret (match rs_last s with None => VNone | Some v => VScalar v end)).   (* 98-106 *)
Definition RSHash_init {A} (sampling_points : Z) (num_hash_fns : nat) : rsst A :=           (* 34, 41-42, 48-50 *)
  mkRS (0 + 1 - sampling_points) (repeat [] num_hash_fns) None.
(** ** The sampling done by the constructor of RSHash *)
(** 36: effS.  Simplification: decay = 0 (numpy's division by zero gives inf) is not modelled here but in Model_Zero:
    [pow2 (-decay)] is assumed different from 1. *)
Definition rs_effS {A} `{Num A} (pow2 : A -> A) (decay : A) : A := omax (nofZ 1000) (ndiv (nofZ 1) (nsub (nofZ 1) (pow2 (nneg decay)))).
(** 38-39: the interval np.random.uniform draws the cell sizes f from. *)
Definition rs_f_low {A} `{Num A} (sqrt : A -> A) (effS : A) : A := ndiv (nofZ 1) (sqrt effS).
Definition rs_f_high {A} `{Num A} (sqrt : A -> A) (effS : A) : A := nsub (nofZ 1) (ndiv (nofZ 1) (sqrt effS)).
(** np.random.randint truncates float bounds to int and raises ValueError on an empty range; [draw] is its random source. *)
Definition np_randint (draw : Z -> Z -> Z) (low high : Z) : res Z := if (high <=? low)%Z then Raise ValueError else Ok (draw low high).
(** np.random.choice without replacement: ValueError if more items are asked for than there are (or none to take from);
    [pick] is its random source. *)
Definition np_choice {B} (pick : list B -> nat -> list B) (a : list B) (size : nat) : res (list B) :=
  if (length a <? size)%nat then Raise ValueError else Ok (pick a size).
(** 120-135: the number of features of a component with cell size f. *)
Definition rs_num_feats {A} `{Num A} (log : A -> A) (floor : A -> Z) (draw : Z -> Z -> Z) (effS f : A) (dim : nat) : res Z :=
  let common := ndiv (log effS) (log (omax (nofZ 2) (ndiv (nofZ 1) f))) in
  let low := nadd (nofZ 1) (nmul (ndiv (nofZ 1) (nofZ 2)) common) in
  if (floor low =? floor common)%Z then Ok 1%Z
  else rmap (fun v => Z.min v (Z.of_nat dim)) (np_randint draw (floor low) (floor common)).
(** 136-153: the features to choose from.  With numpy arrays minimum != maximum is an array of booleans; with lists it is a
    single bool, and True selects every feature. *)
Definition rs_choice_feats {A} `{Num A} (arrays : bool) (mins maxs : list A) : list nat :=
  if arrays then map fst (filter (fun p => negb (oeqb (fst (snd p)) (snd (snd p)))) (combine (seq 0 (length mins)) (combine mins maxs)))
  else if forallb (fun p => oeqb (fst p) (snd p)) (combine mins maxs) then [] else seq 0 (length mins).
(** 155-164: the selected features of one component. *)
Definition rs_sel {A} `{Num A} (log : A -> A) (floor : A -> Z) (draw : Z -> Z -> Z) (pick : list nat -> nat -> list nat) (effS f : A) (arrays : bool) (mins maxs : list A) : res (list nat) :=
  let dim := length mins in
  rbind (rs_num_feats log floor draw effS f dim) (fun r =>
  let feats := match rs_choice_feats arrays mins maxs with [] => seq 0 dim | cf => cf end in
  np_choice pick feats (Nat.min (Z.to_nat r) (length feats))).
(** 38-46, 108-164: all components; [shifts f k] are the k numbers drawn by np.random.uniform(0, f, k). *)
Definition rs_components {A} `{Num A} (log : A -> A) (floor : A -> Z) (draw : nat -> Z -> Z -> Z) (pick : nat -> list nat -> nat -> list nat) (shifts : nat -> A -> nat -> list A)
    (effS : A) (fs : list A) (arrays : bool) (mins maxs : list A) : res (list (rscomp A)) :=
  res_map (fun p => rmap (fun V => mkComp V (shifts (fst p) (snd p) (length V)) (snd p)) (rs_sel log floor (draw (fst p)) (pick (fst p)) effS (snd p) arrays mins maxs))
          (combine (seq 0 (length fs)) fs).
