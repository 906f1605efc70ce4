(** * Model of pysad/models/xstream.py *)
From Coq Require Import List ZArith Lia Bool String.
From Verif Require Import Base Num Model_Stats Model_Utils Model_Core Model_Trans Model_Simple Model_Sketch.
Import ListNotations.
Open Scope m_scope.
Local Notation length := List.length.

(** _Chain.  The dictionaries of one chain are held in two lists indexed by depth; both lists of the code have depth * depth
    entries, of which only the first depth ones, all different objects, are ever used (97-98, 179). *)
Record xchain (A : Type) : Type := mkChain {
  xc_fs : list nat;                        (* fs *)
  xc_rand : list A;                        (* rand_arr *)
  xc_delta : list A;                       (* deltamax *)
  xc_shift : list A;                       (* shift *)
  xc_ref : list (list (list Z * Z));       (* cmsketches *)
  xc_cur : list (list (list Z * Z));       (* cmsketches_cur *)
  xc_first : bool                          (* is_first_window *)
}.
Arguments mkChain {A}.
Arguments xc_fs {A}.
Arguments xc_rand {A}.
Arguments xc_delta {A}.
Arguments xc_shift {A}.
Arguments xc_ref {A}.
Arguments xc_cur {A}.
Arguments xc_first {A}.
(** 102 and 212: rand_arr * deltamax *)
Definition xc_shifts {A} `{Num A} (rand delta : list A) : list A := map (fun p => nmul (fst p) (snd p)) (combine rand delta).
(** 92-104 __init__; fs and rand are what np.random.randint and np.random.rand return. *)
Definition xc_init {A} `{Num A} (delta : list A) (fs : list nat) (rand : list A) : xchain A :=
  mkChain fs rand delta (xc_shifts rand delta) (repeat [] (length fs)) (repeat [] (length fs)) true.
(** 110-117 and 149-156: one step of the loop over depths for a single row: prebins and depthcount. *)
Definition xc_prebin {A} `{Num A} (c : xchain A) (x : list A) (st : list A * list nat) (f : nat) : list A * list nat :=
  let count := S (nth f (snd st) 0%nat) in
  let shift := nth f (xc_shift c) n0 in
  let delta := nth f (xc_delta c) n0 in
  let v := if (count =? 1)%nat then ndiv (nadd (nth f x n0) shift) delta
           else nsub (nmul (nofZ 2) (nth f (fst st) n0)) (ndiv shift delta) in
  (set_nth f v (fst st), set_nth f count (snd st)).
(** The keys l_index of the successive depths.  Simplification: floor and the conversion to int32 are one function [floor]
    to Z without overflow (Model_Cast has the conversion); the features in fs exist in x, whose length is that of deltamax. *)
Fixpoint xc_keys {A} `{Num A} (floor : A -> Z) (c : xchain A) (x : list A) (st : list A * list nat) (fs : list nat) : list (list Z) :=
  match fs with
  | [] => []
  | f :: fs' => let st' := xc_prebin c x st f in map floor (fst st') :: xc_keys floor c x st' fs'
  end.
Definition xc_bins {A} `{Num A} (floor : A -> Z) (c : xchain A) (x : list A) : list (list Z) :=
  xc_keys floor c x (repeat n0 (length x), repeat 0%nat (length (xc_delta c))) (xc_fs c).
(** 122-125 and 135-138: count one more in the dictionary. *)
Definition xc_count (key : list Z) (sk : list (list Z * Z)) : list (list Z * Z) :=
  dict_set key (match dict_get key sk with Some n => n | None => 0 end + 1)%Z sk.
(** 106-142 fit on one row.  In the first window the dictionaries of the two lists are the same objects. *)
Definition xc_fit {A} `{Num A} (floor : A -> Z) (x : list A) (c : xchain A) : xchain A :=
  let upd := fun sks => map (fun p => xc_count (fst p) (snd p)) (combine (xc_bins floor c x) sks) in
  if xc_first c then mkChain (xc_fs c) (xc_rand c) (xc_delta c) (xc_shift c) (upd (xc_ref c)) (upd (xc_ref c)) true
  else mkChain (xc_fs c) (xc_rand c) (xc_delta c) (xc_shift c) (xc_ref c) (upd (xc_cur c)) false.
(** 144-166 bincount on one row *)
Definition xc_bincount {A} `{Num A} (floor : A -> Z) (c : xchain A) (x : list A) : list Z :=
  map (fun p => match dict_get (fst p) (snd p) with Some n => n | None => 0%Z end) (combine (xc_bins floor c x) (xc_ref c)).
(** 168-174 score on one row; np.min of an empty array raises ValueError. *)
Definition xc_score {A} `{Num A} (floor : A -> Z) (log2 : A -> A) (c : xchain A) (x : list A) : res A :=
  let scores := map (fun p => nadd (log2 (nadd (nofZ 1) (nofZ (snd p)))) (nofZ (Z.of_nat (fst p)))) (combine (seq 1 (length (xc_fs c))) (xc_bincount floor c x)) in
  rmap nneg (np_min scores).
(** 176-179 next_window *)
Definition xc_next_window {A} (c : xchain A) : xchain A :=
  mkChain (xc_fs c) (xc_rand c) (xc_delta c) (xc_shift c) (xc_cur c) (repeat [] (length (xc_fs c))) false.
(** 209-212 set_deltamax for one chain *)
Definition xc_set_deltamax {A} `{Num A} (delta : list A) (c : xchain A) : xchain A :=
  mkChain (xc_fs c) (xc_rand c) delta (xc_shifts (xc_rand c) delta) (xc_ref c) (xc_cur c) (xc_first c).

(** xStream: attributes streamhash (constant), step, cur_window, hs_chains. *)
Record xsst (A : Type) : Type := mkXS { xs_step : nat; xs_window : list (list A); xs_chains : list (xchain A) }.
Arguments mkXS {A}.
Arguments xs_step {A}.
Arguments xs_window {A}.
Arguments xs_chains {A}.
(** 48-50, 73-74: the projection as a row. *)
Definition xs_project {A} `{Num A} (two one : A) (mmh3 : string -> nat -> Z) (p : shproj A) (x : list A) : res (list A) :=
  rmap (fun v => match v with VScalar a => [a] | VArray l => l | VNone => [] end) (streamhash_transform two one mmh3 p x).
(** 25, 84-85: halved ranges, small ones replaced by 1; [tiny] is 0.0001. *)
Definition xs_widen {A} `{Num A} (tiny : A) (v : A) : A := if oleb (nabs v) tiny then nofZ 1 else v.
Definition xs_compute_deltamax {A} `{Num A} (tiny : A) (K : nat) (window : list (list A)) : res (list A) :=
  rmap (fun b => map (fun p => xs_widen tiny (ndiv (nsub (snd p) (fst p)) (nofZ 2))) (combine (fst b) (snd b))) (get_minmax_array K window).
(** 193-199: the average over the chains. *)
Definition xs_score {A} `{Num A} (floor : A -> Z) (log2 : A -> A) (chains : list (xchain A)) (x : list A) : res A :=
  rmap (fun vs => ndiv (nsum vs) (nofZ (Z.of_nat (length chains)))) (res_map (fun c => xc_score floor log2 c x) chains).
(** The class; K is num_components.  score_partial returns a one-element array.
    Simplification: for n_chains = 0 numpy divides by zero and returns nan; n_chains is assumed positive here, and
    Model_Zero has the rest. *)
Definition xStream {Y A} `{Num A} (two one tiny : A) (mmh3 : string -> nat -> Z) (p : shproj A) (floor : A -> Z) (log2 : A -> A) (K window_size : nat) : Model (list A) Y A :=
  plain_model (xsst A)
    (fun x _ =>                                                                            (* 36-62 *)
       modify (fun s => mkXS (S (xs_step s)) (xs_window s) (xs_chains s)) ;;;
       z <- lift (xs_project two one mmh3 p x) ;;
       modify (fun s => mkXS (xs_step s) (xs_window s ++ [z]) (map (xc_fit floor z) (xs_chains s))) ;;;
       s <- gets (fun s => s) ;;
       if (window_size =? 0)%nat then raise ZeroDivisionError
       else if (xs_step s mod window_size =? 0)%nat then
         modify (fun s => mkXS (xs_step s) [] (xs_chains s)) ;;;
         delta <- lift (xs_compute_deltamax tiny K (xs_window s)) ;;
         modify (fun s => mkXS (xs_step s) (xs_window s) (map (fun c => xc_next_window (xc_set_deltamax delta c)) (xs_chains s)))
       else ret tt)
    (fun x =>                                                                              (* 64-77 *)
       z <- lift (xs_project two one mmh3 p x) ;;
       s <- gets (fun s => s) ;;
       v <- lift (xs_score floor log2 (xs_chains s) z) ;;
       ret (VArray [v])).
(** 17-34 __init__; [half] is 0.5 and [draws] gives fs and rand_arr of every chain. *)
Definition xStream_init {A} `{Num A} (tiny half : A) (K : nat) (draws : list (list nat * list A)) : xsst A :=
  mkXS 0 [] (map (fun d => xc_init (map (xs_widen tiny) (repeat half K)) (fst d) (snd d)) draws).
