(** * Model of pysad/models/kitnet.py and pysad/models/kitnet_model/ (corClust.py, dA.py, KitNET.py; of utils.py only
      [sigmoid] is used). *)
From Coq Require Import List ZArith Lia Bool Arith.
From Verif Require Import Base Num Model_Stats Model_Utils Model_Core Model_Trans Model_Simple.
Import ListNotations.
Open Scope m_scope.

(** The parameters of a KitNet object and the external functions it uses.
    [kp_exp] is numpy.exp; [kp_u k] is the k-th double of numpy.random.RandomState(1234); [kp_hidden n] is
    int(ceil(n * hidden_ratio)) (on doubles: Model_Params); [kp_linkage n d] is to_tree(linkage(d)) for the condensed distances d of n features
    (scipy raises ValueError on non-finite distances); [kp_ninf], [kp_pinf] are -inf and +inf; [kp_eps] is 1e-16 and
    [kp_tiny] is 1e-100.  The grace periods are non-negative ints. *)
Inductive dendro : Type := Leaf (i : nat) | Node (l r : dendro).
Record kitpar (A : Type) : Type := mkKP {
  kp_exp : A -> A; kp_u : nat -> A; kp_hidden : nat -> nat; kp_linkage : nat -> list A -> res dendro;
  kp_ninf : A; kp_pinf : A; kp_eps : A; kp_tiny : A; kp_lr : A;
  kp_size : Z; kp_fm : option nat; kp_ad : nat }.
Arguments mkKP {A}.
Arguments kp_exp {A}.
Arguments kp_u {A}.
Arguments kp_hidden {A}.
Arguments kp_linkage {A}.
Arguments kp_ninf {A}.
Arguments kp_pinf {A}.
Arguments kp_eps {A}.
Arguments kp_tiny {A}.
Arguments kp_lr {A}.
Arguments kp_size {A}.
Arguments kp_fm {A}.
Arguments kp_ad {A}.

(** ** corClust.py *)
Record ccst (A : Type) : Type := mkCC { cc_c : list A; cc_r : list A; cc_rs : list A; cc_C : list (list A); cc_N : nat }.
Arguments mkCC {A}.
Arguments cc_c {A}.
Arguments cc_r {A}.
Arguments cc_rs {A}.
Arguments cc_C {A}.
Arguments cc_N {A}.
(** 8-16 *)
Definition cc_init {A} `{Num A} (n : nat) : ccst A := mkCC (repeat n0 n) (repeat n0 n) (repeat n0 n) (repeat (repeat n0 n) n) 0.
(** 25, 101: numpy.outer *)
Definition outer {A} `{Num A} (a b : list A) : list (list A) := map (fun x => map (nmul x) b) a.
(** 19-25.  x is broadcast when it has one component; another number of components than n raises ValueError at line 21,
    after the counter was increased. *)
Definition cc_update {A} `{Num A} (x : list A) : M (ccst A) unit :=
  modify (fun s => mkCC (cc_c s) (cc_r s) (cc_rs s) (cc_C s) (S (cc_N s))) ;;;
  s <- gets (fun s => s) ;;
  let n := length (cc_c s) in
  x <- lift (if (length x =? n)%nat then Ok x else match x with [v] => Ok (repeat v n) | _ => Raise ValueError end) ;;
  let c := map2 nadd (cc_c s) x in
  let rt := map2 nsub x (map (fun v => ndiv v (nofZ (Z.of_nat (cc_N s)))) c) in
  modify (fun s => mkCC c (map2 nadd (cc_r s) rt) (map2 nadd (cc_rs s) (map nsq rt)) (map2 (map2 nadd) (cc_C s) (outer rt rt)) (cc_N s)).
(** 28-34 *)
Definition cc_dist {A} `{Num A} (tiny : A) (s : ccst A) : list (list A) :=
  let r := map nsqrt (cc_rs s) in
  map2 (map2 (fun c p => let d := nsub (nofZ 1) (ndiv c (if oeqb p n0 then tiny else p)) in if oltb d n0 then n0 else d)) (cc_C s) (outer r r).
(** 39: D[np.triu_indices(n, 1)] *)
Definition condensed {A} `{Num A} (n : nat) (D : list (list A)) : list A :=
  flat_map (fun i => map (fun j => nth j (nth i D []) n0) (seq (S i) (n - S i))) (seq 0 n).
(** scipy's ClusterNode: number of leaves and leaf ids in preorder *)
Fixpoint dendro_leaves (d : dendro) : list nat := match d with Leaf i => [i] | Node l r => dendro_leaves l ++ dendro_leaves r end.
Definition dendro_count (d : dendro) : nat := length (dendro_leaves d).
(** 48-51.  A leaf that is too large would be asked for its children: None.count is an AttributeError. *)
Fixpoint break_clust (d : dendro) (m : nat) : res (list (list nat)) :=
  if (dendro_count d <=? m)%nat then Ok [dendro_leaves d]
  else match d with
       | Leaf _ => Raise AttributeError
       | Node l r => rbind (break_clust l m) (fun a => rbind (break_clust r m) (fun b => Ok (a ++ b)))
       end.
(** 37-45.  linkage raises ValueError on an empty distance vector (n < 2). *)
Definition cc_cluster {A} `{Num A} (p : kitpar A) (n : nat) (maxClust : Z) (s : ccst A) : res (list (list nat)) :=
  let d := condensed n (cc_dist (kp_tiny p) s) in
  if (n <? 2)%nat then Raise ValueError
  else rbind (kp_linkage p n d) (fun t => break_clust t (Z.to_nat (Z.min (Z.max maxClust 1) (Z.of_nat n)))).

(** ** dA.py *)
Record dast (A : Type) : Type := mkDA { da_max : list A; da_min : list A; da_n : nat; da_W : list (list A); da_hb : list A; da_vb : list A }.
Arguments mkDA {A}.
Arguments da_max {A}.
Arguments da_min {A}.
Arguments da_n {A}.
Arguments da_W {A}.
Arguments da_hb {A}.
Arguments da_vb {A}.
(** 41-62: W is filled row by row with low + (high - low) * u, every object using its own RandomState(1234).
    W_prime is the transposed view of W, which line 103 updates in place: it is W's transpose at all times. *)
Definition da_init {A} `{Num A} (p : kitpar A) (nv : nat) : res (dast A) :=
  let nh := kp_hidden p nv in
  if (nv =? 0)%nat then Raise ZeroDivisionError
  else
    let a := ndiv (nofZ 1) (nofZ (Z.of_nat nv)) in
    Ok (mkDA (repeat (kp_ninf p) nv) (repeat (kp_pinf p) nv) 0
         (map (fun i => map (fun j => nadd (nneg a) (nmul (nsub a (nneg a)) (kp_u p (i * nh + j)))) (seq 0 nh)) (seq 0 nv))
         (repeat n0 nh) (repeat n0 nv)).
(** utils.py 13-14 *)
Definition sigmoid {A} `{Num A} (nexp : A -> A) (x : A) : A := ndiv (nofZ 1) (nadd (nofZ 1) (nexp (nneg x))).
(** numpy.dot of a vector with a matrix of [k] columns, and with its transpose *)
Definition vec_mat {A} `{Num A} (k : nat) (x : list A) (W : list (list A)) : list A := map (fun j => dot x (map (fun row => nth j row n0) W)) (seq 0 k).
Definition vec_matT {A} `{Num A} (y : list A) (W : list (list A)) : list A := map (dot y) W.
(** 73-78 *)
Definition da_hidden {A} `{Num A} (p : kitpar A) (d : dast A) (x : list A) : list A := map (sigmoid (kp_exp p)) (map2 nadd (vec_mat (length (da_hb d)) x (da_W d)) (da_hb d)).
Definition da_decode {A} `{Num A} (p : kitpar A) (d : dast A) (y : list A) : list A := map (sigmoid (kp_exp p)) (map2 nadd (vec_matT y (da_W d)) (da_vb d)).
(** 87, 119 *)
Definition da_normalise {A} `{Num A} (p : kitpar A) (d : dast A) (x : list A) : list A :=
  map2 ndiv (map2 nsub x (da_min d)) (map (fun r => nadd r (kp_eps p)) (map2 nsub (da_max d) (da_min d))).
(** 106, 121: the mean of the squares of a non-empty vector, and its root *)
Definition rmse {A} `{Num A} (l : list A) : A := nsqrt (vec_mean (map nsq l)).
(** 83-84 *)
Definition da_norms {A} `{Num A} (d : dast A) (x : list A) : dast A :=
  mkDA (map2 (fun v m => if oltb m v then v else m) x (da_max d)) (map2 (fun v m => if oltb v m then v else m) x (da_min d))
       (S (da_n d)) (da_W d) (da_hb d) (da_vb d).
(** 80-106 with corruption_level = 0.  [numpy.mean(L, axis=0)] of a vector is a scalar, added to every bias. *)
Definition da_train {A} `{Num A} (p : kitpar A) (d : dast A) (x : list A) : A * dast A :=
  let d := da_norms d x in
  let x := da_normalise p d x in
  let y := da_hidden p d x in
  let z := da_decode p d y in
  let h2 := map2 nsub x z in
  let h1 := map2 nmul (map2 nmul (vec_mat (length (da_hb d)) h2 (da_W d)) y) (map (nsub (nofZ 1)) y) in
  let LW := map2 (map2 nadd) (outer x h1) (outer h2 y) in
  (rmse h2,
   mkDA (da_max d) (da_min d) (da_n d) (map2 (map2 nadd) (da_W d) (map (map (nmul (kp_lr p))) LW))
        (map (fun b => nadd b (nmul (kp_lr p) (vec_mean h1))) (da_hb d)) (map (fun b => nadd b (nmul (kp_lr p) (vec_mean h2))) (da_vb d))).
(** 109-122 with gracePeriod = 0 *)
Definition da_execute {A} `{Num A} (p : kitpar A) (d : dast A) (x : list A) : A :=
  let x := da_normalise p d x in rmse (map2 nsub x (da_decode p d (da_hidden p d x))).

(** ** KitNET.py *)
Record kitobj (A : Type) : Type := mkKit { kt_n : nat; kt_fm : ccst A; kt_trained : nat; kt_executed : nat; kt_map : option (list (list nat)); kt_ens : list (dast A); kt_out : option (dast A) }.
Arguments mkKit {A}.
Arguments kt_n {A}.
Arguments kt_fm {A}.
Arguments kt_trained {A}.
Arguments kt_executed {A}.
Arguments kt_map {A}.
Arguments kt_ens {A}.
Arguments kt_out {A}.
(** 20-46 with feature_map = None *)
Definition kit_init {A} `{Num A} (n : nat) : kitobj A := mkKit n (cc_init n) 0 0 None [] None.
(** 35-46 with any feature_map, which the KitNet wrapper never passes.  The object under construction: its attributes
    ensembleLayer and outputLayer may not exist yet ([None]). *)
Record kitraw (A : Type) : Type := mkRaw { kr_ens : option (list (dast A)); kr_out : option (option (dast A)) }.
Arguments mkRaw {A}.
Arguments kr_ens {A}.
Arguments kr_out {A}.
(** 97-105 on such an object; self.ensembleLayer.append is looked up before AE.dA(params) is evaluated (101) *)
Definition kit_raw_create {A} `{Num A} (p : kitpar A) (v : list (list nat)) : M (kitraw A) unit :=
  iterM (fun f => s <- gets (fun s => s) ;;
                  l <- lift (match kr_ens s with None => Raise AttributeError | Some l => Ok l end) ;;
                  d <- lift (da_init p (length f)) ;;
                  modify (fun s => mkRaw (Some (l ++ [d])) (kr_out s))) v ;;;
  d <- lift (da_init p (length v)) ;;
  modify (fun s => mkRaw (kr_ens s) (Some (Some d))).
(** 38-46; [None] for an attribute that would still be missing at the end, which cannot happen *)
Definition kit_new {A} `{Num A} (p : kitpar A) (n : nat) (feature_map : option (list (list nat))) : res (kitobj A) :=
  let body :=
    match feature_map with None => ret tt | Some v => kit_raw_create p v end ;;;     (* 39-43 *)
    modify (fun s => mkRaw (Some []) (kr_out s)) ;;;                                 (* 45 *)
    modify (fun s => mkRaw (kr_ens s) (Some None)) in                                (* 46 *)
  match body (mkRaw None None) with
  | (Raise e, _) => Raise e
  | (Ok _, s) => match kr_ens s, kr_out s with
                 | Some l, Some o => Ok (mkKit n (cc_init n) 0 0 feature_map l o)
                 | _, _ => Raise AttributeError
                 end
  end.
Definition kit_fmg {A} (p : kitpar A) : nat := match kp_fm p with None => kp_ad p | Some f => f end.
Definition kit_m {A} (p : kitpar A) : Z := if (kp_size p <=? 0)%Z then 1%Z else kp_size p.
(** 97-105 *)
Definition kit_create {A} `{Num A} (p : kitpar A) (v : list (list nat)) : M (kitobj A) unit :=
  iterM (fun f => d <- lift (da_init p (length f)) ;;
                  modify (fun s => mkKit (kt_n s) (kt_fm s) (kt_trained s) (kt_executed s) (kt_map s) (kt_ens s ++ [d]) (kt_out s))) v ;;;
  d <- lift (da_init p (length v)) ;;
  modify (fun s => mkKit (kt_n s) (kt_fm s) (kt_trained s) (kt_executed s) (kt_map s) (kt_ens s) (Some d)).
(** 74, 92: x[self.v[a]]; the ensemble and the map have the same length (kit_create) *)
Definition sub_instance {A} (x : list A) (f : list nat) : res (list A) := res_map (py_index x) f.
(** 72-75: trains the autoencoders in order *)
Definition kit_train_layer {A} `{Num A} (p : kitpar A) (x : list A) (v : list (list nat)) : M (kitobj A) (list A) :=
  mapM (fun a =>
    xi <- lift (sub_instance x (nth a v [])) ;;
    s <- gets (fun s => s) ;;
    d <- lift (py_index (kt_ens s) a) ;;
    let '(e, d') := da_train p d xi in
    modify (fun s => mkKit (kt_n s) (kt_fm s) (kt_trained s) (kt_executed s) (kt_map s) (set_nth a d' (kt_ens s)) (kt_out s)) ;;;
    ret e) (seq 0 (length v)).
(** 70-77.  Without a map the output layer is None and has no attribute train. *)
Definition kit_train_ad {A} `{Num A} (p : kitpar A) (x : list A) : M (kitobj A) unit :=
  s <- gets (fun s => s) ;;
  es <- kit_train_layer p x (match kt_map s with Some v => v | None => [] end) ;;
  s <- gets (fun s => s) ;;
  match kt_out s with
  | None => raise AttributeError
  | Some d => modify (fun s => mkKit (kt_n s) (kt_fm s) (kt_trained s) (kt_executed s) (kt_map s) (kt_ens s) (Some (snd (da_train p d es))))
  end.
(** 63-68 *)
Definition kit_train_fm {A} `{Num A} (p : kitpar A) (x : list A) : M (kitobj A) unit :=
  zoom kt_fm (fun f s => mkKit (kt_n s) f (kt_trained s) (kt_executed s) (kt_map s) (kt_ens s) (kt_out s)) (cc_update x) ;;;
  s <- gets (fun s => s) ;;
  if (kt_trained s =? kit_fmg p)%nat then
    v <- lift (cc_cluster p (kt_n s) (kit_m p) (kt_fm s)) ;;
    modify (fun s => mkKit (kt_n s) (kt_fm s) (kt_trained s) (kt_executed s) (Some v) (kt_ens s) (kt_out s)) ;;;
    kit_create p v
  else ret tt.
(** 60-80 *)
Definition kit_train {A} `{Num A} (p : kitpar A) (x : list A) : M (kitobj A) unit :=
  s <- gets (fun s => s) ;;
  (if ((kt_trained s <=? kit_fmg p)%nat && match kt_map s with None => true | Some _ => false end)%bool then kit_train_fm p x else kit_train_ad p x) ;;;
  modify (fun s => mkKit (kt_n s) (kt_fm s) (S (kt_trained s)) (kt_executed s) (kt_map s) (kt_ens s) (kt_out s)).
(** 83-95.  The RuntimeError of line 85 is OtherError. *)
Definition kit_execute {A} `{Num A} (p : kitpar A) (x : list A) : M (kitobj A) A :=
  s <- gets (fun s => s) ;;
  match kt_map s with
  | None => raise OtherError
  | Some v =>
      modify (fun s => mkKit (kt_n s) (kt_fm s) (kt_trained s) (S (kt_executed s)) (kt_map s) (kt_ens s) (kt_out s)) ;;;
      es <- lift (res_map (fun a => rbind (sub_instance x (nth a v [])) (fun xi => rbind (py_index (kt_ens s) a) (fun d => Ok (da_execute p d xi)))) (seq 0 (length v))) ;;
      match kt_out s with None => raise AttributeError | Some d => ret (da_execute p d es) end
  end.
(** 51-56; fit_partial drops the result *)
Definition kit_process {A} `{Num A} (p : kitpar A) (x : list A) : M (kitobj A) unit :=
  s <- gets (fun s => s) ;;
  if (kit_fmg p + kp_ad p <? kt_trained s)%nat then kit_execute p x ;;; ret tt else kit_train p x.

(** ** pysad/models/kitnet.py: 17-30 __init__ (no model attribute), 32-54, 56-70 *)
Definition KitNet {Y A} `{Num A} (p : kitpar A) : Model (list A) Y A :=
  plain_model (option (kitobj A))
    (fun x _ =>
       modify (fun s => match s with Some _ => s | None => Some (kit_init (length x)) end) ;;;
       (fun s => match s with None => (Raise AttributeError, s) | Some k => let '(r, k') := kit_process p x k in (r, Some k') end))
    (fun x s =>
       match s with
       | None => (Raise AttributeError, s)
       | Some k => match kt_map k with
                   | None => (Ok (VScalar n0), s)
                   | Some _ => let '(r, k') := kit_execute p x k in (rmap VScalar r, Some k')
                   end
       end).
