(** * Model of the parts of pysad/models/kitnet_model that KitNET itself does not reach: the denoising autoencoder dA with a
      corruption level and a grace period (dA.py), and the remaining functions of utils.py. *)
From Coq Require Import List ZArith Lia Bool Arith.
From Verif Require Import Base Num Model_Stats Model_Utils Model_Core Model_Trans Model_KitNET.
Import ListNotations.
Open Scope m_scope.

(** ** dA.py *)
(** 31-38 dA_params.  [dp_kit] holds the learning rate, the number of hidden units as a function of the visible ones (given, or
    int(ceil(n_visible * hiddenRatio)): 44-45), the draws of the object's RandomState(1234) that fill W, exp and the literals;
    [dp_mask k n] is the [k]-th vector of [n] zeros and ones drawn by rng.binomial. *)
Record dapar (A : Type) : Type := mkDAP { dp_kit : kitpar A; dp_corruption : A; dp_grace : Z; dp_mask : nat -> nat -> list A }.
Arguments mkDAP {A}.
Arguments dp_kit {A}.
Arguments dp_corruption {A}.
Arguments dp_grace {A}.
Arguments dp_mask {A}.
(** 41-62: the object and the number of corruption vectors drawn so far.  Vectors have n_visible components. *)
Record daobj (A : Type) : Type := mkDAO { do_net : dast A; do_draws : nat }.
Arguments mkDAO {A}.
Arguments do_net {A}.
Arguments do_draws {A}.
Definition dA_init {A} `{Num A} (q : dapar A) (n_visible : nat) : res (daobj A) := rmap (fun d => mkDAO d 0) (da_init (dp_kit q) n_visible).
(** 65-70 *)
Definition dA_corrupted {A} `{Num A} (q : dapar A) (x : list A) : M (daobj A) (list A) :=
  if oltb (dp_corruption q) (nofZ 1)
  then k <- gets do_draws ;; modify (fun s => mkDAO (do_net s) (S k)) ;;; ret (map2 nmul (dp_mask q k (length x)) x)
  else raise AssertionError.
(** 80-106.  [numpy.mean(L, axis=0)] of a vector is a scalar, added to every bias. *)
Definition dA_train {A} `{Num A} (q : dapar A) (x : list A) : M (daobj A) A :=
  modify (fun s => mkDAO (da_norms (do_net s) x) (do_draws s)) ;;;
  d <- gets do_net ;;
  let x := da_normalise (dp_kit q) d x in
  u <- (if oltb n0 (dp_corruption q) then dA_corrupted q x else ret x) ;;
  let y := da_hidden (dp_kit q) d u in
  let z := da_decode (dp_kit q) d y in
  let h2 := map2 nsub x z in
  let h1 := map2 nmul (map2 nmul (vec_mat (length (da_hb d)) h2 (da_W d)) y) (map (nsub (nofZ 1)) y) in
  let LW := map2 (map2 nadd) (outer u h1) (outer h2 y) in
  modify (fun s => mkDAO (mkDA (da_max d) (da_min d) (da_n d) (map2 (map2 nadd) (da_W d) (map (map (nmul (kp_lr (dp_kit q)))) LW))
        (map (fun b => nadd b (nmul (kp_lr (dp_kit q)) (vec_mean h1))) (da_hb d)) (map (fun b => nadd b (nmul (kp_lr (dp_kit q)) (vec_mean h2))) (da_vb d))) (do_draws s)) ;;;
  ret (rmse h2).
(** 125-126 *)
Definition dA_inGrace {A} (q : dapar A) (s : daobj A) : bool := (Z.of_nat (da_n (do_net s)) <? dp_grace q)%Z.
(** 109-112 *)
Definition dA_reconstruct {A} `{Num A} (q : dapar A) (s : daobj A) (x : list A) : list A := da_decode (dp_kit q) (do_net s) (da_hidden (dp_kit q) (do_net s) x).
(** 114-122 *)
Definition dA_execute {A} `{Num A} (q : dapar A) (s : daobj A) (x : list A) : A :=
  if (Z.of_nat (da_n (do_net s)) <? dp_grace q)%Z then n0
  else let x := da_normalise (dp_kit q) (do_net s) x in rmse (map2 nsub x (dA_reconstruct q s x)).

(** ** utils.py: scalar functions on one element of an array; exp, tanh, sqrt(2 pi) and norm.logcdf are arguments *)
(** 5-7 *)
Definition ku_pdf {A} `{Num A} (nexp : A -> A) (root2pi : A) (x mu sigma : A) : A :=
  let x := ndiv (nsub x mu) sigma in ndiv (nexp (ndiv (nneg (nsq x)) (nofZ 2))) (nmul root2pi sigma).
(** 9-11 *)
Definition ku_invLogCDF {A} `{Num A} (logcdf : A -> A) (x mu sigma : A) : A := logcdf (nneg (ndiv (nsub x mu) sigma)).
(** 17-18, 20-21, 23-24 *)
Definition ku_dsigmoid {A} `{Num A} (x : A) : A := nmul x (nsub (nofZ 1) x).
Definition ku_tanh {A} (ntanh : A -> A) (x : A) : A := ntanh x.
Definition ku_dtanh {A} `{Num A} (x : A) : A := nsub (nofZ 1) (nmul x x).
(** 26-29 *)
Definition np_max {A} `{Ord A} (l : list A) : res A :=
  match l with [] => Raise ValueError | a :: l => Ok (fold_left (fun m v => if oltb m v then v else m) l a) end.
Definition ku_softmax {A} `{Num A} (nexp : A -> A) (x : list A) : res (list A) :=
  rbind (np_max x) (fun m => let e := map (fun v => nexp (nsub v m)) x in Ok (map (fun v => ndiv v (nsum e)) e)).
(** 30-31: the maximum is that of the whole matrix *)
Definition ku_softmax2 {A} `{Num A} (nexp : A -> A) (x : list (list A)) : res (list (list A)) :=
  rbind (np_max (concat x)) (fun m => let e := map (map (fun v => nexp (nsub v m))) x in Ok (map (fun r => map (fun v => ndiv v (nsum r)) r) e)).
(** 34-35, 37-38 *)
Definition ku_ReLU {A} `{Num A} (x : A) : A := nmul x (if oltb n0 x then nofZ 1 else n0).
Definition ku_dReLU {A} `{Num A} (x : A) : A := nmul (nofZ 1) (if oltb n0 x then nofZ 1 else n0).
(** 40-49 class rollmean *)
Record rollst (A : Type) : Type := mkRoll { rl_window : list A; rl_pointer : nat }.
Arguments mkRoll {A}.
Arguments rl_window {A}.
Arguments rl_pointer {A}.
(** 41-44: numpy.zeros raises ValueError on a negative size *)
Definition rollmean_init {A} `{Num A} (k : Z) : res (rollst A) := if (k <? 0)%Z then Raise ValueError else Ok (mkRoll (repeat n0 (Z.to_nat k)) 0).
(** 46-49: writing at the pointer raises IndexError when the window is empty *)
Definition rollmean_apply {A} `{Num A} (v : A) : M (rollst A) A := fun s =>
  if (rl_pointer s <? length (rl_window s))%nat
  then let w := set_nth (rl_pointer s) v (rl_window s) in (Ok (vec_mean w), mkRoll w (S (rl_pointer s) mod length (rl_window s)))
  else (Raise IndexError, s).
