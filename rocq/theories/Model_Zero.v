(** * What LODA, xStream and RSHash do with parameters that are 0, and RSHash with a decay that is a Python integer
    (pysad/models/loda.py, xstream.py, rs_hash.py).  These cases are left out of Model_Loda, Model_XStream and Model_Sketch. *)
From Coq Require Import List ZArith Reals Bool String.
From Verif Require Import Base Num Model_Stats Model_Utils Model_Core Model_Trans Model_Simple Model_Sketch Model_Loda Model_XStream Model_Int.
Import ListNotations.
Open Scope m_scope.

(** loda.py 13-78 with any number of cuts: line 76 divides a numpy array by n_random_cuts, so 0 gives nan.  Everything else is
    as in [LODA]; lines 30-32 make an empty array of weights. *)
Definition LODA_np {Y A} `{Num A} (half eps : A) (log : A -> A) (randn : nat -> nat -> A) (perms : nat -> list nat) (n_bins n_cuts : nat) : Model (list A) Y (npres A) :=
  plain_model (lodast A)
    (md_fit (LODA (Y := Y) half eps log randn perms n_bins n_cuts))
    (fun x =>
       s <- gets (fun s => s) ;;
       match loda_obj s with
       | None => raise AttributeError
       | Some o =>
           vs <- lift (res_map (loda_cut_score log n_bins n_cuts o x) (seq 0 n_cuts)) ;;
           ret (VArray [npdiv (nsum vs) (nofZ (Z.of_nat n_cuts))])
       end).
(** xstream.py 17-87 with any number of chains: line 198 divides a numpy array by float(nchains), so 0 gives nan. *)
Definition xStream_np {Y A} `{Num A} (two one tiny : A) (mmh3 : string -> nat -> Z) (p : shproj A) (floor : A -> Z) (log2 : A -> A) (K window_size : nat) : Model (list A) Y (npres A) :=
  plain_model (xsst A)
    (md_fit (xStream (Y := Y) two one tiny mmh3 p floor log2 K window_size))
    (fun x =>
       z <- lift (xs_project two one mmh3 p x) ;;
       s <- gets (fun s => s) ;;
       vs <- lift (res_map (fun c => xc_score floor log2 c z) (xs_chains s)) ;;
       ret (VArray [npdiv (nsum vs) (nofZ (Z.of_nat (List.length (xs_chains s))))])).

(** The argument decay of RSHash: a Python int or a float. *)
Inductive pydecay : Type := DecayInt (z : Z) | DecayFloat (r : R).
(** rs_hash.py 36: max(1000, 1.0 / (1 - np.power(2, -self.decay))).  np.power on two Python ints computes with int64 and raises
    ValueError for a negative exponent.  A division by zero gives inf ([NonFin]).  Simplification: ints below 2^63. *)
Definition rs_effS_py (pow2 : R -> R) (decay : pydecay) : res (npres R) :=
  match decay with
  | DecayInt z =>
      if (- z <? 0)%Z then Raise ValueError
      else Ok (npmap (fun q => omax (IZR 1000) q) (npdiv (IZR 1) (IZR (wrap (SInt 64) (1 - wrap (SInt 64) (2 ^ (- z)))))))
  | DecayFloat r => Ok (npmap (fun q => omax (IZR 1000) q) (npdiv (IZR 1) (IZR 1 - pow2 (- r))%R))
  end.
(** rs_hash.py 120-135 with effS = inf: common_term and low_value are inf if f is positive, and equal, so r is 1.  For f = 0
    common_term is inf / inf = nan and np.random.randint raises ValueError. *)
Definition rs_num_feats_py (log : R -> R) (floor : R -> Z) (draw : Z -> Z -> Z) (effS : npres R) (f : R) (dim : nat) : res Z :=
  match effS with
  | FinV e => rs_num_feats log floor draw e f dim
  | NonFin => if oeqb f n0 then Raise ValueError else Ok 1%Z
  end.
(** rs_hash.py 38-39: the bounds of the cell sizes; 1.0 / np.sqrt(inf) is 0. *)
Definition rs_f_range_py (sqrt : R -> R) (effS : npres R) : R * R :=
  match effS with FinV e => (rs_f_low sqrt e, rs_f_high sqrt e) | NonFin => (IZR 0, IZR 1) end.
(** rs_hash.py 44-46, 108-164: all components, as [rs_components]. *)
Definition rs_components_py (log : R -> R) (floor : R -> Z) (draw : nat -> Z -> Z -> Z) (pick : nat -> list nat -> nat -> list nat) (shifts : nat -> R -> nat -> list R)
    (effS : npres R) (fs : list R) (arrays : bool) (mins maxs : list R) : res (list (rscomp R)) :=
  res_map (fun p =>
      rmap (fun V => mkComp V (shifts (fst p) (snd p) (List.length V)) (snd p))
           (rbind (rs_num_feats_py log floor (draw (fst p)) effS (snd p) (List.length mins)) (fun r =>
            let feats := match rs_choice_feats arrays mins maxs with [] => seq 0 (List.length mins) | cf => cf end in
            np_choice (pick (fst p)) feats (Nat.min (Z.to_nat r) (List.length feats)))))
    (combine (seq 0 (List.length fs)) fs).
