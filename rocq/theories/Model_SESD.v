(** * Model of pysad/models/seasonal_esd.py *)
From Coq Require Import List ZArith Lia Bool Arith.
From Verif Require Import Base Num Spec Model_Stats Model_Utils Model_Core Model_Post Model_Trans Model_Simple.
Import ListNotations.
Open Scope m_scope.

(** The attributes of a SeasonalESD object; the transformer's own window is never used, only its transform_window. *)
Record sesd (A : Type) : Type := mkSESD { se_period : Z; se_wsize : Z; se_max : Z; se_alpha : A; se_window : window A }.
Arguments mkSESD {A}.
Arguments se_period {A}.
Arguments se_wsize {A}.
Arguments se_max {A}.
Arguments se_alpha {A}.
Arguments se_window {A}.
(** 25-56.  Simplification: int(window_size * 0.49) is computed exactly (Model_Params has the doubles); np.isfinite(alpha) is part of 0 < alpha < 1. *)
Definition SESD_init {A} `{Num A} (period window_size max_anomalies : Z) (alpha : A) : res (sesd A) :=
  if (max_anomalies <? 1)%Z then Raise ValueError
  else if (window_size <? 2 * period)%Z then Raise ValueError
  else if (49 * window_size / 100 <? max_anomalies)%Z then Raise ValueError
  else if negb (oltb n0 alpha && oltb alpha (nofZ 1)) then Raise ValueError
  else rbind (MSTL_init (A := A) period (Some window_size)) (fun _ => Ok (mkSESD period window_size max_anomalies alpha (Window_init window_size))).
(** 58-64: instances are 1-D arrays *)
Definition se_value {A} (x : list A) : res A := match x with [v] => Ok v | _ => Raise ValueError end.
(** 66-67: mean and standard deviation with ddof = 1 (numpy's nan for fewer than two values is an exception here; the
    loop below never gets there) *)
Definition se_center_scale {A} `{Num A} (values : list A) : res (A * A) :=
  rbind (np_mean values) (fun m =>
  rbind (div_int (nsum (map (fun v => nsq (nsub v m)) values)) (Z.of_nat (length values) - 1)) (fun q => Ok (m, nsqrt q))).
(** 148-151 SeasonalHybridESD; [k] is 1.4826 *)
Definition hybrid_center_scale {A} `{Num A} (k : A) (values : list A) : res (A * A) :=
  rbind (np_median values) (fun m => rbind (np_median (map (fun v => nabs (nsub v m)) values)) (fun q => Ok (m, nmul k q))).
(** 79-82; [ppf p df] is scipy's t.ppf *)
Definition se_critical {A} `{Num A} (ppf : A -> Z -> A) (alpha : A) (n i : Z) : A :=
  let p := nsub (nofZ 1) (ndiv alpha (nmul (nofZ 2) (nofZ (n - i + 1)))) in
  let t := ppf p (n - i - 1)%Z in
  ndiv (nmul (nofZ (n - i)) t) (nsqrt (nmul (nadd (nofZ (n - i - 1)) (nsq t)) (nofZ (n - i + 1)))).
(** np.argmax: the first position of the largest value; ValueError on an empty array *)
Fixpoint argmax_from {A} `{Ord A} (l : list A) (i best : nat) (v : A) : nat :=
  match l with [] => best | x :: l' => if oltb v x then argmax_from l' (S i) i x else argmax_from l' (S i) best v end.
Definition np_argmax {A} `{Ord A} (l : list A) : res nat := match l with [] => Raise ValueError | x :: l' => Ok (argmax_from l' 1 0 x) end.
(** np.delete(l, i) *)
Definition np_delete {A} (i : nat) (l : list A) : list A := firstn i l ++ skipn (S i) l.
(** 89-102, iterations i, i+1, ..., i+fuel-1; [eps] is 1e-10; the result is the list of candidates
    (index, statistic, critical value) *)
Fixpoint se_loop {A} `{Num A} (eps : A) (cs : list A -> res (A * A)) (crit : Z -> A) (fuel : nat) (i : Z) (values : list A) (indices : list nat) : res (list (nat * A * A)) :=
  match fuel with
  | O => Ok []
  | S fuel' =>
      rbind (cs values) (fun '(center, scale) =>
      if oleb scale eps then Ok []
      else
        let dev := map (fun v => ndiv (nabs (nsub v center)) scale) values in
        rbind (np_argmax dev) (fun k =>
        rbind (py_index indices k) (fun idx =>
        rbind (py_index dev k) (fun st =>
        rmap (cons (idx, st, crit i)) (se_loop eps cs crit fuel' (i + 1) (np_delete k values) (np_delete k indices))))))
  end.
(** 104-107: the last position (counted from 1) whose statistic exceeds its critical value *)
Definition se_selected {A} `{Num A} (cands : list (nat * A * A)) : nat :=
  fold_left (fun cnt '(i, (_, st, cr)) => if oltb cr st then i else cnt) (combine (seq 1 (length cands)) cands) 0%nat.
(** 84-109 *)
Definition se_esd {A} `{Num A} (eps : A) (cs : list A -> res (A * A)) (ppf : A -> Z -> A) (alpha : A) (max_anomalies : Z) (values : list A) : res (list (nat * A * A)) :=
  rbind (se_loop eps cs (se_critical ppf alpha (Z.of_nat (length values))) (Z.to_nat max_anomalies) 1 values (seq 0 (length values))) (fun cands =>
  Ok (firstn (se_selected cands) cands)).
(** 116-128 *)
Definition se_score_window {A} `{Num A} (eps : A) cs ppf (stl : list A -> res (list A)) (s : sesd A) (values : list A) : res A :=
  if (Z.of_nat (length values) <? se_wsize s)%Z then Ok n0
  else
    rbind (transform_window stl (se_period s) (AInst (Arr1 values))) (fun residuals =>
    rbind (se_esd eps cs ppf (se_alpha s) (se_max s) residuals) (fun anomalies =>
    Ok (match find (fun '(idx, _, _) => (idx =? length values - 1)%nat) anomalies with Some (_, st, _) => st | None => n0 end))).
(** 111-114 *)
Definition se_fit {A} (x : list A) : M (sesd A) unit :=
  v <- lift (se_value x) ;;
  zoom se_window (fun w s => mkSESD (se_period s) (se_wsize s) (se_max s) (se_alpha s) w) (Window_update v).
(** 130-132 with 69-74, 134-137 with 76-77 *)
Definition SeasonalESD {Y A} `{Num A} (eps : A) cs ppf stl : Model (list A) Y A := {|
  md_state := sesd A;
  md_fit := fun x _ => se_fit x;
  md_score := fun x =>
    s <- gets (fun s => s) ;;
    v <- lift (se_value x) ;;
    r <- lift (se_score_window eps cs ppf stl s (py_last_slice (se_wsize s) (wd_items (se_window s) ++ [v]))) ;; ret (VScalar r);
  md_fit_score := fun x _ =>
    se_fit x ;;;
    s <- gets (fun s => s) ;;
    r <- lift (se_score_window eps cs ppf stl s (wd_items (se_window s))) ;; ret (VScalar r)
|}.
