(** * The sklearn functions called by pysad/evaluation/metrics.py, after sklearn/metrics/_ranking.py and _classification.py.
    Labels are 0 or 1 (metrics.py:18), written false and true.  Warnings are left out.  The two lists have the same length
    (metrics.py:21-22 appends to both). *)
From Coq Require Import List ZArith Lia Bool Arith.
From Verif Require Import Base Num Model_Stats Model_Eval.
Import ListNotations.

Section Ranking.
Context {A : Type} `{Num A}.
(** evaluation/metrics.py:69 and 77, the common part of the two ranking metrics. _binary_clf_curve: np.argsort(y_score, kind="mergesort")[::-1], a stable ascending sort, reversed *)
Fixpoint ins_score (x : bool * A) (l : list (bool * A)) : list (bool * A) :=
  match l with [] => [x] | y :: l' => if oleb (snd x) (snd y) then x :: l else y :: ins_score x l' end.
Definition by_score_desc (l : list (bool * A)) : list (bool * A) := rev (fold_right ins_score [] l).
(** metrics.py:69, 77: cumulated false and true positives at the last occurrence of every distinct score *)
Fixpoint clf_curve (l : list (bool * A)) (fp tp : nat) : list (nat * nat) :=
  match l with
  | [] => []
  | (y, s) :: r =>
    let fp := if y then fp else S fp in
    let tp := if y then S tp else tp in
    match r with
    | [] => [(fp, tp)]
    | (_, s') :: _ => if oeqb s s' then clf_curve r fp tp else (fp, tp) :: clf_curve r fp tp
    end
  end.
Definition binary_clf_curve (ys : list bool) (ps : list A) : list (nat * nat) := clf_curve (by_score_desc (combine ys ps)) 0 0.
(** metrics.py:69: roc_curve with drop_intermediate: points where both second differences vanish are left out *)
Definition collinear (p c n : nat * nat) : bool := ((fst p + fst n =? 2 * fst c) && (snd p + snd n =? 2 * snd c))%nat.
Fixpoint drop_from (p c : nat * nat) (rest : list (nat * nat)) : list (nat * nat) :=
  match rest with [] => [c] | n :: r => if collinear p c n then drop_from c n r else c :: drop_from c n r end.
Definition drop_intermediate (l : list (nat * nat)) : list (nat * nat) := match l with p :: c :: r => p :: drop_from p c r | _ => l end.
(** metrics.py:69: np.trapezoid, called by sklearn's auc *)
Fixpoint trapezoid (l : list (A * A)) : A :=
  match l with
  | p :: ((q :: _) as r) => nadd (ndiv (nmul (nsub (fst q) (fst p)) (nadd (snd q) (snd p))) (nofZ 2)) (trapezoid r)
  | _ => n0
  end.
(** metrics.py:50, 58, 69, 77: a quotient of two counts *)
Definition ratio (a b : nat) : A := ndiv (nofZ (Z.of_nat a)) (nofZ (Z.of_nat b)).
(** metrics.py:69 roc_auc_score; with one class only the rates are not defined: ValueError *)
Definition roc_auc_score (ys : list bool) (ps : list A) : res A :=
  let c := drop_intermediate (binary_clf_curve ys ps) in
  let '(n, p) := last c (0, 0)%nat in
  if ((n =? 0) || (p =? 0))%nat then Raise ValueError
  else Ok (trapezoid (map (fun q => (ratio (fst q) n, ratio (snd q) p)) ((0, 0)%nat :: c))).
(** metrics.py:77 average_precision_score: the sum of (recall - previous recall) * precision, from the highest threshold on; without
    positives the recall is 1 everywhere.  Empty lists are rejected ([ValueError] stands for whatever sklearn raises).  (sklearn adds the same terms starting from the lowest threshold.) *)
Fixpoint ap_sum (p : nat) (prev : A) (l : list (nat * nat)) : A :=
  match l with
  | [] => n0
  | q :: r => let rec := if (p =? 0)%nat then nofZ 1 else ratio (snd q) p in
              nadd (nmul (nsub rec prev) (ratio (snd q) (fst q + snd q))) (ap_sum p rec r)
  end.
Definition average_precision_score (ys : list bool) (ps : list A) : res A :=
  match ys with
  | [] => Raise ValueError
  | _ => let c := binary_clf_curve ys ps in Ok (ap_sum (snd (last c (0, 0)%nat)) n0 c)
  end.
(** metrics.py:50 precision_score, 58 recall_score: predictions other than 0 and 1 are rejected.  (sklearn accepts some integer labels other than
    0 and 1 next to a single class of y_true; left out.)  A zero denominator gives 0 with a warning. *)
Fixpoint classes (ps : list A) : res (list bool) :=
  match ps with
  | [] => Ok []
  | a :: r => if oeqb a (nofZ 1) then rmap (cons true) (classes r) else if oeqb a n0 then rmap (cons false) (classes r) else Raise ValueError
  end.
Definition agreements (f : bool * bool -> bool) (ys ps : list bool) : nat := length (filter f (combine ys ps)).
Definition safe_ratio (a b : nat) : A := if (b =? 0)%nat then n0 else ratio a b.
Definition precision_score (ys : list bool) (ps : list A) : res A :=
  rmap (fun qs => let tp := agreements (fun q => fst q && snd q) ys qs in safe_ratio tp (tp + agreements (fun q => negb (fst q) && snd q) ys qs)) (classes ps).
Definition recall_score (ys : list bool) (ps : list A) : res A :=
  rmap (fun qs => let tp := agreements (fun q => fst q && snd q) ys qs in safe_ratio tp (tp + agreements (fun q => fst q && negb (snd q)) ys qs)) (classes ps).
End Ranking.
