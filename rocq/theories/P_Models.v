(** * Histories of calls on a detector, and lemmas about them. *)
From Coq Require Import List ZArith Lia Bool.
From Verif Require Import Base Num Model_Utils Model_Core Model_Simple.
Import ListNotations.

(** A client calls fit_partial, score_partial and fit_score_partial in any order, and ignores exceptions. *)
Inductive mcall (X Y : Type) : Type := CFit (x : X) (y : option Y) | CScore (x : X) | CFitScore (x : X) (y : option Y).
Arguments CFit {X Y}.
Arguments CScore {X Y}.
Arguments CFitScore {X Y}.
(** Result of a call (None for fit_partial) and the object after it. *)
Definition model_call {X Y A} (m : Model X Y A) (o : mcall X Y) : M (md_state m) (option (pyval A)) :=
  match o with
  | CFit x y => fun s => let '(r, s') := md_fit m x y s in (rmap (fun _ => None) r, s')
  | CScore x => fun s => let '(r, s') := md_score m x s in (rmap Some r, s')
  | CFitScore x y => fun s => let '(r, s') := md_fit_score m x y s in (rmap Some r, s')
  end.
Definition model_do {X Y A} (m : Model X Y A) (s : md_state m) (o : mcall X Y) : md_state m := exec (model_call m o) s.
Definition model_run {X Y A} (m : Model X Y A) (s0 : md_state m) (h : list (mcall X Y)) : md_state m := fold_left (model_do m) h s0.
(** The scores returned during a history, in order (calls that raise return none). *)
Fixpoint model_scores {X Y A} (m : Model X Y A) (s : md_state m) (h : list (mcall X Y)) : list (pyval A) :=
  match h with
  | [] => []
  | o :: h' => match eval (model_call m o) s with Ok (Some v) => [v] | _ => [] end ++ model_scores m (model_do m s o) h'
  end.
(** The instances (with labels) a history has tried to fit. *)
Definition call_fit {X Y} (o : mcall X Y) : list (X * option Y) :=
  match o with CFit x y => [(x, y)] | CFitScore x y => [(x, y)] | CScore _ => [] end.
Definition fitted_calls {X Y} (h : list (mcall X Y)) : list (X * option Y) := flat_map call_fit h.
Definition fitted_instances {X Y} (h : list (mcall X Y)) : list X := map fst (fitted_calls h).

Lemma model_run_app : forall X Y A (m : Model X Y A) h1 h2 s, model_run m s (h1 ++ h2) = model_run m (model_run m s h1) h2.
Proof. intros. apply fold_left_app. Qed.
Lemma fitted_calls_app : forall X Y (h1 h2 : list (mcall X Y)), fitted_calls (h1 ++ h2) = fitted_calls h1 ++ fitted_calls h2.
Proof. intros. apply flat_map_app. Qed.
Lemma fitted_instances_app : forall X Y (h1 h2 : list (mcall X Y)), fitted_instances (h1 ++ h2) = fitted_instances h1 ++ fitted_instances h2.
Proof. intros. unfold fitted_instances. rewrite fitted_calls_app, map_app. reflexivity. Qed.
Lemma model_scores_app : forall X Y A (m : Model X Y A) h1 h2 s,
  model_scores m s (h1 ++ h2) = model_scores m s h1 ++ model_scores m (model_run m s h1) h2.
Proof. intros X Y A m h1. induction h1 as [|o h1 IH]; intros h2 s; auto. cbn. rewrite IH, app_assoc. reflexivity. Qed.

(** An invariant relating the object to a log built from the calls. *)
Lemma model_run_inv : forall X Y A B (m : Model X Y A) (eff : mcall X Y -> list B) (Rl : list B -> md_state m -> Prop),
  (forall o l s, Rl l s -> Rl (l ++ eff o) (model_do m s o)) ->
  forall h l s, Rl l s -> Rl (l ++ flat_map eff h) (model_run m s h).
Proof.
  intros X Y A B m eff Rl H h. induction h as [|o h IH]; intros l s R0; cbn.
  - rewrite app_nil_r. auto.
  - rewrite app_assoc. apply IH. auto.
Qed.
(** The usual case: fit_partial logs, score_partial leaves the log alone, fit_score_partial is inherited. *)
Lemma plain_run_inv : forall X Y A B S fit score (eff : X -> option Y -> list B) (Rl : list B -> S -> Prop),
  (forall l s x y, Rl l s -> Rl (l ++ eff x y) (exec (fit x y) s)) ->
  (forall l s x, Rl l s -> Rl l (exec (score x) s)) ->
  forall h l s, Rl l s ->
  Rl (l ++ flat_map (fun c => eff (fst c) (snd c)) (fitted_calls h)) (model_run (@plain_model X Y A S fit score) s h).
Proof.
  intros X Y A B S fit score eff Rl Hf Hs h l s R0.
  replace (flat_map (fun c => eff (fst c) (snd c)) (fitted_calls h))
    with (flat_map (fun o => flat_map (fun c => eff (fst c) (snd c)) (call_fit o)) h).
  - apply (model_run_inv X Y A B (plain_model S fit score)); auto. clear h l s R0.
    intros o l s R0. unfold model_do, exec. destruct o as [x y|x|x y]; cbn.
    + specialize (Hf l s x y R0). unfold exec in Hf. rewrite app_nil_r. destruct (fit x y s); auto.
    + rewrite app_nil_r. specialize (Hs l s x R0). unfold exec in Hs. destruct (score x s); auto.
    + rewrite app_nil_r. unfold default_fit_score, bind. specialize (Hf l s x y R0). unfold exec in Hf.
      destruct (fit x y s) as [[u|e] s1]; cbn in Hf |- *; auto. specialize (Hs _ s1 x Hf). unfold exec in Hs. destruct (score x s1); auto.
  - clear. unfold fitted_calls. induction h as [|o h IH]; auto. cbn. rewrite flat_map_app, IH. reflexivity.
Qed.
(** When every fitted instance is logged. *)
Lemma plain_run_all : forall X Y A S fit score (Rl : list X -> S -> Prop),
  (forall l s x y, Rl l s -> Rl (l ++ [x]) (exec (fit x y) s)) ->
  (forall l s x, Rl l s -> Rl l (exec (score x) s)) ->
  forall h s, Rl [] s -> Rl (fitted_instances h) (model_run (@plain_model X Y A S fit score) s h).
Proof.
  intros X Y A S fit score Rl Hf Hs h s R0.
  pose proof (plain_run_inv X Y A X S fit score (fun x _ => [x]) Rl Hf Hs h [] s R0) as H. cbn [app] in H.
  replace (fitted_instances h) with (flat_map (fun c : X * option Y => [fst c]) (fitted_calls h)); auto.
Qed.
