(** * C115: what the shipped evaluation programs print. *)
From Coq Require Import List ZArith Lia Bool Reals Lra Arith Permutation.
From Verif Require Import Base Num Spec Model_Stats Model_Utils Model_Core Model_Post Model_Trans Model_Simple Model_Eval Model_Metrics Model_Loda Model_Examples P_Lists P_Stats P_Utils P_Core P_Post P_Models P_Eval P_Metrics Prop_Stats Prop_Core Prop_Post Prop_Trans Prop_Metrics Prop_Loda Prop_Alert Prop_PostAUROC.
Import ListNotations.
Open Scope R_scope.

(** The detector gives the instances, in order, these scores (as numbers or one-element arrays). *)
Definition number_or_array (v : pyval R) (s : R) : Prop := v = VScalar s \/ v = VArray [s].
Definition yields {X Y} (m : Model X Y R) (s0 : md_state m) (xs : list X) (ss : list R) : Prop :=
  length ss = length xs /\ Forall2 number_or_array (model_scores m s0 (map (fun x => CFitScore x None) xs)) ss.

Lemma yields_cons : forall X Y (m : Model X Y R) s0 x xs ss, yields m s0 (x :: xs) ss ->
  exists v s ss' s1, ss = s :: ss' /\ number_or_array v s /\ md_fit_score m x None s0 = (Ok v, s1) /\ yields m s1 xs ss'.
Proof.
  intros X Y m s0 x xs ss [L E]. destruct ss as [|s ss']; [discriminate|]. cbn [map model_scores length] in *.
  unfold eval, model_do, exec in E. cbn [model_call] in E. destruct (md_fit_score m x None s0) as [[v|e] s1] eqn:F; cbn [rmap fst snd app] in E.
  - inversion E; subst. exists v, s, ss', s1. split; auto. split; auto. split; auto. split; auto.
  - exfalso. apply Forall2_length in E. cbn [length] in E. pose proof (model_scores_length _ _ _ m (map (fun x => CFitScore x None) xs) s1) as P. rewrite E, !map_length in P. lia.
Qed.
Lemma yields_build : forall X Y (m : Model X Y R) s0 x xs v s ss' s1, number_or_array v s -> md_fit_score m x None s0 = (Ok v, s1) -> yields m s1 xs ss' -> yields m s0 (x :: xs) (s :: ss').
Proof.
  intros X Y m s0 x xs v s ss' s1 N F [L E]. split; [cbn; lia|]. cbn [map model_scores]. unfold eval, model_do, exec. cbn [model_call]. rewrite F. cbn [rmap fst snd app]. constructor; auto.
Qed.
Lemma score_numbers : forall vs ss, Forall2 number_or_array vs ss -> res_map score_number vs = Ok ss.
Proof. intros vs ss F. induction F as [|v s vs ss [->| ->] F IH]; auto; cbn; rewrite IH; reflexivity. Qed.
Lemma example_get : forall S (f : S -> skst bool (pyval R)) ys vs ss, Forall2 number_or_array vs ss -> length ys = length ss ->
  forall s g, f s = mkSK ys vs -> eval (zoom f g (me_get (ExampleMetric (A := R)))) s = AUROC (combine ys ss).
Proof.
  intros S f ys vs ss F L s g E. unfold AUROC, AUROCMetric. rewrite sk_value. unfold eval, zoom. cbn [me_get ExampleMetric AUROCMetric SKMetric]. unfold bind, gets, lift. rewrite E. cbn [fst snd sk_true sk_pred].
  assert (E1 : map fst (combine ys ss) = ys). { clear - L. revert ss L. induction ys as [|y ys IH]; intros [|s ss] L; auto; try discriminate. cbn. f_equal. apply IH. cbn in L. lia. }
  assert (E2 : map snd (combine ys ss) = ss). { clear - L. revert ss L. induction ys as [|y ys IH]; intros [|s ss] L; auto; try discriminate. cbn. f_equal. apply IH. cbn in L. lia. }
  rewrite E1, E2. unfold auroc_evaluate. destruct (length (nodup bool_dec ys) <=? 1)%nat; auto. rewrite (score_numbers vs ss F). reflexivity.
Qed.

(** ** example_usage_short.py *)
Lemma short_run : forall X Y (m : Model X Y R) data s0 ss T P, yields m s0 (map fst data) ss -> exists s' vs, Forall2 number_or_array vs ss /\
  iterM (short_step m) data (s0, mkSK T P) = (Ok tt, (s', mkSK (T ++ map snd data) (P ++ vs))).
Proof.
  intros X Y m data. induction data as [|[x y] data IH]; intros s0 ss T P Yi.
  - destruct Yi as [L _]. destruct ss; [|discriminate]. exists s0, []. split; [constructor|]. cbn. rewrite !app_nil_r. reflexivity.
  - cbn [map fst] in Yi. apply yields_cons in Yi. destruct Yi as (v & s & ss' & s1 & -> & N & F & Yi). destruct (IH s1 ss' (T ++ [y]) (P ++ [v]) Yi) as (s' & vs & FV & E). exists s', (v :: vs). split; [constructor; auto|].
    cbn [iterM]. unfold bind at 1. unfold short_step at 1. unfold bind, zoom at 1. cbn [fst snd]. rewrite F. cbn. change (iterM (short_step m) data (s1, mkSK (T ++ [y]) (P ++ [v])) = (Ok tt, (s', mkSK (T ++ y :: map snd data) (P ++ v :: vs)))). rewrite E, <- !app_assoc. reflexivity.
Qed.
(** The program prints the AUROC of the detector's own scores. *)
Theorem C115_short_program : forall X Y (m : Model X Y R) s0 data ss, yields m s0 (map fst data) ss -> short_example m s0 data = AUROC (combine (map snd data) ss).
Proof.
  intros X Y m s0 data ss Yi. destruct (short_run X Y m data s0 ss [] [] Yi) as (s' & vs & FV & E). unfold short_example, eval at 1, bind at 1. rewrite E. cbn [app].
  refine (example_get _ snd (map snd data) vs ss FV _ (s', mkSK (map snd data) vs) (fun t s => (fst s, t)) eq_refl). destruct Yi as [L _]. rewrite L, !map_length. reflexivity.
Qed.
Print Assumptions C115_short_program.

Lemma do_fit : forall X Y A (m : Model X Y A) s x y, model_do m s (CFit x y) = snd (md_fit m x y s).
Proof. intros. unfold model_do, exec, model_call. destruct (md_fit m x y s). reflexivity. Qed.
Lemma do_fit_score : forall X Y A (m : Model X Y A) s x y, model_do m s (CFitScore x y) = snd (md_fit_score m x y s).
Proof. intros. unfold model_do, exec, model_call. destruct (md_fit_score m x y s). reflexivity. Qed.
(** LODA's fit_score_partial: the same number for every instance. *)
Definition loda_constant (nb c : nat) : R := - ln ((if (Nat.even nb || (nb =? 1)%nat)%bool then 1 + 1 / 10 ^ 12 else 1 / 10 ^ 12) / (1 + INR nb / 10 ^ 12)) / INR c.
Lemma loda_next : forall Y randn perms nb c d (h : list (mcall (list R) Y)) x, (1 <= nb)%nat -> (1 <= c)%nat -> Forall (fun x => length x = d) (fitted_instances h ++ [x]) ->
  let m := Loda randn perms nb c : Model (list R) Y R in
  exists s', md_fit m x None (model_run m LODA_init h) = (Ok tt, s') /\ md_score m x s' = (Ok (VArray [loda_constant nb c]), s') /\ s' = model_run m LODA_init (h ++ [CFitScore x None]).
Proof.
  intros Y randn perms nb c d h x Hnb Hc F m. pose proof (lo_run Y randn perms nb c d Hnb h) as I.
  destruct (lo_fit_step Y randn perms nb c d Hnb (fitted_instances h) _ x None F I) as (s' & E & _). exists s'.
  change (md_fit m x None (model_run m LODA_init h) = (Ok tt, s')) in E.
  assert (Es : s' = model_run m LODA_init (h ++ [CFit x None])). { rewrite model_run_app. change (s' = model_do m (model_run m LODA_init h) (CFit x None)). rewrite do_fit, E. reflexivity. }
  assert (Fi : fitted_instances (h ++ [CFit x None]) = fitted_instances h ++ [x]) by (rewrite fitted_instances_app; reflexivity).
  assert (V : eval (md_score m x) s' = Ok (VArray [loda_constant nb c])).
  { rewrite Es. unfold loda_constant. destruct (Nat.even nb || (nb =? 1)%nat)%bool eqn:Ev.
    - apply (C84_even_bins Y randn perms nb c d _ (fitted_instances h) x Hnb Hc Fi F). apply orb_true_iff in Ev. destruct Ev as [Ev|Ev]; [left; apply Nat.even_spec; auto|right; apply Nat.eqb_eq; auto].
    - apply orb_false_iff in Ev. destruct Ev as [Ev E1]. apply Nat.eqb_neq in E1. assert (Od : Nat.odd nb = true) by (unfold Nat.odd; rewrite Ev; reflexivity). apply Nat.odd_spec in Od.
      apply (C84_odd_bins_refuted Y randn perms nb c d _ (fitted_instances h) x); auto. destruct Od; lia. }
  assert (S : exec (md_score m x) s' = s') by apply lo_score_state. 
  assert (Sc : md_score m x s' = (Ok (VArray [loda_constant nb c]), s')). { unfold eval, exec in V, S. destruct (md_score m x s'). cbn [fst snd] in *. subst. reflexivity. }
  split; auto. split; auto. rewrite model_run_app. change (s' = model_do m (model_run m LODA_init h) (CFitScore x None)). rewrite do_fit_score. change (md_fit_score m x None) with (bind (md_fit m x None) (fun _ => md_score m x)). unfold bind. rewrite E, Sc. reflexivity.
Qed.
Lemma loda_yields : forall Y randn perms nb c d (xs : list (list R)) (h : list (mcall (list R) Y)), (1 <= nb)%nat -> (1 <= c)%nat -> Forall (fun x => length x = d) (fitted_instances h ++ xs) ->
  yields (Loda randn perms nb c : Model (list R) Y R) (model_run (Loda randn perms nb c) LODA_init h) xs (repeat (loda_constant nb c) (length xs)).
Proof.
  intros Y randn perms nb c d xs. induction xs as [|x xs IH]; intros h Hnb Hc F.
  - split; [reflexivity|constructor].
  - assert (F1 : Forall (fun x => length x = d) (fitted_instances h ++ [x])). { apply Forall_app in F. destruct F as [F1 F2]. apply Forall_app. split; auto. constructor; auto. apply Forall_inv in F2. auto. }
    destruct (loda_next Y randn perms nb c d h x Hnb Hc F1) as (s' & E & Sc & Es). cbn [length repeat].
    eapply (yields_build _ _ _ _ x xs (VArray [loda_constant nb c]) _ _ s'); [right; reflexivity| |].
    + change (md_fit_score (Loda randn perms nb c : Model (list R) Y R) x None) with (bind (md_fit (Loda randn perms nb c : Model (list R) Y R) x None) (fun _ => md_score (Loda randn perms nb c : Model (list R) Y R) x)). unfold bind. rewrite E. exact Sc.
    + rewrite Es. apply IH; auto. rewrite fitted_instances_app, <- app_assoc. exact F.
Qed.
Lemma combine_snd : forall A B (a : list A) (b : list B) q, In q (combine a b) -> In (snd q) b.
Proof. intros A B a b [x y] I. apply in_combine_r in I. exact I. Qed.
Lemma combine_has : forall (ys : list bool) (ss : list R) y, length ys = length ss -> In y ys -> exists s, In (y, s) (combine ys ss).
Proof.
  induction ys as [|z ys IH]; intros [|s ss] y L I; try discriminate; [destruct I|]. destruct I as [->|I]; [exists s; left; reflexivity|]. destruct (IH ss y ltac:(cbn in L; lia) I) as [v Iv]. exists v. right. exact Iv.
Qed.
(** example_usage_short.py evaluates LODA: whatever the data and the random draws, what it prints is 1/2, the value of a coin toss. *)
Theorem C115_short_program_measures_nothing : forall Y randn perms nb c d (data : list (list R * bool)), (1 <= nb)%nat -> (1 <= c)%nat -> Forall (fun q => length (fst q) = d) data ->
  In true (map snd data) -> In false (map snd data) -> short_example (Loda randn perms nb c : Model (list R) Y R) LODA_init data = Ok (1 / 2).
Proof.
  intros Y randn perms nb c d data Hnb Hc F It If.
  rewrite (C115_short_program _ Y (Loda randn perms nb c : Model (list R) Y R) LODA_init data (repeat (loda_constant nb c) (length (map fst data)))).
  - pose proof (C102_constant_scores (combine (map snd data) (repeat (loda_constant nb c) (length (map fst data)))) (loda_constant nb c)) as C.
    assert (A : forall q, In q (combine (map snd data) (repeat (loda_constant nb c) (length (map fst data)))) -> snd q = loda_constant nb c) by (intros q I; apply combine_snd in I; apply repeat_spec in I; auto).
    assert (L : length (map snd data) = length (repeat (loda_constant nb c) (length (map fst data)))) by (rewrite repeat_length, !map_length; reflexivity).
    apply C; auto; intros Q; [destruct (combine_has _ _ true L It) as [v Iv]; apply in_positives in Iv|destruct (combine_has _ _ false L If) as [v Iv]; apply in_negatives in Iv]; rewrite Q in Iv; destruct Iv.
  - refine (loda_yields Y randn perms nb c d (map fst data) [] Hnb Hc _). cbn [fitted_instances fitted_calls flat_map map app]. apply Forall_map. exact F.
Qed.
Print Assumptions C115_short_program_measures_nothing.

(** ** example_usage.py *)
Lemma running_avg_ok : forall (a : R) (s1 : runst (sumst R) R), fst (RunningStatistic_update AverageMeter a s1) = Ok tt.
Proof.
  intros a [st sz wn]. unfold RunningStatistic_update, bind, modify, zoom, gets, lift. cbn [fst snd rn_stat rn_size rn_win mt_update AverageMeter]. unfold modify.
  destruct wn as [|b l]; cbn; match goal with |- context [if ?b then _ else _] => destruct b end; reflexivity.
Qed.
Lemma running_avg_step : forall w (pre : list R) a s0, RunningPost_init AverageMeter w = Ok s0 -> (1 <= w)%Z ->
  pp_fit_transform RunningAveragePostprocessor a (post_run RunningAveragePostprocessor s0 (map PFit pre)) =
  (Ok (VScalar (mean (lastn (Z.to_nat w) (pre ++ [a])))), post_run RunningAveragePostprocessor s0 (map PFit (pre ++ [a]))).
Proof.
  intros w pre a s0 E0 Hw. destruct (C34_running_average w) as (s0' & E0' & HL & _). rewrite E0 in E0'. injection E0' as <-.
  specialize (HL (map PFit (pre ++ [a])) a). rewrite fitted_map in HL.
  assert (Ne : lastn (Z.to_nat w) (pre ++ [a]) <> []). { intros Q. apply (f_equal (@length _)) in Q. rewrite lastn_length, app_length in Q. cbn [length] in Q. lia. }
  assert (Es : post_run RunningAveragePostprocessor s0 (map PFit (pre ++ [a])) = exec (pp_fit RunningAveragePostprocessor a) (post_run RunningAveragePostprocessor s0 (map PFit pre))) by (rewrite map_app; unfold post_run; rewrite fold_left_app; reflexivity).
  destruct (lastn (Z.to_nat w) (pre ++ [a])) as [|z win] eqn:EW; [congruence|]. clear Ne EW.
  unfold pp_fit_transform, bind. revert HL Es. generalize (post_run RunningAveragePostprocessor s0 (map PFit (pre ++ [a]))). generalize (post_run RunningAveragePostprocessor s0 (map PFit pre)). intros s1 s2 HL Es. unfold exec in Es.
  assert (OK : fst (pp_fit RunningAveragePostprocessor a s1) = Ok tt).
  { apply running_avg_ok. }
  destruct (pp_fit RunningAveragePostprocessor a s1) as [r s']. cbn [fst snd] in *. subst r s'.
  assert (ST : snd (pp_transform RunningAveragePostprocessor a s2) = s2). { clear. cbn [pp_transform RunningAveragePostprocessor RunningPost]. unfold bind, RunningStatistic_get, zoom, ret. destruct s2 as [st sz wn]. cbn. unfold bind, gets, lift. cbn. destruct (div_int _ _); reflexivity. }
  unfold eval in HL. destruct (pp_transform RunningAveragePostprocessor a s2). cbn [fst snd] in *. congruence.
Qed.
Lemma usage_run : forall X Y (t : Transformer X (npres R)) (m : Model (list (npres R)) Y R) t0 w p0 data rows s0 ss pre T P, RunningPost_init AverageMeter w = Ok p0 -> (1 <= w)%Z ->
  Forall2 (fun q r => tr_fit_transform t (AInst (fst q)) t0 = (Ok (VArray r), t0)) data rows -> yields m s0 rows ss -> exists s',
  iterM (usage_step t m) data (t0, s0, post_run RunningAveragePostprocessor p0 (map PFit pre), mkSK T P) =
  (Ok tt, (t0, s', post_run RunningAveragePostprocessor p0 (map PFit (pre ++ ss)), mkSK (T ++ map snd data) (P ++ map (fun p => VScalar (mean (lastn (Z.to_nat w) (pre ++ p)))) (prefixes ss)))).
Proof.
  intros X Y t m t0 w p0 data rows s0 ss pre T P E0 Hw F. revert s0 ss pre T P. induction F as [|[x y] r data rows Fx F IH]; intros s0 ss pre T P Yi.
  - destruct Yi as [L _]. destruct ss; [|discriminate]. exists s0. cbn. rewrite !app_nil_r. reflexivity.
  - apply yields_cons in Yi. destruct Yi as (v & s & ss' & s1 & -> & N & Fs & Yi). destruct (IH s1 ss' (pre ++ [s]) (T ++ [y]) (P ++ [VScalar (mean (lastn (Z.to_nat w) (pre ++ [s])))]) Yi) as [s' E]. exists s'.
    cbn [iterM]. unfold bind at 1. cbn [fst] in Fx. assert (St : usage_step t m (x, y) (t0, s0, post_run RunningAveragePostprocessor p0 (map PFit pre), mkSK T P) = (Ok tt, (t0, s1, post_run RunningAveragePostprocessor p0 (map PFit (pre ++ [s])), mkSK (T ++ [y]) (P ++ [VScalar (mean (lastn (Z.to_nat w) (pre ++ [s])))])))).
    { unfold usage_step, bind, zoom, lift. cbn [fst snd]. rewrite Fx. cbn [fst snd]. rewrite Fs. cbn [fst snd]. assert (Sn : score_number v = Ok s) by (destruct N as [->| ->]; reflexivity). rewrite Sn. rewrite (running_avg_step w pre s p0 E0 Hw). reflexivity. }
    assert (EP : map (fun p => VScalar (mean (lastn (Z.to_nat w) (pre ++ p)))) (prefixes (s :: ss')) = VScalar (mean (lastn (Z.to_nat w) (pre ++ [s]))) :: map (fun p => VScalar (mean (lastn (Z.to_nat w) ((pre ++ [s]) ++ p)))) (prefixes ss')).
    { cbn [prefixes map]. f_equal. rewrite map_map. apply map_ext. intros p. rewrite <- app_assoc. reflexivity. }
    rewrite EP, St, E. rewrite <- (app_assoc pre), <- (app_assoc T), <- (app_assoc P). reflexivity.
Qed.
(** The program prints the AUROC of the running averages of the detector's scores on the preprocessed instances. *)
Theorem C115_usage_program : forall X Y (t : Transformer X (npres R)) (m : Model (list (npres R)) Y R) t0 s0 w data rows ss, (1 <= w)%Z ->
  Forall2 (fun q r => tr_fit_transform t (AInst (fst q)) t0 = (Ok (VArray r), t0)) data rows -> yields m s0 rows ss ->
  usage_example t m t0 s0 w data = AUROC (combine (map snd data) (map (fun p => mean (lastn (Z.to_nat w) p)) (prefixes ss))).
Proof.
  intros X Y t m t0 s0 w data rows ss Hw F Yi. unfold usage_example. destruct (C34_running_average w) as (p0 & E0 & _ & _). rewrite E0. cbn [rbind].
  destruct (usage_run X Y t m t0 w p0 data rows s0 ss [] [] [] E0 Hw F Yi) as [s' E]. cbn [map] in E. change (post_run RunningAveragePostprocessor p0 []) with p0 in E.
  unfold eval, bind at 1. match goal with |- context [iterM (usage_step t m) data ?st] => set (run := iterM (usage_step t m) data st) end.
  assert (E' : run = (Ok tt, (t0, s', post_run RunningAveragePostprocessor p0 (map PFit ss), mkSK (map snd data) (map (fun p => VScalar (mean (lastn (Z.to_nat w) p))) (prefixes ss))))) by exact E. rewrite E'. clear E E' run.
  refine (example_get _ snd (map snd data) (map (fun p => VScalar (mean (lastn (Z.to_nat w) p))) (prefixes ss)) _ _ _ (_, mkSK (map snd data) (map (fun p => VScalar (mean (lastn (Z.to_nat w) p))) (prefixes ss))) (fun u s => (fst s, u)) eq_refl).
  - clear. induction (prefixes ss) as [|p l IH]; constructor; auto. left. reflexivity.
  - rewrite !map_length. rewrite prefixes_spec, map_length, seq_length. destruct Yi as [L _]. rewrite L. apply Forall2_length in F. auto.
Qed.
Print Assumptions C115_usage_program.

(** A detector that gives prescribed scores. *)
Definition scripted {X} : Model X unit R := {| md_state := list R; md_fit := fun _ _ => ret tt; md_score := fun _ s => (Ok (VScalar (hd 0 s)), s);
  md_fit_score := fun _ _ s => (Ok (VScalar (hd 0 s)), tl s) |}.
Lemma scripted_yields : forall X (xs : list X) ss, length xs = length ss -> yields scripted ss xs ss.
Proof.
  induction xs as [|x xs IH]; intros [|s ss] L; try discriminate; [split; [reflexivity|constructor]|].
  apply (yields_build X unit scripted (s :: ss) x xs (VScalar s) s ss ss); [left; reflexivity|reflexivity|]. apply IH. cbn in L. lia.
Qed.
(** Smoothing spoils the program: for every window w >= 2 and every k there are a detector with a perfect ranking and labels for which it prints w / (w + k). *)
Theorem C115_usage_keeps_the_ranking_refuted : forall X (t : Transformer X (npres R)) t0 (w k : nat) (xs : list X) rows, (2 <= w)%nat -> length xs = (w + 1 + k)%nat ->
  Forall2 (fun x r => tr_fit_transform t (AInst x) t0 = (Ok (VArray r), t0)) xs rows ->
  exists (m : Model (list (npres R)) unit R) s0 labels ss, length labels = length xs /\ yields m s0 rows ss /\ AUROC (combine labels ss) = Ok 1 /\
  usage_example t m t0 s0 (Z.of_nat w) (combine xs labels) = Ok (INR w / INR (w + k)).
Proof.
  intros X t t0 w k xs rows Hw L F. destruct (C112_smoothing_keeps_the_ranking_refuted w k Hw) as (A1 & s0 & vs & E0 & Sm & A2).
  assert (LD : length (drift_after w k) = (w + 1 + k)%nat) by (unfold drift_after; rewrite app_length; cbn [length]; rewrite !repeat_length; lia).
  assert (LR : length rows = length (map snd (drift_after w k))) by (rewrite map_length, LD, <- L; symmetry; eapply Forall2_length; eauto).
  exists scripted, (map snd (drift_after w k)), (map fst (drift_after w k)), (map snd (drift_after w k)). split; [rewrite map_length; lia|]. split; [apply scripted_yields; auto|]. split; [rewrite combine_split2; exact A1|].
  assert (Lc : length xs = length (map fst (drift_after w k))) by (rewrite map_length; lia).
  assert (M1 : map fst (combine xs (map fst (drift_after w k))) = xs). { clear - Lc. revert Lc. generalize (map fst (drift_after w k)). induction xs as [|x xs IH]; intros [|b l] Lc; auto; try discriminate. cbn. f_equal. apply IH. cbn in Lc. lia. }
  assert (M2 : map snd (combine xs (map fst (drift_after w k))) = map fst (drift_after w k)). { clear - Lc. revert Lc. generalize (map fst (drift_after w k)). induction xs as [|x xs IH]; intros [|b l] Lc; auto; try discriminate. cbn. f_equal. apply IH. cbn in Lc. lia. }
  rewrite (C115_usage_program X unit t scripted t0 (map snd (drift_after w k)) (Z.of_nat w) _ rows (map snd (drift_after w k))); [|lia| |apply scripted_yields; auto].
  - rewrite M2. destruct (C34_running_average (Z.of_nat w)) as (s0' & E0' & _ & St). rewrite E0 in E0'. injection E0' as <-. specialize (St ltac:(lia) (map snd (drift_after w k))). unfold smoothed in Sm. rewrite St in Sm. injection Sm as Sm.
    assert (Vs : vs = map (fun p => mean (lastn (Z.to_nat (Z.of_nat w)) p)) (prefixes (map snd (drift_after w k)))).
    { apply (f_equal (map (fun z => match z with FinV v => v | NonFin => 0 end))) in Sm. rewrite !map_map, map_id in Sm. symmetry. exact Sm. }
    rewrite <- Vs. exact A2.
  - clear - F Lc. revert Lc. generalize (map fst (drift_after w k)). induction F as [|x r xs rows Fx F IH]; intros [|b l] Lc; try discriminate; constructor; [exact Fx|apply IH; cbn in Lc; lia].
Qed.
Print Assumptions C115_usage_keeps_the_ranking_refuted.

(** ** example_pyod_integration.py and example_ensemble.py *)
(** The class has BaseModel's own fit_score_partial. *)
Definition inherits {X Y A} (m : Model X Y A) : Prop := forall x y s, md_fit_score m x y s = default_fit_score (md_fit m) (md_score m) x y s.
Lemma fit_then_score : forall X Y (m : Model X Y R) x s v s1, inherits m -> md_fit_score m x None s = (Ok v, s1) -> exists s', md_fit m x None s = (Ok tt, s') /\ md_score m x s' = (Ok v, s1).
Proof.
  intros X Y m x s v s1 I E. rewrite I in E. unfold default_fit_score, bind in E. destruct (md_fit m x None s) as [[[]|e] s'] eqn:F; [exists s'; auto|discriminate].
Qed.
Theorem C115_integration_program : forall X Y (m : Model X Y R) s0 data ss, inherits m -> yields m s0 (map fst data) ss -> integration_example m s0 data = AUROC (combine (map snd data) ss).
Proof.
  intros X Y m s0 data ss I Yi. rewrite <- (C115_short_program X Y m s0 data ss Yi).
  assert (G : forall data s0 ss T P, yields m s0 (map fst data) ss -> iterM (integration_step m) data (s0, mkSK T P) = iterM (short_step m) data (s0, mkSK T P)).
  { clear - I. induction data as [|[x y] data IH]; intros s0 ss T P Yi; auto. cbn [map fst] in Yi. apply yields_cons in Yi. destruct Yi as (v & s & ss' & s1 & -> & N & F & Yi). destruct (fit_then_score _ _ m x s0 v s1 I F) as (s' & F1 & F2).
    assert (S1 : integration_step m (x, y) (s0, mkSK T P) = (Ok tt, (s1, mkSK (T ++ [y]) (P ++ [v])))) by (unfold integration_step, bind, zoom; cbn [fst snd]; rewrite F1; cbn [fst snd]; rewrite F2; reflexivity).
    assert (S2 : short_step m (x, y) (s0, mkSK T P) = (Ok tt, (s1, mkSK (T ++ [y]) (P ++ [v])))) by (unfold short_step, bind, zoom; cbn [fst snd]; rewrite F; reflexivity).
    cbn [iterM]. unfold bind. rewrite S1, S2. eapply IH; eauto. }
  unfold integration_example, short_example, eval, bind. rewrite (G data s0 ss [] [] Yi). reflexivity.
Qed.
Print Assumptions C115_integration_program.

(** The scores of the i-th instance, one per detector. *)
Definition row {A} (z : A) (cols : list (list A)) (i : nat) : list A := map (fun ss => nth i ss z) cols.
Lemma dets_ok : forall X Y (x : X) xs (ds : list (detector X Y R)) cols, Forall2 (fun d ss => inherits (dt_model d) /\ yields (dt_model d) (dt_state d) (x :: xs) ss) ds cols ->
  exists ds', dets_step x ds = (Ok (map FinV (row 0 cols 0)), ds') /\ Forall2 (fun d ss => inherits (dt_model d) /\ yields (dt_model d) (dt_state d) xs ss) ds' (map (@tl R) cols) /\ length ds' = length ds.
Proof.
  intros X Y x xs ds cols F. induction F as [|[m s0] ss ds cols [I Yi] F IH]; [exists []; repeat split; constructor|]. cbn [dt_model dt_state] in *. apply yields_cons in Yi. destruct Yi as (v & s & ss' & s1 & -> & N & Fs & Yi).
  destruct (fit_then_score _ _ m x s0 v s1 I Fs) as (s' & F1 & F2). destruct IH as (ds' & E & FF & LL). exists (mkDet m s1 :: ds'). split; [|split; [constructor; auto|cbn; lia]].
  assert (Es : det_step x (mkDet m s0) = (Ok (FinV s), mkDet m s1)). { unfold det_step. cbn [dt_model dt_state]. unfold bind. rewrite F1, F2. unfold lift. destruct N as [->| ->]; reflexivity. }
  cbn [dets_step]. rewrite Es, E. reflexivity.
Qed.
Lemma finite_row_ok : forall l : list R, finite_row (map FinV l) = Ok l.
Proof. unfold finite_row. induction l as [|a l IH]; auto. cbn. cbn in IH. rewrite IH. reflexivity. Qed.
Lemma ensemble_run : forall X Y (combine' : list R -> res R) (g : list R -> R), (forall l, l <> [] -> combine' l = Ok (g l)) ->
  forall (data : list (X * bool)) (ds : list (detector X Y R)) cols T P, ds <> [] -> Forall2 (fun d ss => inherits (dt_model d) /\ yields (dt_model d) (dt_state d) (map fst data) ss) ds cols ->
  exists ds', iterM (ensemble_step (ScoreEnsembler combine')) data (ds, tt, mkSK T P) =
    (Ok tt, (ds', tt, mkSK (T ++ map snd data) (P ++ map (fun i => VArray [g (row 0 cols i)]) (seq 0 (length data))))).
Proof.
  intros X Y cb g Hg data. induction data as [|[x y] data IH]; intros ds cols T P Ne F.
  - exists ds. cbn. rewrite !app_nil_r. reflexivity.
  - cbn [map fst] in F. destruct (dets_ok X Y x (map fst data) ds cols F) as (ds1 & E & F1 & L1).
    assert (Ne1 : ds1 <> []) by (intros ->; destruct ds; [congruence|discriminate]). destruct (IH ds1 (map (@tl R) cols) (T ++ [y]) (P ++ [VArray [g (row 0 cols 0)]]) Ne1 F1) as [ds' E'].
    assert (Nr : row 0 cols 0 <> []) by (unfold row; intros Q; apply map_eq_nil in Q; subst cols; inversion F; subst; congruence).
    assert (S1 : ensemble_step (ScoreEnsembler cb) (x, y) (ds, tt, mkSK T P) = (Ok tt, (ds1, tt, mkSK (T ++ [y]) (P ++ [VArray [g (row 0 cols 0)]])))).
    { unfold ensemble_step, bind, zoom, lift. cbn [fst snd]. rewrite E. cbn [fst snd]. rewrite finite_row_ok. unfold pp_fit_transform, bind. cbn [pp_fit pp_transform ScoreEnsembler ret]. unfold bind, lift. rewrite Hg by auto. reflexivity. }
    exists ds'. cbn [iterM]. unfold bind at 1. rewrite S1, E'. cbn [map snd length seq]. rewrite <- (app_assoc T), <- (app_assoc P). cbn [app]. rewrite <- seq_shift, map_map.
    assert (Er : map (fun i => VArray [g (row 0 (map (tl (A:=R)) cols) i)]) (seq 0 (length data)) = map (fun i => VArray [g (row 0 cols (S i))]) (seq 0 (length data))).
    { apply map_ext. intros i. unfold row. rewrite map_map. f_equal. f_equal. f_equal. apply map_ext. intros [|a l]; [destruct i; reflexivity|reflexivity]. }
    rewrite Er. reflexivity.
Qed.
Lemma ensemble_value : forall X Y (combine' : list R -> res R) (g : list R -> R), (forall l, l <> [] -> combine' l = Ok (g l)) ->
  forall (data : list (X * bool)) (ds : list (detector X Y R)) cols, ds <> [] -> Forall2 (fun d ss => inherits (dt_model d) /\ yields (dt_model d) (dt_state d) (map fst data) ss) ds cols ->
  ensemble_example (ScoreEnsembler combine') tt ds data = AUROC (combine (map snd data) (map (fun i => g (row 0 cols i)) (seq 0 (length data)))).
Proof.
  intros X Y cb g Hg data ds cols Ne F. destruct (ensemble_run X Y cb g Hg data ds cols [] [] Ne F) as [ds' E]. unfold ensemble_example, eval, bind at 1. 
  match goal with |- context [iterM (ensemble_step (ScoreEnsembler cb)) data ?st] => set (run := iterM (ensemble_step (ScoreEnsembler cb)) data st) end.
  assert (E' : run = (Ok tt, (ds', tt, mkSK (map snd data) (map (fun i => VArray [g (row 0 cols i)]) (seq 0 (length data)))))) by exact E. rewrite E'. clear E E' run.
  refine (example_get _ snd (map snd data) (map (fun i => VArray [g (row 0 cols i)]) (seq 0 (length data))) _ _ _ (_, mkSK (map snd data) _) (fun u s => (fst s, u)) eq_refl).
  - generalize 0%nat. induction (length data) as [|n IH]; intros k; constructor; auto. right. reflexivity.
  - rewrite !map_length, seq_length. reflexivity.
Qed.
(** The program prints the AUROC of the combined scores of each instance. *)
Theorem C115_ensemble_program : forall X Y (data : list (X * bool)) (ds : list (detector X Y R)) cols, ds <> [] ->
  Forall2 (fun d ss => inherits (dt_model d) /\ yields (dt_model d) (dt_state d) (map fst data) ss) ds cols ->
  let printed (g : list R -> R) := AUROC (combine (map snd data) (map (fun i => g (row 0 cols i)) (seq 0 (length data)))) in
  ensemble_example (AverageScoreEnsembler None) tt ds data = printed mean /\ ensemble_example MaximumScoreEnsembler tt ds data = printed Rmaximum /\
  ensemble_example MedianScoreEnsembler tt ds data = printed median_fn.
Proof.
  intros X Y data ds cols Ne F printed. split; [|split]; apply ensemble_value; auto; intros l N.
  - apply np_mean_R; auto.
  - apply np_max_R; auto.
  - apply np_median_R; auto.
Qed.
Print Assumptions C115_ensemble_program.

(** LODA scores every instance the same, so adding it to the averaged detectors, as the program does, changes nothing of what is printed. *)
Lemma rescore_combine : forall f (ys : list bool) ss, combine ys (map f ss) = rescore f (combine ys ss).
Proof. intros f. induction ys as [|y ys IH]; intros [|s ss]; auto. cbn. f_equal. apply IH. Qed.
Theorem C115_ensemble_with_LODA : forall Y randn perms nb c d (data : list (list R * bool)) (ds : list (detector (list R) Y R)) cols, (1 <= nb)%nat -> (1 <= c)%nat -> Forall (fun q => length (fst q) = d) data ->
  ds <> [] -> Forall2 (fun d ss => inherits (dt_model d) /\ yields (dt_model d) (dt_state d) (map fst data) ss) ds cols ->
  ensemble_example (AverageScoreEnsembler None) tt (ds ++ [mkDet (Loda randn perms nb c : Model (list R) Y R) LODA_init]) data = ensemble_example (AverageScoreEnsembler None) tt ds data.
Proof.
  intros Y randn perms nb c d data ds cols Hnb Hc Fd Ne F.
  assert (F2 : Forall2 (fun d ss => inherits (dt_model d) /\ yields (dt_model d) (dt_state d) (map fst data) ss) (ds ++ [mkDet (Loda randn perms nb c : Model (list R) Y R) LODA_init]) (cols ++ [repeat (loda_constant nb c) (length (map fst data))])).
  { apply Forall2_app; auto. constructor; [|constructor]. split; [intros x y s; reflexivity|]. cbn [dt_model dt_state]. refine (loda_yields Y randn perms nb c d (map fst data) [] Hnb Hc _). apply Forall_map. exact Fd. }
  destruct (C115_ensemble_program _ Y data _ _ Ne F) as (-> & _). assert (Ne2 : ds ++ [mkDet (Loda randn perms nb c : Model (list R) Y R) LODA_init] <> []) by (destruct ds; discriminate).
  destruct (C115_ensemble_program _ Y data _ _ Ne2 F2) as (-> & _).
  assert (Lc : (1 <= length cols)%nat) by (rewrite <- (Forall2_length _ _ _ _ _ F); destruct ds; [congruence|cbn; lia]). apply le_INR in Lc. cbn [INR] in Lc.
  set (f := fun v => (INR (length cols) * v + loda_constant nb c) / (INR (length cols) + 1)).
  assert (E : map (fun i => mean (row 0 (cols ++ [repeat (loda_constant nb c) (length (map fst data))]) i)) (seq 0 (length data)) = map f (map (fun i => mean (row 0 cols i)) (seq 0 (length data)))).
  { rewrite map_map. apply map_ext_in. intros i Ii. apply in_seq in Ii. unfold row, f, mean, Rlen. rewrite map_app, Rsum_app, app_length, !map_length, plus_INR. cbn [map length INR].
    assert (Nc : nth i (repeat (loda_constant nb c) (length data)) 0 = loda_constant nb c).
    { apply (repeat_spec (length data)). apply nth_In. rewrite repeat_length. lia. }
    rewrite Nc. change (Rsum [loda_constant nb c]) with (loda_constant nb c + 0). field. split; lra. }
  rewrite E, rescore_combine. apply C102_auroc_order_only. intros q q' _ _ Hq. unfold f. apply Rmult_lt_compat_r; [apply Rinv_0_lt_compat; lra|]. nra.
Qed.
Print Assumptions C115_ensemble_with_LODA.

(** ** example_statistics.py: the mean and the standard deviation of the data. *)
Lemma statistics_run : forall (xs : list R) a v, iterM statistics_step xs (a, v) = (Ok tt, (fold_left (mt_do AverageMeter) (map Upd xs) a, fold_left (mt_do VarianceMeter) (map Upd xs) v)).
Proof. induction xs as [|x xs IH]; intros a v; [reflexivity|]. cbn [iterM map fold_left]. unfold bind at 1. cbn. apply IH. Qed.
Theorem C115_statistics_program : forall xs : list R, (xs <> [] -> statistics_example xs = Ok (mean xs, std xs)) /\ (xs = [] -> statistics_example xs = Raise ZeroDivisionError).
Proof.
  intros xs. assert (V : valid Rdec (map Upd xs)). { unfold valid. generalize (@nil R). induction xs as [|x xs IH]; intros l; cbn; auto. }
  destruct (C16_average_meter (map Upd xs) V) as [A1 A2]. destruct (C17_variance_meter (map Upd xs) V) as [V1 V2]. rewrite replay_updates in *.
  unfold statistics_example, eval, bind. rewrite statistics_run.
  assert (GA : mt_get AverageMeter (mt_run (AverageMeter (A := R)) (map Upd xs)) = (mt_answer AverageMeter (map Upd xs), mt_run AverageMeter (map Upd xs))) by reflexivity.
  split; intros N.
  - assert (N' : rev xs <> []) by (intros Q; apply N; rewrite <- (rev_involutive xs), Q; reflexivity). specialize (A1 N'). specialize (V1 N').
    unfold zoom. cbn [fst snd]. change (fold_left (mt_do AverageMeter) (map Upd xs) (mt_init AverageMeter)) with (mt_run (AverageMeter (A := R)) (map Upd xs)). rewrite GA, A1. cbn [fst snd].
    unfold mt_answer, eval in V1. change (fold_left (mt_do VarianceMeter) (map Upd xs) (mt_init VarianceMeter)) with (mt_run (VarianceMeter (A := R)) (map Upd xs)).
    destruct (mt_get VarianceMeter (mt_run VarianceMeter (map Upd xs))) as [rv sv]. cbn [fst] in V1. subst rv. cbn. unfold std. 
    rewrite <- (mean_perm xs (rev xs) (Permutation_rev xs)), <- (variance_perm xs (rev xs) (Permutation_rev xs)). reflexivity.
  - subst xs. cbn [rev] in A2. specialize (A2 eq_refl). unfold zoom. cbn [fst snd]. change (fold_left (mt_do AverageMeter) (map Upd []) (mt_init AverageMeter)) with (mt_run (AverageMeter (A := R)) (map Upd [])). rewrite GA, A2. reflexivity.
Qed.
Print Assumptions C115_statistics_program.

(** The hypotheses are met: two features, three instances of both classes; a scripted detector; a preprocessor that passes rows on. *)
Example C115_ex : forall randn perms,
  short_example (Loda randn perms 3 2 : Model (list R) R R) LODA_init [([1; 2], false); ([3; 4], true); ([5; 7], false)] = Ok (1 / 2) /\
  ensemble_example (AverageScoreEnsembler None) tt [mkDet (NullModel 7 : Model (list R) R R) tt; mkDet (Loda randn perms 3 2 : Model (list R) R R) LODA_init] [([1; 2], false); ([3; 4], true); ([5; 7], false)] = Ok (1 / 2).
Proof.
  intros randn perms. assert (Fd : Forall (fun q : list R * bool => length (fst q) = 2%nat) [([1; 2], false); ([3; 4], true); ([5; 7], false)]) by (repeat constructor). split.
  - apply (C115_short_program_measures_nothing R randn perms 3 2 2); auto; cbn; auto.
  - assert (F : Forall2 (fun (d : detector (list R) R R) ss => inherits (dt_model d) /\ yields (dt_model d) (dt_state d) [[1; 2]; [3; 4]; [5; 7]] ss) [mkDet (NullModel 7 : Model (list R) R R) tt] [[7; 7; 7]]).
    { constructor; [|constructor]. split; [intros x y s; reflexivity|]. split; [reflexivity|]. repeat constructor. }
    etransitivity; [exact (C115_ensemble_with_LODA R randn perms 3 2 2 _ [mkDet (NullModel 7 : Model (list R) R R) tt] _ ltac:(lia) ltac:(lia) Fd ltac:(discriminate) F)|].
    destruct (C115_ensemble_program _ R [([1; 2], false); ([3; 4], true); ([5; 7], false)] [mkDet (NullModel 7 : Model (list R) R R) tt] _ ltac:(discriminate) F) as (-> & _).
    apply (C102_constant_scores _ 7).
    + intros q I. cbn in I. repeat (destruct I as [<-|I]; [cbn; unfold mean, Rlen, row, Rsum; cbn; lra|]). destruct I.
    + intros Q. discriminate.
    + intros Q. discriminate.
Qed.
(** The rows of the refutation exist: InstanceUnitNormScaler, as in the program, on four copies of an instance; w = 2 and k = 1. *)
Example C115_usage_ex : exists (m : Model (list (npres R)) unit R) s0 labels ss, length labels = 4%nat /\ yields m s0 (repeat [FinV (3 / 4); FinV (-4 / 4)] 4) ss /\ AUROC (combine labels ss) = Ok 1 /\
  usage_example (UnitNorm OInf) m tt s0 2 (combine (repeat [3; -4] 4) labels) = Ok (INR 2 / INR (2 + 1)).
Proof.
  apply (C115_usage_keeps_the_ranking_refuted (list R) (UnitNorm OInf) tt 2 1 (repeat [3; -4] 4)); [lia|reflexivity|].
  assert (E := C45_ex). unfold scales_to in E.
  assert (E2 : tr_fit_transform (UnitNorm OInf) (AInst [3; -4]) tt = (Ok (VArray [FinV (3 / 4); FinV (-4 / 4)]), tt)) by exact E.
  cbn [repeat]. repeat (apply Forall2_cons; [exact E2|]). apply Forall2_nil.
Qed.
