(** * Properties of pysad/evaluation (C28-C32). *)
From Coq Require Import List ZArith Lia Bool Reals Lra Arith.
From Verif Require Import Base Num Spec Model_Stats Model_Eval P_Lists P_Stats P_Core P_Eval.
Import ListNotations.
Open Scope R_scope.

(** A client history: [Some (y, p)] is update(y, p), [None] is a call of get() whose outcome
    (value or exception) the client ignores. *)
Definition client_step {Y P B K} (m : Metric Y P B K) (s : me_state m) (o : option (Y * P)) : me_state m :=
  match o with Some (y, p) => exec (me_update m y p) s | None => exec (me_get m) s end.
Definition given {X} (h : list (option X)) : list X := flat_map (fun o => match o with Some x => [x] | None => [] end) h.

(** ** C28 *)
Theorem C28_metric_evaluates_whole_history : forall Y P B K (sklearn : list Y -> list P -> res B) (h : list (option (Y * P))),
  exists s0, me_init (SKMetric (K := K) sklearn) [] = Ok s0 /\
    let s := fold_left (client_step (SKMetric (K := K) sklearn)) h s0 in
    me_get (SKMetric (K := K) sklearn) s = (sklearn (map fst (given h)) (map snd (given h)), s).
Proof.
  intros Y P B K sk h. eexists. split; [reflexivity|].
  assert (G : forall h (s : skst Y P), fold_left (client_step (SKMetric (K := K) sk)) h s =
    mkSK (sk_true s ++ map fst (given h)) (sk_pred s ++ map snd (given h))).
  { clear. induction h as [|[[y p]|] h IH]; intros s; cbn [fold_left].
    - simpl. rewrite !app_nil_r. destruct s; reflexivity.
    - rewrite IH. cbn. rewrite <- !app_assoc. reflexivity.
    - rewrite IH. cbn. reflexivity. }
  rewrite G. reflexivity.
Qed.
Print Assumptions C28_metric_evaluates_whole_history.
(** The four shipped metrics are instances. *)
Theorem C28_shipped_metrics : forall Y P B K (precision recall aupr : list Y -> list P -> res B) (h : list (Y * P)),
  metric_value (PrecisionMetric (K := K) precision) [] h = precision (map fst h) (map snd h) /\
  metric_value (RecallMetric (K := K) recall) [] h = recall (map fst h) (map snd h) /\
  metric_value (AUPRMetric (K := K) aupr) [] h = aupr (map fst h) (map snd h).
Proof. intros. split; [|split]; apply sk_value. Qed.
Print Assumptions C28_shipped_metrics.
Example C28_ex : metric_value (PrecisionMetric (K := unit) (fun ys ps : list nat => Ok (length ys, ps))) [] [(1, 0); (0, 1)]%nat = Ok (2, [0; 1])%nat.
Proof. reflexivity. Qed.

(** ** C29 *)
Lemma nodup_short : forall Y (dec : forall a b : Y, {a = b} + {a <> b}) ys,
  (length (nodup dec ys) <= 1)%nat <-> forall a b, In a ys -> In b ys -> a = b.
Proof.
  intros Y dec ys. split.
  - intros L a b Ha Hb. apply (nodup_In dec) in Ha. apply (nodup_In dec) in Hb.
    destruct (nodup dec ys) as [|c [|d l]]; simpl in *; try lia; try contradiction.
    destruct Ha as [->|[]], Hb as [->|[]]; auto.
  - intros H. pose proof (NoDup_nodup dec ys) as N.
    assert (forall a, In a (nodup dec ys) -> In a ys) as I by (intros; eapply nodup_In; eauto).
    destruct (nodup dec ys) as [|c [|d l]]; simpl; try lia.
    inversion N; subst. exfalso. apply H2. left. symmetry. apply H; apply I; simpl; auto.
Qed.
Theorem C29_auroc_needs_two_classes : forall Y P B K dec (roc : list Y -> list P -> res B) (h : list (Y * P)),
  ((forall a b, In a (map fst h) -> In b (map fst h) -> a = b) ->
     metric_value (AUROCMetric (K := K) dec roc) [] h = Raise ValueError) /\
  ((exists a b, In a (map fst h) /\ In b (map fst h) /\ a <> b) ->
     metric_value (AUROCMetric (K := K) dec roc) [] h = roc (map fst h) (map snd h)).
Proof.
  intros. unfold AUROCMetric. rewrite sk_value. unfold auroc_evaluate. split.
  - intros H. apply nodup_short with (dec := dec) in H. destruct (Nat.leb_spec (length (nodup dec (map fst h))) 1); auto; lia.
  - intros (a & b & Ha & Hb & N). destruct (Nat.leb_spec (length (nodup dec (map fst h))) 1) as [L|L]; auto.
    exfalso. apply N. eapply nodup_short; eauto.
Qed.
Print Assumptions C29_auroc_needs_two_classes.
Example C29_ex : let m := AUROCMetric (K := unit) Nat.eq_dec (fun ys (ps : list nat) => Ok (length ys)) in
  metric_value m [] [(1, 5); (1, 6)]%nat = Raise ValueError /\ metric_value m [] [(1, 5); (0, 6)]%nat = Ok 2%nat
  /\ metric_value m [] [] = Raise ValueError.
Proof. split; [|split]; reflexivity. Qed.

(** ** C30 *)
Notation updates m h := (iterM (fun q => WindowedMetric_update m (fst q) (snd q)) h).
Theorem C30_windowed_metric : forall Y P K (m : Metric Y P R K) ignore_last w kw m1 s0 h vals,
  total_updates m -> (1 <= w)%nat -> me_init m [] = Ok m1 ->
  WindowedMetric_init m (Z.of_nat w) ignore_last kw = Ok s0 ->
  length vals = (length h / w)%nat ->
  (forall i v, nth_error vals i = Some v -> metric_value m (if (i =? 0)%nat then kw else []) (block w i h) = Ok v) ->
  exists s, updates m h s0 = (Ok tt, s) /\
    ((length h < w)%nat -> eval (WindowedMetric_get m) s = metric_value m kw h) /\
    ((w <= length h)%nat -> ignore_last = true \/ (length h mod w = 0)%nat ->
       eval (WindowedMetric_get m) s = Ok (mean vals)) /\
    ((w <= length h)%nat -> ignore_last = false -> (length h mod w <> 0)%nat ->
       eval (WindowedMetric_get m) s =
       rmap (fun v => mean (vals ++ [v])) (metric_value m [] (skipn (length h / w * w) h))).
Proof.
  intros Y P K m ig w kw m1 s0 h vals T Hw Em E0 Lv Hv.
  destruct (wm_run m T ig w kw m1 s0 Hw Em E0 h vals Lv Hv) as (s & Es & I).
  exists s. split; auto. rewrite (wm_get_inv m ig w kw h vals s Hw I). split; [|split].
  - intros L. rewrite Nat.div_small in Lv by auto. destruct vals; [reflexivity|discriminate].
  - intros L C. assert (vals <> []). { intros ->. simpl in Lv. symmetry in Lv. apply Nat.div_small_iff in Lv; lia. }
    destruct vals; [congruence|]. destruct C as [->|C]; [reflexivity|]. rewrite C. simpl. rewrite andb_false_r. reflexivity.
  - intros L -> C. assert (vals <> []). { intros ->. simpl in Lv. symmetry in Lv. apply Nat.div_small_iff in Lv; lia. }
    destruct vals; [congruence|]. destruct (Nat.eqb_spec (length h mod w) 0); [lia|]. cbn [negb andb]. rewrite Lv. reflexivity.
Qed.
Print Assumptions C30_windowed_metric.
(** For the sklearn-backed metrics (constructed without arguments) the value of a block is the
    sklearn function of that block. *)
Theorem C30_windowed_sklearn_metric : forall Y P (ev : list Y -> list P -> res R) ignore_last w h vals,
  (1 <= w)%nat -> length vals = (length h / w)%nat ->
  (forall i v, nth_error vals i = Some v -> ev (map fst (block w i h)) (map snd (block w i h)) = Ok v) ->
  let m := SKMetric (K := unit) ev in
  exists s0 s, WindowedMetric_init m (Z.of_nat w) ignore_last [] = Ok s0 /\ updates m h s0 = (Ok tt, s) /\
    WindowedMetric_get m s =
    ((if (length h <? w)%nat then ev (map fst h) (map snd h)
      else if ignore_last || (length h mod w =? 0)%nat then Ok (mean vals)
      else let rest := skipn (length h / w * w) h in
           rmap (fun v => mean (vals ++ [v])) (ev (map fst rest) (map snd rest))), s).
Proof.
  intros Y P ev ig w h vals Hw Lv Hv m.
  destruct (C30_windowed_metric Y P unit m ig w [] (mkSK [] []) (mkWM ig (Z.of_nat w) (mkSK [] []) (mt_init AverageMeter) 0 1) h vals) as (s & Es & A1 & A2 & A3); auto.
  - intros y p s. eexists. reflexivity.
  - intros i v Hi. replace (if (i =? 0)%nat then [] else []) with (@nil unit) by (destruct (i =? 0)%nat; auto).
    unfold m. rewrite sk_value. eauto.
  - exists (mkWM ig (Z.of_nat w) (mkSK [] []) (mt_init AverageMeter) 0 1), s. split; [reflexivity|]. split; auto.
    assert (PG : snd (WindowedMetric_get m s) = s) by (apply wm_get_pure; intros s1; reflexivity).
    unfold eval in A1, A2, A3. destruct (WindowedMetric_get m s) as [r s1]. simpl in PG. subst s1. cbn [fst] in *. f_equal.
      destruct (Nat.ltb_spec (length h) w) as [L|L].
      * rewrite A1 by auto. unfold m. apply sk_value.
      * destruct ig; [apply A2; auto|]. destruct (Nat.eqb_spec (length h mod w) 0) as [Q|Q]; simpl.
        -- apply A2; auto.
        -- rewrite A3 by auto. unfold m. rewrite sk_value. reflexivity.
Qed.
Print Assumptions C30_windowed_sklearn_metric.
Theorem C30_zero_window : forall Y P K (m : Metric Y P R K) ig kw s0 y p, total_updates m ->
  WindowedMetric_init m 0 ig kw = Ok s0 -> fst (WindowedMetric_update m y p s0) = Raise ZeroDivisionError.
Proof.
  intros Y P K m ig kw s0 y p T E. unfold WindowedMetric_init in E. destruct (me_init m kw) as [mk|e]; [|discriminate].
  inversion E; subst. unfold WindowedMetric_update, bind, modify, zoom, gets, lift. cbn.
  destruct (T y p mk) as [s' Es]. rewrite Es. reflexivity.
Qed.
Print Assumptions C30_zero_window.
(** Example: the metric is the number of labels equal to 1, windows of 2. *)
Definition ones (ys : list nat) (ps : list nat) : res R := Ok (INR (count_occ Nat.eq_dec ys 1%nat)).
Example C30_ex : exists s0 s, WindowedMetric_init (SKMetric (K := unit) ones) 2 false [] = Ok s0 /\
  updates (SKMetric (K := unit) ones) [(1, 0); (1, 0); (0, 0); (1, 0); (0, 0)]%nat s0 = (Ok tt, s) /\
  WindowedMetric_get (SKMetric (K := unit) ones) s = (Ok 1, s).
Proof.
  destruct (C30_windowed_sklearn_metric nat nat ones false 2 [(1, 0); (1, 0); (0, 0); (1, 0); (0, 0)]%nat [2; 1]) as (s0 & s & E0 & Es & G).
  - lia. - reflexivity.
  - intros [|[|[|i]]] v H; inversion H; subst; reflexivity.
  - exists s0, s. split; auto. split; auto. rewrite G. cbn. do 3 f_equal. unfold mean, Rlen; simpl. lra.
Qed.

(** ** C31 *)
(** A metric class with a threshold keyword argument (default 0): the number of predictions
    above it. *)
Definition ThresholdMetric : Metric nat nat R nat := {|
  me_state := (nat * nat)%type;
  me_init := fun kw => match kw with [] => Ok (0, 0)%nat | [t] => Ok (t, 0)%nat | _ => Raise TypeError end;
  me_update := fun y p => modify (fun s => (fst s, snd s + if (fst s <? p)%nat then 1 else 0)%nat);
  me_get := gets (fun s => INR (snd s))
|}.
Theorem C31_only_first_window_gets_kwargs : forall Y P K (m : Metric Y P R K) ig w kw m1 s0 h vals,
  total_updates m -> (1 <= w)%nat -> me_init m [] = Ok m1 ->
  WindowedMetric_init m (Z.of_nat w) ig kw = Ok s0 ->
  (w <= length h)%nat -> (length h mod w = 0)%nat -> length vals = (length h / w)%nat ->
  (forall i v, nth_error vals i = Some v -> metric_value m (if (i =? 0)%nat then kw else []) (block w i h) = Ok v) ->
  exists s, updates m h s0 = (Ok tt, s) /\ eval (WindowedMetric_get m) s = Ok (mean vals).
Proof.
  intros Y P K m ig w kw m1 s0 h vals T Hw Em E0 L1 L2 Lv Hv.
  destruct (C30_windowed_metric Y P K m ig w kw m1 s0 h vals T Hw Em E0 Lv Hv) as (s & Es & _ & A & _).
  exists s. split; auto.
Qed.
Print Assumptions C31_only_first_window_gets_kwargs.
Theorem C31_kwargs_reach_every_window_refuted : exists (kw : list nat) w h s0 s,
  WindowedMetric_init ThresholdMetric (Z.of_nat w) true kw = Ok s0 /\
  updates ThresholdMetric h s0 = (Ok tt, s) /\
  (length h = 2 * w)%nat /\
  metric_value ThresholdMetric kw (block w 0 h) = Ok 0 /\ metric_value ThresholdMetric kw (block w 1 h) = Ok 0 /\
  eval (WindowedMetric_get ThresholdMetric) s = Ok 1.
Proof.
  set (h := [(0, 3); (0, 4); (0, 3); (0, 4)]%nat). set (s0 := mkWM true 2 (5, 0)%nat (mt_init AverageMeter) 0 1 : wmst (nat * nat) R).
  destruct (C31_only_first_window_gets_kwargs nat nat nat ThresholdMetric true 2 [5%nat] (0, 0)%nat s0 h [0; 2]) as (s & Es & A); auto.
  - intros y p s. eexists. reflexivity.
  - simpl; lia.
  - intros [|[|[|i]]] v H; inversion H; subst; reflexivity.
  - exists [5%nat], 2%nat, h, s0, s. repeat (split; [reflexivity || auto|]). rewrite A. f_equal. unfold mean, Rlen; simpl. lra.
Qed.
Print Assumptions C31_kwargs_reach_every_window_refuted.
(** The shipped metrics take no arguments at all. *)
Theorem C31_shipped_metrics_reject_kwargs : forall Y P K (ev : list Y -> list P -> res R) w ig (k : K) kw,
  WindowedMetric_init (SKMetric ev) w ig (k :: kw) = Raise TypeError.
Proof. reflexivity. Qed.
Print Assumptions C31_shipped_metrics_reject_kwargs.

(** ** C32 *)
Theorem C32_failure_effect : forall Y P K (m : Metric Y P R K) s y p ms e ms',
  wm_size s <> 0%Z -> me_update m y p (wm_metric s) = (Ok tt, ms) -> me_get m ms = (Raise e, ms') ->
  ((wm_step s + 1) mod wm_size s = 0)%Z ->
  exists s', WindowedMetric_update m y p s = (Raise e, s') /\
    wm_step s' = (wm_step s + 1)%Z /\ wm_num s' = (wm_num s + 1)%Z /\
    wm_meter s' = wm_meter s /\ wm_metric s' = ms' /\ wm_size s' = wm_size s /\ wm_ignore s' = wm_ignore s.
Proof.
  intros Y P K m s y p ms e ms' Hs Hu Hg Hm.
  unfold WindowedMetric_update, bind, modify, zoom, gets, lift, pymod, set_wm_step, set_wm_metric.
  cbn [wm_metric wm_step wm_size]. rewrite Hu. cbn [wm_metric wm_step wm_size].
  destruct (Z.eqb_spec (wm_size s) 0); [lia|]. rewrite Hm. cbn [Z.eqb set_wm_num wm_metric]. rewrite Hg.
  eexists. split; [reflexivity|]. cbn. auto 10.
Qed.
Print Assumptions C32_failure_effect.
(** After a failed first window, get() crashes with ZeroDivisionError although the caller
    handled the metric's own exception. *)
Theorem C32_get_after_failed_first_window : forall Y P K (m : Metric Y P R K) w kw s0 h s y p e s',
  (1 <= w)%nat -> total_updates m -> me_init m [] <> Raise e ->
  WindowedMetric_init m (Z.of_nat w) true kw = Ok s0 -> (length h + 1 = w)%nat ->
  updates m h s0 = (Ok tt, s) -> WindowedMetric_update m y p s = (Raise e, s') ->
  eval (WindowedMetric_get m) s' = Raise ZeroDivisionError.
Proof.
  intros Y P K m w kw s0 h s y p e s' Hw T Ne E0 L Eh Eu.
  assert (I : wm_size s = Z.of_nat w /\ wm_step s = Z.of_nat (length h) /\ wm_num s = 1%Z /\ wm_meter s = mkSum 0 0 /\ wm_ignore s = true).
  { assert (G : forall h s1 s, wm_size s1 = Z.of_nat w -> (0 <= wm_step s1)%Z -> (wm_step s1 + Z.of_nat (length h) < Z.of_nat w)%Z ->
      wm_num s1 = 1%Z -> wm_meter s1 = mkSum 0 0 -> wm_ignore s1 = true ->
      updates m h s1 = (Ok tt, s) ->
      wm_size s = Z.of_nat w /\ wm_step s = (wm_step s1 + Z.of_nat (length h))%Z /\ wm_num s = 1%Z /\ wm_meter s = mkSum 0 0 /\ wm_ignore s = true).
    { clear - T. induction h as [|[y p] h IH]; intros s1 s A1 A2 A3 A4 A5 A6 E.
      - inversion E; subst. simpl. rewrite Z.add_0_r. auto 10.
      - cbn [iterM] in E. unfold bind at 1 in E.
        cbn [fst snd] in E.
        unfold WindowedMetric_update at 1, bind, modify, zoom, gets, lift, pymod, set_wm_step, set_wm_metric in E.
        cbn [wm_metric wm_step wm_size] in E. destruct (T y p (wm_metric s1)) as [ms Em]. rewrite Em in E.
        cbn [wm_metric wm_step wm_size wm_ignore wm_num wm_meter] in E. rewrite A1 in E.
        destruct (Z.eqb_spec (Z.of_nat w) 0); [lia|].
        cbn [length] in A3. rewrite Z.mod_small in E by lia.
        destruct (Z.eqb_spec (wm_step s1 + 1) 0); [lia|]. cbn [ret] in E. unfold ret in E.
        apply IH in E; cbn [wm_metric wm_step wm_size wm_ignore wm_num wm_meter] in *; auto; try lia.
        destruct E as (B1 & B2 & B3). repeat split; try tauto. rewrite B2. cbn [length]. lia. }
    unfold WindowedMetric_init in E0. destruct (me_init m kw) as [mk|]; [|discriminate]. inversion E0; subst s0.
    apply G in Eh; cbn [wm_metric wm_step wm_size wm_ignore wm_num wm_meter] in *; auto; try lia. }
  destruct I as (I1 & I2 & I3 & I4 & I5).
  destruct (T y p (wm_metric s)) as [ms Em].
  unfold WindowedMetric_update, bind, modify, zoom, gets, lift, pymod, set_wm_step, set_wm_metric in Eu.
  cbn [wm_metric wm_step wm_size] in Eu. rewrite Em in Eu. cbn [wm_metric wm_step wm_size wm_ignore wm_num wm_meter] in Eu.
  rewrite I1, I2 in Eu. destruct (Z.eqb_spec (Z.of_nat w) 0); [lia|].
  replace (Z.of_nat (length h) + 1)%Z with (Z.of_nat w) in Eu by lia. rewrite Z.mod_same in Eu by lia.
  cbn [Z.eqb set_wm_num wm_metric] in Eu.
  destruct (me_get m ms) as [[v|e1] ms1].
  - cbn in Eu. destruct (me_init m []) eqn:E1; [discriminate|]. inversion Eu; subst. congruence.
  - inversion Eu; subst. cbn in *. rewrite I3, I4, I5. reflexivity.
Qed.
Print Assumptions C32_get_after_failed_first_window.
(** And the next window mixes two windows' data. *)
Definition sizeAUROC := AUROCMetric (K := unit) Nat.eq_dec (fun ys (_ : list nat) => Ok (INR (length ys))).
Theorem C32_next_window_contains_two_refuted : exists s0 s1 s2,
  WindowedMetric_init sizeAUROC 2 true [] = Ok s0 /\
  snd (updates sizeAUROC [(1, 0); (1, 0)]%nat s0) = s1 /\
  fst (updates sizeAUROC [(1, 0); (1, 0)]%nat s0) = Raise ValueError /\
  updates sizeAUROC [(0, 0); (1, 0)]%nat s1 = (Ok tt, s2) /\
  eval (WindowedMetric_get sizeAUROC) s2 = Ok 4.
Proof.
  do 3 eexists. split; [reflexivity|]. split; [reflexivity|]. split; [reflexivity|]. split; [reflexivity|].
  cbn. unfold div_int. cbn. f_equal. lra.
Qed.
Print Assumptions C32_next_window_contains_two_refuted.
Example C32_ex : exists s0, WindowedMetric_init sizeAUROC 2 true [] = Ok s0 /\
  eval (WindowedMetric_get sizeAUROC) (snd (updates sizeAUROC [(1, 0); (1, 0)]%nat s0)) = Raise ZeroDivisionError.
Proof. eexists. split; reflexivity. Qed.
