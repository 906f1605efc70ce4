(** * Lemmas about the meters (pysad/statistics). *)
From Coq Require Import List ZArith Lia Bool Reals Lra Permutation Sorted Arith.
From Verif Require Import Base Num Spec Model_Stats P_Lists.
Import ListNotations.

(** ** Meters that compute a function of the current multiset *)
Section RepTheory.
Context {A B : Type} (m : Meter A B) (spec : list A -> res B).

(** [Rl l s]: the object state [s] represents the multiset [l]. *)
Record Rep (Rl : list A -> mt_state m -> Prop) : Prop := {
  rep_init : Rl [] (mt_init m);
  rep_perm : forall l l' s, Permutation l l' -> Rl l s -> Rl l' s;
  rep_upd : forall l s x, Rl l s -> exists s', mt_update m x s = (Ok tt, s') /\ Rl (x :: l) s';
  rep_rem : forall l s x, Rl (x :: l) s -> exists s', mt_remove m x s = (Ok tt, s') /\ Rl l s';
  rep_get : forall l s, Rl l s -> exists s', mt_get m s = (spec l, s') /\ Rl l s'
}.

(** Removal of an absent value is detected and harmless (order meters only). *)
Definition RepStrict (Rl : list A -> mt_state m -> Prop) : Prop :=
  forall l s x, Rl l s -> ~ In x l -> mt_remove m x s = (Raise ValueError, s).

Variable Rl : list A -> mt_state m -> Prop.
Hypothesis HR : Rep Rl.
Variable dec : forall a b : A, {a = b} + {a <> b}.

Lemma rep_run_from : forall h l s, valid_from dec l h -> Rl l s ->
  Rl (fold_left (replay1 dec) h l) (fold_left (mt_do m) h s).
Proof.
  induction h as [|o h IH]; simpl; intros l s V Hs; auto.
  destruct V as [V W]. apply IH; auto.
  destruct o as [x|x|]; simpl.
  - destruct (rep_upd _ HR l s x Hs) as (s' & E & Hs'). unfold exec. rewrite E. auto.
  - assert (P : Rl (x :: remove1 dec x l) s).
    { eapply rep_perm; [exact HR | symmetry; apply remove1_in_perm; auto | exact Hs]. }
    destruct (rep_rem _ HR _ s x P) as (s' & E & Hs'). unfold exec. rewrite E. auto.
  - destruct (rep_get _ HR l s Hs) as (s' & E & Hs'). unfold exec. rewrite E. auto.
Qed.

Lemma rep_run : forall h, valid dec h -> Rl (replay dec h) (mt_run m h).
Proof. intros. apply rep_run_from; auto. apply rep_init; auto. Qed.

Lemma rep_answer : forall h, valid dec h -> mt_answer m h = spec (replay dec h).
Proof.
  intros h V. destruct (rep_get _ HR _ _ (rep_run h V)) as (s' & E & _).
  unfold mt_answer, eval. rewrite E. reflexivity.
Qed.

Lemma rep_run_strict_from : RepStrict Rl -> forall h l s, Rl l s ->
  Rl (fold_left (replay1 dec) h l) (fold_left (mt_do m) h s).
Proof.
  intros ST. induction h as [|o h IH]; simpl; intros l s Hs; auto.
  apply IH; auto. destruct o as [x|x|]; simpl.
  - destruct (rep_upd _ HR l s x Hs) as (s' & E & Hs'). unfold exec. rewrite E. auto.
  - destruct (in_dec dec x l) as [I|N].
    + assert (P : Rl (x :: remove1 dec x l) s).
      { eapply rep_perm; [exact HR | symmetry; apply remove1_in_perm; auto | exact Hs]. }
      destruct (rep_rem _ HR _ s x P) as (s' & E & Hs'). unfold exec. rewrite E. auto.
    + unfold exec. rewrite (ST l s x Hs N). simpl. rewrite remove1_notin; auto.
  - destruct (rep_get _ HR l s Hs) as (s' & E & Hs'). unfold exec. rewrite E. auto.
Qed.

Lemma rep_run_strict : RepStrict Rl -> forall h, Rl (replay dec h) (mt_run m h).
Proof. intros. apply rep_run_strict_from; auto. apply rep_init; auto. Qed.

Lemma rep_answer_strict : RepStrict Rl -> forall h, mt_answer m h = spec (replay dec h).
Proof.
  intros ST h. destruct (rep_get _ HR _ _ (rep_run_strict ST h)) as (s' & E & _).
  unfold mt_answer, eval. rewrite E. reflexivity.
Qed.

(** Every multiset is reachable, hence the specification is order independent. *)
Lemma rep_reach : forall l, exists s, Rl l s.
Proof.
  induction l as [|x l [s Hs]].
  - exists (mt_init m). apply (rep_init _ HR).
  - destruct (rep_upd _ HR l s x Hs) as (s' & _ & Hs'). eauto.
Qed.
Lemma rep_spec_perm : forall l l', Permutation l l' -> spec l = spec l'.
Proof.
  intros l l' P. destruct (rep_reach l) as [s Hs].
  destruct (rep_get _ HR l s Hs) as (s1 & E1 & _).
  destruct (rep_get _ HR l' s (rep_perm _ HR _ _ _ P Hs)) as (s2 & E2 & _). congruence.
Qed.

(** remove undoes update, observationally. *)
Lemma rep_undo : forall h1 h2 h3 x,
  valid dec (h1 ++ h2 ++ h3) ->
  mt_answer m (h1 ++ [Upd x] ++ h2 ++ [Rem x] ++ h3) = mt_answer m (h1 ++ h2 ++ h3).
Proof.
  intros h1 h2 h3 x V.
  assert (V' := V). unfold valid in V'. rewrite !valid_from_app in V'. destruct V' as (V1 & V2 & V3).
  fold (replay dec h1) in V2, V3. set (l1 := replay dec h1) in *.
  set (l2 := fold_left (replay1 dec) h2 l1) in *.
  assert (HP : forall h l, valid_from dec l h -> valid_from dec (x :: l) h /\
     Permutation (fold_left (replay1 dec) h (x :: l)) (x :: fold_left (replay1 dec) h l)).
  { clear. induction h as [|o h IH]; simpl; intros l V; auto.
    destruct V as [V W]. destruct o as [y|y|]; simpl in *.
    - destruct (IH _ W) as [I1 I2]. split; [split; auto|].
      + eapply valid_from_perm; [|exact I1]. apply perm_swap.
      + rewrite replay_from_perm; [exact I2|]. apply perm_swap.
    - destruct (IH _ W) as [I1 I2].
      assert (Q : Permutation (x :: remove1 dec y l) (if dec y x then l else x :: remove1 dec y l)).
      { destruct (dec y x); auto. subst. apply remove1_in_perm; auto. }
      split; [split; auto|].
      + eapply valid_from_perm; [exact Q | exact I1].
      + rewrite <- I2. apply replay_from_perm. symmetry. exact Q.
    - destruct (IH _ W) as [I1 I2]. auto. }
  destruct (HP h2 l1 V2) as [W2 P2]. fold l2 in P2.
  assert (Vx : valid dec (h1 ++ [Upd x] ++ h2 ++ [Rem x] ++ h3)).
  { unfold valid. rewrite !valid_from_app. split; auto. split; [simpl; auto|].
    simpl fold_left. fold (replay dec h1). fold l1. split; auto. split.
    - simpl. split; auto. eapply Permutation_in; [symmetry; exact P2|left; auto].
    - simpl. eapply valid_from_perm; [|exact V3].
      fold l2. rewrite (remove1_perm _ dec x _ _ P2). simpl. destruct (dec x x); [reflexivity|congruence]. }
  rewrite !rep_answer by assumption.
  apply rep_spec_perm.
  rewrite !replay_app. simpl. rewrite !fold_left_app. simpl. fold l1.
  apply replay_from_perm. fold l2. rewrite (remove1_perm _ dec x _ _ P2).
  simpl. destruct (dec x x); [reflexivity|congruence].
Qed.

(** The windowed statistic. *)
Definition RunRep (w : Z) (xs : list A) (s : runst (mt_state m) A) : Prop :=
  rn_size s = w /\ rn_win s = lastn (Z.to_nat w) xs /\ Rl (lastn (Z.to_nat w) xs) (rn_stat s).

Lemma running_step : forall w xs s x, RunRep w xs s ->
  exists s', RunningStatistic_update m x s = (Ok tt, s') /\ RunRep w (xs ++ [x]) s'.
Proof.
  intros w xs [st sz wn] x (Hz & Hw & Hl). simpl in *. subst sz wn.
  unfold RunningStatistic_update, bind, modify, zoom, gets, lift. simpl.
  destruct (rep_upd _ HR _ _ x Hl) as (s1 & E1 & H1). rewrite E1. simpl.
  assert (HL : (w <? Z.of_nat (length (lastn (Z.to_nat w) xs ++ [x])))%Z = (Z.to_nat w <? length (lastn (Z.to_nat w) xs ++ [x]))).
  { assert (1 <= length (lastn (Z.to_nat w) xs ++ [x])) by (rewrite app_length; simpl; lia).
    destruct (Nat.ltb_spec (Z.to_nat w) (length (lastn (Z.to_nat w) xs ++ [x]))); [apply Z.ltb_lt | apply Z.ltb_ge]; lia. }
  rewrite HL. pose proof (lastn_step A (Z.to_nat w) xs x) as LS.
  assert (H1' : Rl (lastn (Z.to_nat w) xs ++ [x]) s1).
  { eapply rep_perm; [exact HR| |exact H1]. apply Permutation_cons_append. }
  destruct (Z.to_nat w <? length (lastn (Z.to_nat w) xs ++ [x])) eqn:EL.
  - destruct (lastn (Z.to_nat w) xs ++ [x]) as [|x0 rest] eqn:EW; [destruct (lastn (Z.to_nat w) xs); discriminate|].
    unfold py_index. simpl.
    destruct (rep_rem _ HR _ _ _ H1') as (s2 & E2 & H2). rewrite E2.
    eexists; split; [reflexivity|]. unfold RunRep. simpl. rewrite LS. simpl. auto.
  - eexists; split; [reflexivity|]. unfold RunRep. simpl. rewrite LS. auto.
Qed.

Lemma running_steps_from : forall ys w xs s, RunRep w xs s ->
  exists s', iterM (RunningStatistic_update m) ys s = (Ok tt, s') /\ RunRep w (xs ++ ys) s'.
Proof.
  induction ys as [|y ys IH]; intros w xs s Hs; simpl.
  - exists s. rewrite app_nil_r. auto.
  - destruct (running_step w xs s y Hs) as (s1 & E1 & H1).
    destruct (IH w (xs ++ [y]) s1 H1) as (s2 & E2 & H2).
    exists s2. unfold bind. rewrite E1. rewrite <- app_assoc in H2. auto.
Qed.

Lemma running_init : forall w, RunRep w [] (mkRun (mt_init m) w []).
Proof.
  intros. unfold RunRep. simpl. rewrite lastn_nil. split; [|split]; auto. apply rep_init; auto.
Qed.

Lemma running_steps : forall w xs, exists s',
  iterM (RunningStatistic_update m) xs (mkRun (mt_init m) w []) = (Ok tt, s') /\ RunRep w xs s'.
Proof. intros. apply (running_steps_from xs w [] _ (running_init w)). Qed.

Lemma running_get : forall w xs s, RunRep w xs s ->
  exists s', RunningStatistic_get m s = (spec (lastn (Z.to_nat w) xs), s') /\ RunRep w xs s'.
Proof.
  intros w xs [st sz wn] (Hz & Hw & Hl). simpl in *. subst.
  unfold RunningStatistic_get, zoom. simpl.
  destruct (rep_get _ HR _ _ Hl) as (s1 & E1 & H1). rewrite E1.
  eexists; split; eauto. unfold RunRep. simpl. auto.
Qed.

(** A running statistic answers as a fresh statistic fed with the last w values. *)
Lemma running_fresh : forall w xs,
  eval (RunningStatistic_get m)
       (exec (iterM (RunningStatistic_update m) xs) (mkRun (mt_init m) w []))
  = mt_answer m (map (@Upd A) (lastn (Z.to_nat w) xs)).
Proof.
  intros. destruct (running_steps w xs) as (s & E & Hs). unfold exec at 1. rewrite E. simpl.
  destruct (running_get _ _ _ Hs) as (s' & E' & _). unfold eval. rewrite E'. simpl.
  rewrite rep_answer.
  - apply rep_spec_perm. rewrite replay_updates. apply Permutation_rev.
  - apply valid_updates.
Qed.

Lemma rep_fed : forall l, mt_answer m (map (@Upd A) l) = spec l.
Proof.
  intros. rewrite rep_answer by apply valid_updates.
  apply rep_spec_perm. rewrite replay_updates. symmetry. apply Permutation_rev.
Qed.
End RepTheory.
Arguments Rep {A B}.

(** ** The arithmetic meters over R *)
Open Scope R_scope.

Lemma INR_Zof_nat : forall n, IZR (Z.of_nat n) = INR n.
Proof. intros. symmetry. apply INR_IZR_INZ. Qed.

Definition count_spec {A} (l : list A) : res Z := Ok (Z.of_nat (length l)).
Lemma count_rep : forall A, Rep (CountMeter A) count_spec (fun l s => s = Z.of_nat (length l)).
Proof.
  intros A; constructor; simpl; intros; subst; auto.
  - rewrite (Permutation_length H). reflexivity.
  - eexists; split; [reflexivity|]. lia.
  - eexists; split; [reflexivity|]. lia.
  - eexists; split; reflexivity.
Qed.

Definition sum_R (l : list R) (s : sumst R) : Prop := ss_sum s = Rsum l /\ ss_n s = Z.of_nat (length l).
Lemma sum_rep : Rep SumMeter (fun l => Ok (Rsum l)) sum_R.
Proof.
  constructor; unfold sum_R; simpl.
  - auto.
  - intros l l' s P [E N]. rewrite <- (Rsum_perm _ _ P), <- (Permutation_length P). auto.
  - intros l s x [E N]. eexists; split; [reflexivity|]. simpl. rewrite E, N. split; [lra|lia].
  - intros l s x [E N]. eexists; split; [reflexivity|]. simpl. rewrite E, N. split; [lra|lia].
  - intros l s [E N]. eexists. unfold gets. rewrite E. split; eauto.
Qed.

Definition sumsq_R (l : list R) (s : sumst R) : Prop :=
  ss_sum s = Rsum (map (fun x => x * x) l) /\ ss_n s = Z.of_nat (length l).
Lemma sumsq_rep : Rep SumSquaresMeter (fun l => Ok (Rsum (map (fun x => x * x) l))) sumsq_R.
Proof.
  constructor; unfold sumsq_R; simpl.
  - auto.
  - intros l l' s P [E N]. rewrite <- (Rsum_map_perm _ _ _ _ P), <- (Permutation_length P). auto.
  - intros l s x [E N]. eexists; split; [reflexivity|]. unfold nsq. simpl. rewrite E, N. split; [lra|lia].
  - intros l s x [E N]. eexists; split; [reflexivity|]. unfold nsq. simpl. rewrite E, N. split; [lra|lia].
  - intros l s [E N]. eexists. unfold gets. rewrite E. split; eauto.
Qed.

Definition avg_spec (l : list R) : res R :=
  match l with [] => Raise ZeroDivisionError | _ => Ok (mean l) end.
Lemma div_int_len : forall A (l : list A) (a : R),
  div_int a (Z.of_nat (length l)) = match l with [] => Raise ZeroDivisionError | _ => Ok (a / Rlen l) end.
Proof.
  intros A [|x l] a; unfold div_int; auto.
  destruct (Z.eqb_spec (Z.of_nat (length (x :: l))) 0) as [E|E]; [simpl in E; lia|].
  change (ndiv a (nofZ (Z.of_nat (length (x :: l))))) with (a / IZR (Z.of_nat (length (x :: l)))).
  rewrite INR_Zof_nat. reflexivity.
Qed.
Lemma avg_rep : Rep AverageMeter avg_spec sum_R.
Proof.
  constructor; unfold sum_R; simpl.
  - auto.
  - intros l l' s P [E N]. rewrite <- (Rsum_perm _ _ P), <- (Permutation_length P). auto.
  - intros l s x [E N]. eexists; split; [reflexivity|]. simpl. rewrite E, N. split; [lra|lia].
  - intros l s x [E N]. eexists; split; [reflexivity|]. simpl. rewrite E, N. split; [lra|lia].
  - intros l s [E N]. exists s. split; auto. unfold bind, gets, lift. rewrite N, E, div_int_len.
    destruct l; reflexivity.
Qed.

Definition var_R (l : list R) (s : varst R) : Prop :=
  sum_R l (vs_sum s) /\ sumsq_R l (vs_sq s) /\ vs_cnt s = Z.of_nat (length l).
Definition var_spec (l : list R) : res R :=
  match l with [] => Raise ZeroDivisionError | _ => Ok (variance l) end.
Lemma var_rep : Rep VarianceMeter var_spec var_R.
Proof.
  constructor; unfold var_R.
  - simpl. unfold sum_R, sumsq_R. simpl. auto.
  - intros l l' s P (Hs & Hq & Hc). split; [|split].
    + apply (rep_perm _ _ _ sum_rep l); auto.
    + apply (rep_perm _ _ _ sumsq_rep l); auto.
    + rewrite Hc, (Permutation_length P); auto.
  - intros l [sm sq c] x (Hs & Hq & Hc). simpl in Hs, Hq, Hc. simpl.
    unfold bind, zoom, modify. simpl. eexists; split; [reflexivity|]. simpl.
    destruct (rep_upd _ _ _ sum_rep l sm x Hs) as (s1 & E1 & H1).
    destruct (rep_upd _ _ _ sumsq_rep l sq x Hq) as (s2 & E2 & H2).
    simpl in E1, E2. unfold modify in E1, E2. inversion E1; inversion E2; subst. auto.
    split; [|split]; auto. lia.
  - intros l [sm sq c] x (Hs & Hq & Hc). simpl in Hs, Hq, Hc. simpl.
    unfold bind, zoom, modify. simpl. eexists; split; [reflexivity|]. simpl.
    destruct (rep_rem _ _ _ sum_rep l sm x Hs) as (s1 & E1 & H1).
    destruct (rep_rem _ _ _ sumsq_rep l sq x Hq) as (s2 & E2 & H2).
    simpl in E1, E2. unfold modify in E1, E2. inversion E1; inversion E2; subst.
    split; [|split]; auto. lia.
  - intros l [sm sq c] (Hs & Hq & Hc). simpl in Hs, Hq, Hc.
    exists (mkVar sm sq c). split; [|simpl; auto]. subst c.
    simpl. unfold bind, zoom, gets, lift. simpl.
    destruct Hs as [Es _], Hq as [Eq _]. rewrite Es, Eq.
    rewrite div_int_len. destruct l as [|a l]; auto.
    rewrite div_int_len. unfold var_spec. rewrite variance_shortcut by congruence.
    unfold nsq. reflexivity.
Qed.
Close Scope R_scope.

(** ** The order meters over any total order *)
Section OrderMeters.
Context {A : Type} `{OL : OrdLaws A}.

Definition max_spec (minf : A) (l : list A) : res A :=
  match l with [] => Ok minf | _ => np_max l end.
Definition min_spec (pinf : A) (l : list A) : res A :=
  match l with [] => Ok pinf | _ => np_min l end.

Definition max_R (minf : A) (l : list A) (s : maxst A) : Prop :=
  Permutation (mx_lst s) l /\ (l = [] /\ mx_max s = minf \/ ext_max (mx_max s) l).
Definition min_R (pinf : A) (l : list A) (s : maxst A) : Prop :=
  Permutation (mx_lst s) l /\ (l = [] /\ mx_max s = pinf \/ ext_min (mx_max s) l).

Lemma max_rep : forall minf, (forall a, oleb minf a = true) -> Rep (MaxMeter minf) (max_spec minf) (max_R minf).
Proof.
  intros minf Hm. constructor; unfold max_R.
  - simpl. auto.
  - intros l l' s P [Q [[E1 E2]|E]]; (split; [rewrite Q; auto|]).
    + subst l. apply Permutation_nil in P. auto.
    + right. eapply ext_max_perm; eauto.
  - intros l s x [P HM]. simpl. eexists; split; [reflexivity|]. simpl. split.
    + rewrite heappush_perm. constructor; auto.
    + right. destruct HM as [[-> E]|[I U]].
      * rewrite E. destruct (oltb minf x) eqn:L.
        -- split; [left; auto|]. intros y [->|[]]. apply ole_refl.
        -- apply oltb_false in L. rewrite (ole_antisym _ _ (Hm x) L).
           split; [left; auto|]. intros y [->|[]]. apply ole_refl.
      * destruct (oltb (mx_max s) x) eqn:L.
        -- apply oltb_true in L. split; [left; auto|].
           intros y [->|Hy]; [apply ole_refl|]. eapply ole_trans; [apply U; auto|]. apply oleb_false; auto.
        -- apply oltb_false in L. split; [right; auto|]. intros y [->|Hy]; auto.
  - intros l s x [P _]. simpl. unfold bind, gets, modify, lift, raise.
    destruct (list_remove_in A oeqb oeq_spec x (mx_lst s)) as (l' & E & Q).
    { eapply Permutation_in; [symmetry; exact P|left; auto]. }
    rewrite E. assert (P' : Permutation l' l).
    { apply Permutation_cons_inv with x. rewrite Q. auto. }
    destruct l' as [|a l'].
    + eexists; split; [reflexivity|]. simpl. split; auto.
      apply Permutation_nil in P'. auto.
    + destruct (np_max_ok (a :: l')) as (mm & E1 & E2); [congruence|]. rewrite E1.
      eexists; split; [reflexivity|]. simpl. split; auto.
      right. eapply ext_max_perm; eauto.
  - intros l s [P HM]. exists s. split; auto. simpl. unfold gets. f_equal.
    destruct HM as [[-> E]|E]; simpl; [congruence|].
    unfold max_spec. destruct l as [|a l]; [destruct E as [[] _]|].
    destruct (np_max_ok (a :: l)) as (mm & E1 & E2); [congruence|]. rewrite E1.
    f_equal. eapply ext_max_unique; eauto.
Qed.

Lemma max_strict : forall minf, RepStrict (MaxMeter minf) (max_R minf).
Proof.
  intros minf l s x [P _] N. simpl. unfold bind, gets.
  rewrite list_remove_notin; auto.
  - apply oeq_spec.
  - intro I. apply N. eapply Permutation_in; eauto.
Qed.

Lemma min_rep : forall pinf, (forall a, oleb a pinf = true) -> Rep (MinMeter pinf) (min_spec pinf) (min_R pinf).
Proof.
  intros pinf Hm. constructor; unfold min_R.
  - simpl. auto.
  - intros l l' s P [Q [[E1 E2]|E]]; (split; [rewrite Q; auto|]).
    + subst l. apply Permutation_nil in P. auto.
    + right. eapply ext_min_perm; eauto.
  - intros l s x [P HM]. simpl. eexists; split; [reflexivity|]. simpl. split.
    + rewrite heappush_perm. constructor; auto.
    + right. destruct HM as [[-> E]|[I U]].
      * rewrite E. destruct (oltb x pinf) eqn:L.
        -- split; [left; auto|]. intros y [->|[]]. apply ole_refl.
        -- apply oltb_false in L. rewrite (ole_antisym _ _ (Hm x) L).
           split; [left; auto|]. intros y [->|[]]. apply ole_refl.
      * destruct (oltb x (mx_max s)) eqn:L.
        -- apply oltb_true in L. split; [left; auto|].
           intros y [->|Hy]; [apply ole_refl|]. eapply ole_trans; [apply oleb_false; exact L|]. apply U; auto.
        -- apply oltb_false in L. split; [right; auto|]. intros y [->|Hy]; auto.
  - intros l s x [P _]. simpl. unfold bind, gets, modify, lift, raise.
    destruct (list_remove_in A oeqb oeq_spec x (mx_lst s)) as (l' & E & Q).
    { eapply Permutation_in; [symmetry; exact P|left; auto]. }
    rewrite E. assert (P' : Permutation l' l).
    { apply Permutation_cons_inv with x. rewrite Q. auto. }
    destruct l' as [|a l'].
    + eexists; split; [reflexivity|]. simpl. split; auto.
      apply Permutation_nil in P'. auto.
    + destruct (np_min_ok (a :: l')) as (mm & E1 & E2); [congruence|]. rewrite E1.
      eexists; split; [reflexivity|]. simpl. split; auto.
      right. eapply ext_min_perm; eauto.
  - intros l s [P HM]. exists s. split; auto. simpl. unfold gets. f_equal.
    destruct HM as [[-> E]|E]; simpl; [congruence|].
    unfold min_spec. destruct l as [|a l]; [destruct E as [[] _]|].
    destruct (np_min_ok (a :: l)) as (mm & E1 & E2); [congruence|]. rewrite E1.
    f_equal. eapply ext_min_unique; eauto.
Qed.

Lemma min_strict : forall pinf, RepStrict (MinMeter pinf) (min_R pinf).
Proof.
  intros pinf l s x [P _] N. simpl. unfold bind, gets.
  rewrite list_remove_notin; auto.
  - apply oeq_spec.
  - intro I. apply N. eapply Permutation_in; eauto.
Qed.

(** ** Binary heap order *)
Definition heap_ordered (l : list A) : Prop :=
  forall i x p, 0 < i -> nth_error l i = Some x -> nth_error l ((i - 1) / 2) = Some p -> oleb p x = true.

Definition hole_inv (newitem : A) (h : list A) (pos : nat) : Prop :=
  (forall i x p, 0 < i -> i <> pos -> (i - 1) / 2 <> pos ->
     nth_error h i = Some x -> nth_error h ((i - 1) / 2) = Some p -> oleb p x = true) /\
  (forall c x, 0 < c -> (c - 1) / 2 = pos -> nth_error h c = Some x -> oleb newitem x = true) /\
  (forall c x p, 0 < c -> (c - 1) / 2 = pos -> 0 < pos -> nth_error h c = Some x ->
     nth_error h ((pos - 1) / 2) = Some p -> oleb p x = true).

Lemma hole_fill : forall newitem h pos, pos < length h -> hole_inv newitem h pos ->
  (0 < pos -> forall p, nth_error h ((pos - 1) / 2) = Some p -> oleb p newitem = true) ->
  heap_ordered (set_nth pos newitem h).
Proof.
  intros n h pos L (I1 & I2 & I3) HP i x p Hi Ex Ep.
  pose proof (parent_lt i Hi).
  destruct (Nat.eq_dec i pos) as [->|N1].
  - rewrite nth_error_set_nth_eq in Ex by lia. inversion Ex; subst.
    rewrite nth_error_set_nth_neq in Ep by lia. auto.
  - rewrite nth_error_set_nth_neq in Ex by lia.
    destruct (Nat.eq_dec ((i - 1) / 2) pos) as [E2|N2].
    + rewrite E2, nth_error_set_nth_eq in Ep by lia. inversion Ep; subst. eauto.
    + rewrite nth_error_set_nth_neq in Ep by lia. eauto.
Qed.

Lemma siftdown_heap : forall fuel newitem h pos, pos <= fuel -> pos < length h ->
  hole_inv newitem h pos -> heap_ordered (siftdown fuel newitem h pos).
Proof.
  induction fuel as [|fuel IH]; intros n h pos F L HI; cbn [siftdown].
  - apply hole_fill; auto. lia.
  - destruct pos as [|pos].
    + apply hole_fill; auto. lia.
    + pose proof (parent_lt (S pos) ltac:(lia)) as PL.
      destruct (nth_error h ((S pos - 1) / 2)) as [parent|] eqn:E.
      2:{ apply nth_error_None in E. lia. }
      destruct (oltb n parent) eqn:LT.
      * apply IH.
        -- lia.
        -- rewrite set_nth_length. lia.
        -- apply oltb_true in LT. apply oleb_false in LT.
           destruct HI as (I1 & I2 & I3). set (pp := (S pos - 1) / 2) in *.
           unfold hole_inv. split; [|split].
           ++ intros i x p Hi N1 N2 Ex Ep.
              pose proof (parent_lt i Hi).
              destruct (Nat.eq_dec i (S pos)) as [->|N3]; [unfold pp in N2; lia|].
              rewrite nth_error_set_nth_neq in Ex by lia.
              destruct (Nat.eq_dec ((i - 1) / 2) (S pos)) as [E4|N4].
              ** rewrite E4, nth_error_set_nth_eq in Ep by lia. inversion Ep; subst.
                 eapply I3; eauto. lia.
              ** rewrite nth_error_set_nth_neq in Ep by lia. eauto.
           ++ intros c x Hc Ec Ex.
              destruct (Nat.eq_dec c (S pos)) as [->|N3].
              ** rewrite nth_error_set_nth_eq in Ex by lia. inversion Ex; subst. auto.
              ** rewrite nth_error_set_nth_neq in Ex by lia.
                 eapply ole_trans; [exact LT|]. eapply (I1 c); eauto; try lia.
                 rewrite Ec; auto.
           ++ intros c x p Hc Ec Hp Ex Ep.
              pose proof (parent_lt pp Hp).
              rewrite nth_error_set_nth_neq in Ep by lia.
              assert (Hpp : oleb p parent = true).
              { eapply (I1 pp); eauto; lia. }
              destruct (Nat.eq_dec c (S pos)) as [->|N3].
              ** rewrite nth_error_set_nth_eq in Ex by lia. inversion Ex; subst. auto.
              ** rewrite nth_error_set_nth_neq in Ex by lia.
                 eapply ole_trans; [exact Hpp|]. eapply (I1 c); eauto; try lia.
                 rewrite Ec; auto.
      * apply oltb_false in LT. apply hole_fill; auto. intros _ p Ep. rewrite E in Ep.
        inversion Ep; subst; auto.
Qed.

Lemma heappush_heap : forall h x, heap_ordered h -> heap_ordered (heappush h x).
Proof.
  intros h x HO. unfold heappush. apply siftdown_heap; auto.
  - rewrite app_length; simpl; lia.
  - unfold hole_inv. split; [|split].
    + intros i y p Hi N1 N2 Ey Ep.
      assert (i < length (h ++ [x])) by (apply nth_error_Some; congruence).
      rewrite app_length in H. simpl in H. pose proof (parent_lt i Hi).
      rewrite nth_error_app1 in Ey by lia. rewrite nth_error_app1 in Ep by lia.
      eapply HO; eauto.
    + intros c y Hc Ec Ey. pose proof (parent_lt c Hc).
      assert (c < length (h ++ [x])) by (apply nth_error_Some; congruence).
      rewrite app_length in *; simpl in *; lia.
    + intros c y p Hc Ec _ Ey _. pose proof (parent_lt c Hc).
      assert (c < length (h ++ [x])) by (apply nth_error_Some; congruence).
      rewrite app_length in *; simpl in *; lia.
Qed.

Lemma heap_ordered_nil : heap_ordered [].
Proof. intros i x p Hi E. destruct i; discriminate. Qed.

(** The root of a heap is a minimum. *)
Lemma heap_root_min : forall l a l', l = a :: l' -> heap_ordered l -> forall i x, nth_error l i = Some x -> oleb a x = true.
Proof.
  intros l a l' -> HO i. induction i as [i IH] using lt_wf_ind. intros x E.
  destruct i as [|i].
  - simpl in E. inversion E. apply ole_refl.
  - pose proof (parent_lt (S i) ltac:(lia)) as PL.
    assert (S i < length (a :: l')) by (apply nth_error_Some; congruence).
    destruct (nth_error (a :: l') ((S i - 1) / 2)) as [p|] eqn:Ep.
    2:{ apply nth_error_None in Ep. lia. }
    eapply ole_trans; [apply (IH _ PL p Ep)|]. apply (HO (S i) x p); auto. lia.
Qed.
End OrderMeters.

(** ** Median over R *)
Definition median_fn (l : list R) : R :=
  let s := sorted l in
  if Nat.odd (length l) then nth (length l / 2) s 0%R
  else ((nth (length l / 2 - 1) s 0 + nth (length l / 2) s 0) / 2)%R.

Definition med_spec (l : list R) : res R :=
  match l with [] => Raise IndexError | _ => Ok (median_fn l) end.
Definition med_R (l : list R) (s : medst R) : Prop :=
  Permutation (md_lst s) l /\ md_n s = Z.of_nat (length l).

Lemma StronglySorted_Rle : forall l : list R, StronglySorted ole l -> Sorted Rle l.
Proof.
  intros l S. apply StronglySorted_Sorted. induction S; constructor; auto.
  rewrite Forall_forall in *. intros. apply Rleb_le. apply H; auto.
Qed.

Lemma median_fn_spec : forall l, l <> [] -> is_median (median_fn l) l.
Proof.
  intros l H. exists (sorted l). split; [apply sorted_perm|]. split; [|split; auto].
  apply StronglySorted_Rle, sorted_sorted.
Qed.

Lemma Sorted_Rle_Strong : forall l : list R, Sorted Rle l -> StronglySorted ole l.
Proof.
  intros l S. apply Sorted_StronglySorted in S.
  - induction S; constructor; auto. rewrite Forall_forall in *. intros. apply Rleb_le. auto.
  - intros a b c. lra.
Qed.

Lemma median_unique : forall m m' l, is_median m l -> is_median m' l -> m = m'.
Proof.
  intros m m' l (s & P & S & N & E) (s' & P' & S' & _ & E').
  assert (s = s').
  { apply (sorted_unique s s').
    - apply Sorted_Rle_Strong; auto.
    - apply Sorted_Rle_Strong; auto.
    - rewrite P, P'. reflexivity. }
  subst. congruence.
Qed.

Lemma py_index_Z_nat : forall A (l : list A) i d, i < length l ->
  py_index_Z l (Z.of_nat i) = Ok (nth i l d).
Proof.
  intros. unfold py_index_Z. destruct (Z.leb_spec 0 (Z.of_nat i)); [|lia].
  rewrite Nat2Z.id. unfold py_index. rewrite (nth_error_nth' l d) by auto. reflexivity.
Qed.

Lemma med_rep : Rep MedianMeter med_spec med_R.
Proof.
  constructor; unfold med_R.
  - simpl. auto.
  - intros l l' s P [Q N]. split; [rewrite Q; auto|]. rewrite N, (Permutation_length P); auto.
  - intros l s x [Q N]. simpl. eexists; split; [reflexivity|]. simpl. split.
    + rewrite heappush_perm. auto.
    + rewrite N. lia.
  - intros l s x [Q N]. simpl. unfold bind, gets, modify.
    destruct (list_remove_in R Reqb Reqb_eq x (md_lst s)) as (l' & E & P).
    { eapply Permutation_in; [symmetry; exact Q|left; auto]. }
    rewrite E. eexists; split; [reflexivity|]. simpl. split.
    + apply Permutation_cons_inv with x. rewrite P. auto.
    + rewrite N. simpl length. lia.
  - intros l s [Q N]. exists (mkMed (sorted (md_lst s)) (md_n s)).
    split; [|simpl; split; auto; rewrite sorted_perm; auto].
    simpl. unfold bind, gets, modify, lift. simpl.
    rewrite (sorted_eq_of_perm _ _ Q). rewrite N.
    assert (HL := sorted_length l).
    destruct l as [|a l0] eqn:EL.
    { simpl. reflexivity. }
    rewrite <- EL in *. clear s Q N.
    assert (Hpos : 0 < length l) by (subst; simpl; lia).
    replace (med_spec l) with (Ok (median_fn l)) by (rewrite EL; reflexivity). unfold median_fn.
    change 2%Z with (Z.of_nat 2). rewrite <- Nat2Z.inj_mod, <- Nat2Z.inj_div.
    assert (HD : length l / 2 < length l) by (apply Nat.div_lt; lia).
    destruct (Z.eqb_spec (Z.of_nat (length l mod 2)) 0) as [E|E].
    + assert (length l mod 2 = 0) as E' by lia.
      assert (OD : Nat.odd (length l) = false).
      { rewrite <- Nat.negb_even. apply negb_false_iff. apply Nat.even_spec.
        exists (length l / 2). pose proof (Nat.div_mod_eq (length l) 2). lia. }
      rewrite OD.
      assert (1 <= length l / 2).
      { pose proof (Nat.div_mod_eq (length l) 2). lia. }
      rewrite (py_index_Z_nat _ _ _ 0%R) by lia.
      replace (Z.of_nat (length l / 2) - 1)%Z with (Z.of_nat (length l / 2 - 1)) by lia.
      rewrite (py_index_Z_nat _ _ _ 0%R) by lia.
      unfold div_int. cbn -[Nat.div nth]. rewrite Rplus_comm. reflexivity.
    + assert (OD : Nat.odd (length l) = true).
      { rewrite <- Nat.negb_even. apply negb_true_iff. rewrite <- Nat.negb_odd. apply negb_false_iff.
        apply Nat.odd_spec. exists (length l / 2). pose proof (Nat.div_mod_eq (length l) 2).
        pose proof (Nat.mod_upper_bound (length l) 2). lia. }
      rewrite OD. rewrite (py_index_Z_nat _ _ _ 0%R) by lia. reflexivity.
Qed.

Lemma med_strict : RepStrict MedianMeter med_R.
Proof.
  intros l s x [P _] N. simpl. unfold bind, gets.
  rewrite list_remove_notin; auto.
  - apply Reqb_eq.
  - intro I. apply N. eapply Permutation_in; eauto.
Qed.

(** ** AbsStatistic *)
Lemma abs_rep : forall (m : Meter R R) spec Rl, Rep m spec Rl ->
  Rep (AbsStatistic m) (fun l => rmap Rabs (spec l)) Rl.
Proof.
  intros m spec Rl HR. destruct HR as [HI HP HU HRm HG]. constructor; simpl; auto.
  intros l s Hs. destruct (HG l s Hs) as (s' & E & Hs'). exists s'. split; auto.
  unfold bind, ret. rewrite E. destruct (spec l); reflexivity.
Qed.
