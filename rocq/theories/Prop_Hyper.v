(** * Properties of two runs: asking for scores does not disturb a detector (C90), labels are ignored (C91). *)
From Coq Require Import List ZArith Lia Bool Arith Permutation Floats Reals Lra.
From Verif Require Import Base Num Spec Model_Stats Model_Utils Model_Core Model_Post Model_Trans Model_Simple Model_Integrations Model_HST Model_Sketch Model_Loda Model_KNN Model_XStream Model_SESD Model_KitNET Model_Inqmad P_Models P_Stats P_Lists Prop_Stats.
Import ListNotations.
Open Scope nat_scope.

(** ** Specification *)
(** The same history without the requests for scores. *)
Definition quiet {X Y} (o : mcall X Y) : list (mcall X Y) :=
  match o with CFit x y => [CFit x y] | CScore _ => [] | CFitScore x y => [CFit x y] end.
(** Whatever is called next, after whatever history, answers what it would have answered if no score had ever been asked for. *)
Definition scoring_is_silent {X Y A} (m : Model X Y A) (s0 : md_state m) : Prop :=
  forall h c, eval (model_call m c) (model_run m s0 h) = eval (model_call m c) (model_run m s0 (flat_map quiet h)).
(** The same call without label. *)
Definition unlabelled {X Y} (o : mcall X Y) : mcall X Y :=
  match o with CFit x _ => CFit x None | CScore x => CScore x | CFitScore x _ => CFitScore x None end.
Definition ignores_labels {X Y A} (m : Model X Y A) (s0 : md_state m) : Prop :=
  forall h c, eval (model_call m c) (model_run m s0 h) = eval (model_call m (unlabelled c)) (model_run m s0 (map unlabelled h)).

(** ** Lemmas *)
Section Silent.
Context {X Y A : Type} (m : Model X Y A) (E : md_state m -> md_state m -> Prop).
Hypothesis E_refl : forall s, E s s.
Hypothesis E_trans : forall a b c, E a b -> E b c -> E a c.
Hypothesis E_call : forall c s s', E s s' -> eval (model_call m c) s = eval (model_call m c) s' /\ E (model_do m s c) (model_do m s' c).
Hypothesis E_score : forall x s, E (exec (md_score m x) s) s.
Hypothesis E_fit_score : forall x y s, E (exec (md_fit_score m x y) s) (exec (md_fit m x y) s).
Lemma silent : forall s0, scoring_is_silent m s0.
Proof.
  assert (G : forall h s s', E s s' -> E (model_run m s h) (model_run m s' (flat_map quiet h))).
  { induction h as [|o h IH]; intros s s' H; auto. cbn [flat_map]. rewrite model_run_app. change (model_run m s (o :: h)) with (model_run m (model_do m s o) h). apply IH. destruct o as [x y|x|x y]; cbn [quiet].
    - apply E_call. exact H.
    - cbn. apply E_trans with (b := s); auto. unfold model_do, exec. cbn [model_call]. pose proof (E_score x s) as K. unfold exec in K. destruct (md_score m x s); auto.
    - cbn. apply E_trans with (b := model_do m s (CFit x y)).
      + unfold model_do, exec. cbn [model_call]. pose proof (E_fit_score x y s) as K. unfold exec in K. destruct (md_fit_score m x y s), (md_fit m x y s); auto.
      + apply E_call. exact H. }
  intros s0 h c. apply E_call. apply G. auto.
Qed.
End Silent.
(** A detector that inherits fit_score_partial and whose score_partial changes nothing. *)
Lemma silent_plain : forall X Y A S (fit : X -> option Y -> M S unit) (score : X -> M S (pyval A)), (forall x s, exec (score x) s = s) -> forall s0, scoring_is_silent (plain_model S fit score) s0.
Proof.
  intros X Y A S fit score H s0. apply (silent (plain_model S fit score) eq); auto.
  - intros; congruence.
  - intros c s s' ->. auto.
  - intros x y s. unfold exec, default_fit_score, bind. cbn [md_fit_score md_fit plain_model]. unfold default_fit_score, bind. destruct (fit x y s) as [[u|e] s1]; auto. apply H.
Qed.
(** ... or changes only what makes no difference. *)
Lemma silent_plain_rel : forall X Y A S (fit : X -> option Y -> M S unit) (score : X -> M S (pyval A)) (E : S -> S -> Prop),
  (forall s, E s s) -> (forall a b c, E a b -> E b c -> E a c) ->
  (forall x y s s', E s s' -> eval (fit x y) s = eval (fit x y) s' /\ E (exec (fit x y) s) (exec (fit x y) s')) ->
  (forall x s s', E s s' -> eval (score x) s = eval (score x) s') ->
  (forall x s, E (exec (score x) s) s) -> (forall a b, E a b -> E b a) ->
  forall s0, scoring_is_silent (plain_model S fit score) s0.
Proof.
  intros X Y A S fit score E R T Hf Hs Hp Sy s0. apply (silent (plain_model S fit score) E); auto.
  - intros [x y|x|x y] s s' H; unfold model_do, exec, eval; cbn [model_call md_fit md_score md_fit_score plain_model].
    + specialize (Hf x y s s' H). unfold exec, eval in Hf. destruct Hf as [H1 H2]. destruct (fit x y s), (fit x y s'); cbn [fst snd] in *. subst. auto.
    + specialize (Hs x s s' H). pose proof (Hp x s) as P1. pose proof (Hp x s') as P2. unfold exec, eval in *. destruct (score x s), (score x s'); cbn [fst snd] in *. subst. split; auto. eapply T; [exact P1|]. eapply T; [exact H|]. auto.
    + unfold default_fit_score, bind. specialize (Hf x y s s' H). unfold exec, eval in Hf. destruct Hf as [H1 H2]. destruct (fit x y s) as [r t], (fit x y s') as [r' t']; cbn [fst snd] in *. subst r'. destruct r as [u|e]; auto.
      specialize (Hs x t t' H2). pose proof (Hp x t) as P1. pose proof (Hp x t') as P2. unfold exec, eval in *. destruct (score x t), (score x t'); cbn [fst snd] in *. subst. split; auto. eapply T; [exact P1|]. eapply T; [exact H2|]. auto.
  - intros x y s. unfold exec. cbn [md_fit_score md_fit plain_model]. unfold default_fit_score, bind. destruct (fit x y s) as [[u|e] s1]; auto. apply Hp.
Qed.
Lemma labels_plain : forall X Y A S (fit : X -> option Y -> M S unit) (score : X -> M S (pyval A)), (forall x y, fit x y = fit x None) -> forall s0, ignores_labels (plain_model S fit score) s0.
Proof.
  intros X Y A S fit score H s0.
  assert (C : forall c, model_call (plain_model S fit score) c = model_call (plain_model S fit score) (unlabelled c)).
  { intros [x y|x|x y]; auto; cbn [unlabelled model_call md_fit md_fit_score plain_model]; unfold default_fit_score; rewrite (H x y); reflexivity. }
  intros h c. rewrite <- C. f_equal. revert s0. induction h as [|o h IH]; intros s0; auto. cbn [map]. change (model_run (plain_model S fit score) s0 (o :: h)) with (model_run (plain_model S fit score) (model_do (plain_model S fit score) s0 o) h). rewrite IH. unfold model_do at 1. rewrite C. reflexivity.
Qed.
Ltac run_pure := repeat first [reflexivity | progress unfold exec, bind, gets, lift, ret, raise, zoom, Window_get | match goal with |- context [match ?e with _ => _ end] => destruct e end | progress cbn [fst snd]].
(** The median meters: reading sorts the internal list, which makes no difference. *)
Definition med_eq (a b : medst R) : Prop := Permutation (md_lst a) (md_lst b) /\ md_n a = md_n b.
Lemma med_get : forall s, med_eq (exec (mt_get MedianMeter) s) s.
Proof.
  intros s. unfold exec. cbn [mt_get MedianMeter]. unfold bind at 1. cbn [modify]. assert (E : med_eq (mkMed (sorted (md_lst s)) (md_n s)) s) by (split; [apply sorted_perm|reflexivity]). run_pure; exact E.
Qed.
Lemma med_get_eq : forall s s', med_eq s s' -> eval (mt_get MedianMeter) s = eval (mt_get MedianMeter) s'.
Proof.
  intros s s' [P N]. unfold eval. cbn [mt_get MedianMeter]. unfold bind at 1 4. cbn [modify]. rewrite (sorted_eq_of_perm _ _ P), N. run_pure.
Qed.
Lemma med_update_eq : forall v s s', med_eq s s' -> med_eq (exec (mt_update MedianMeter v) s) (exec (mt_update MedianMeter v) s').
Proof. intros v s s' [P N]. split; cbn; [|lia]. rewrite !heappush_perm. constructor. exact P. Qed.
Lemma med_refl : forall s, med_eq s s.
Proof. split; auto. Qed.
Lemma med_trans : forall a b c, med_eq a b -> med_eq b c -> med_eq a c.
Proof. intros a b c [P1 N1] [P2 N2]. split; [eapply Permutation_trans; eauto|congruence]. Qed.
Lemma med_sym : forall a b, med_eq a b -> med_eq b a.
Proof. intros a b [P N]. split; auto. symmetry. auto. Qed.
Lemma get_split : forall (s : medst R), mt_get MedianMeter s = (eval (mt_get MedianMeter) s, exec (mt_get MedianMeter) s).
Proof. intros s. unfold eval, exec. destruct (mt_get MedianMeter s). reflexivity. Qed.
Lemma silent_mad : forall Y eps b absolute s0, scoring_is_silent (MedianAbsoluteDeviation (Y := Y) (A := R) eps b absolute) s0.
Proof.
  intros Y eps b absolute. pose (E := fun s s' : madst R => med_eq (mad_median s) (mad_median s') /\ med_eq (mad_mad s) (mad_mad s')).
  apply (silent_plain_rel _ _ _ _ _ _ E); unfold E; clear E.
  - intros s. split; apply med_refl.
  - intros x y z [H1 H2] [H3 H4]. split; eapply med_trans; eauto.
  - intros x y s s' [H1 H2]. unfold eval, exec, bind, lift. destruct (the_value x) as [v|e]; cbn [fst snd]; auto. unfold on_median, on_mad, zoom.
    assert (U : forall t, mt_update MedianMeter v t = (Ok tt, exec (mt_update MedianMeter v) t)) by reflexivity. rewrite !U. cbn [mad_median mad_mad]. pose proof (med_update_eq v _ _ H1) as H3. rewrite !get_split, (med_get_eq _ _ H3). cbn [mad_median mad_mad].
    assert (H4 : med_eq (exec (mt_get MedianMeter) (exec (mt_update MedianMeter v) (mad_median s))) (exec (mt_get MedianMeter) (exec (mt_update MedianMeter v) (mad_median s')))). { eapply med_trans; [apply med_get|]. eapply med_trans; [exact H3|]. apply med_sym, med_get. }
    destruct (eval (mt_get MedianMeter) (exec (mt_update MedianMeter v) (mad_median s'))) as [m|e]; cbn [fst snd mad_median mad_mad]; auto.
    assert (U2 : forall (w : R) (t : medst R), mt_update MedianMeter w t = (Ok tt, exec (mt_update (MedianMeter (A := R)) w) t)) by reflexivity. rewrite !U2. cbn [fst snd mad_median mad_mad]. split; auto. split; auto. apply med_update_eq. exact H2.
  - intros x s s' [H1 H2]. unfold eval, bind, on_median, on_mad, zoom. rewrite !get_split, (med_get_eq _ _ H1). destruct (eval (mt_get MedianMeter) (mad_median s')); auto. cbn [mad_median mad_mad]. rewrite (med_get_eq _ _ H2). destruct (eval (mt_get MedianMeter) (mad_mad s')); auto.
  - intros x s. unfold exec, bind, on_median, on_mad, zoom. rewrite !get_split. destruct (eval (mt_get MedianMeter) (mad_median s)); cbn [fst snd mad_median mad_mad]. 2: { split; [apply med_get|apply med_refl]. } destruct (eval (mt_get MedianMeter) (mad_mad s)); cbn [fst snd ret mad_median mad_mad]; split; apply med_get.
  - intros x y [H1 H2]. split; apply med_sym; auto.
Qed.
Lemma var_get : forall (s : varst R), exec (mt_get VarianceMeter) s = s.
Proof. intros [[a b] [c d] e]. unfold exec. cbn [mt_get VarianceMeter]. unfold bind, zoom. cbn. destruct (div_int _ _); reflexivity. Qed.
Lemma silent_sad : forall Y eps absolute n m s0, SAD_statistic n = Ok m -> scoring_is_silent (StandardAbsoluteDeviation (Y := Y) (A := R) eps absolute m) s0.
Proof.
  intros Y eps absolute n m s0 H. destruct n; inversion H; subst m; clear H.
  - pose (E := fun s s' : varst R * medst R => fst s = fst s' /\ med_eq (snd s) (snd s')). revert s0. apply (silent_plain_rel _ _ _ _ _ _ E); unfold E; clear E.
    + intros s. split; auto. apply med_refl.
    + intros x y z [H1 H2] [H3 H4]. split; [congruence|eapply med_trans; eauto].
    + intros x y [v s] [v' s'] [H1 H2]. cbn [fst snd] in *. subst v'. unfold eval, exec, bind, lift. destruct (the_value x) as [w|e]; cbn [fst snd]; auto. unfold zoom. cbn [fst snd].
      assert (U : forall t, mt_update MedianMeter w t = (Ok tt, exec (mt_update MedianMeter w) t)) by reflexivity. destruct (mt_update VarianceMeter w v) as [[u|e] v1]; cbn [fst snd]; auto. rewrite !U. cbn [fst snd]. split; auto. split; auto. apply med_update_eq. auto.
    + intros x [v s] [v' s'] [H1 H2]. cbn [fst snd] in *. subst v'. unfold eval, bind, zoom. cbn [fst snd]. rewrite !get_split, (med_get_eq _ _ H2). destruct (eval (mt_get MedianMeter) s'); auto. cbn [fst snd]. destruct (mt_get VarianceMeter v) as [[?|?] ?]; auto.
    + intros x [v s]. unfold exec, bind, zoom. cbn [fst snd]. rewrite !get_split. destruct (eval (mt_get MedianMeter) s); cbn [fst snd]. 2: { split; auto. apply med_get. } pose proof (var_get v) as V. unfold exec in V. destruct (mt_get VarianceMeter v) as [[q|e] v1]; cbn [fst snd ret] in *; split; auto using med_get.
    + intros x y [H1 H2]. split; auto using med_sym.
  - apply silent_plain. intros x [v s]. unfold exec, bind, zoom. cbn [fst snd]. pose proof (var_get v) as V. unfold exec in V. cbn [mt_get AverageMeter]. unfold bind, gets, lift. destruct (div_int (ss_sum s) (ss_n s)); cbn [fst snd]; auto. destruct (mt_get VarianceMeter v) as [[q|e] v1]; cbn [fst snd ret] in *; subst; reflexivity.
Qed.
(** KitNet: score_partial increments a counter that nothing reads. *)
Section Kit.
Context {A : Type} `{Num A}.
Definition wx (n : nat) (k : kitobj A) : kitobj A := mkKit (kt_n k) (kt_fm k) (kt_trained k) n (kt_map k) (kt_ens k) (kt_out k).
Definition comm {B} (f : M (kitobj A) B) : Prop := forall n k, f (wx n k) = (fst (f k), wx n (snd (f k))).
Lemma comm_bind : forall B C (f : M (kitobj A) B) (g : B -> M (kitobj A) C), comm f -> (forall b, comm (g b)) -> comm (bind f g).
Proof. intros B C f g Hf Hg n k. unfold bind. rewrite Hf. destruct (f k) as [[b|e] k1]; cbn [fst snd]; auto. apply Hg. Qed.
Lemma comm_read : forall B (g : kitobj A -> M (kitobj A) B), (forall n k, g (wx n k) = g k) -> (forall k, comm (g k)) -> comm (bind (gets (fun s => s)) g).
Proof. intros B g H1 H2 n k. unfold bind, gets. rewrite H1. apply H2. Qed.
Lemma comm_lift : forall B (r : res B), comm (lift r).
Proof. intros B r n k. reflexivity. Qed.
Lemma comm_ret : forall B (b : B), comm (ret b).
Proof. intros B r n k. reflexivity. Qed.
Lemma comm_raise : forall B e, comm (raise (A := B) e).
Proof. intros B r n k. reflexivity. Qed.
Lemma comm_modify : forall f, (forall n k, f (wx n k) = wx n (f k)) -> comm (modify f).
Proof. intros f H0 n k. unfold modify. rewrite H0. reflexivity. Qed.
Lemma comm_iterM : forall T (f : T -> M (kitobj A) unit) l, (forall t, comm (f t)) -> comm (iterM f l).
Proof. intros T f l Hf. induction l as [|t l IH]; cbn [iterM]; [apply comm_ret|]. apply comm_bind; auto. Qed.
Lemma comm_mapM : forall T B (f : T -> M (kitobj A) B) l, (forall t, comm (f t)) -> comm (mapM f l).
Proof. intros T B f l Hf. induction l as [|t l IH]; cbn [mapM]; [apply comm_ret|]. apply comm_bind; auto. intros b. apply comm_bind; auto. intros bs. apply comm_ret. Qed.
Lemma comm_train : forall p x, comm (kit_train p x).
Proof.
  assert (C1 : forall p v, comm (kit_create p v)).
  { intros p v. apply comm_bind; [apply comm_iterM; intros f; apply comm_bind; [apply comm_lift|intros d; apply comm_modify; reflexivity]|]. intros _. apply comm_bind; [apply comm_lift|]. intros d. apply comm_modify. reflexivity. }
  assert (C2 : forall p x v, comm (kit_train_layer p x v)).
  { intros p x v. apply comm_mapM. intros a. apply comm_bind; [apply comm_lift|]. intros xi. apply comm_read; [reflexivity|]. intros k. apply comm_bind; [apply comm_lift|]. intros d. destruct (da_train p d xi) as [e d']. apply comm_bind; [apply comm_modify; reflexivity|]. intros _. apply comm_ret. }
  intros p x. apply comm_read; [reflexivity|]. intros k. apply comm_bind; [|intros _; apply comm_modify; reflexivity]. destruct (_ && _)%bool.
  - apply comm_bind.
    + intros n k0. unfold zoom. cbn [kt_fm wx]. destruct (cc_update x (kt_fm k0)). reflexivity.
    + intros _. apply comm_read; [reflexivity|]. intros k1. destruct (_ =? _)%nat; [|apply comm_ret]. apply comm_bind; [apply comm_lift|]. intros v. apply comm_bind; [apply comm_modify; reflexivity|]. intros _. apply C1.
  - apply comm_read; [reflexivity|]. intros k1. apply comm_bind; [apply C2|]. intros es. apply comm_read; [reflexivity|]. intros k2. destruct (kt_out k2); [apply comm_modify; reflexivity|apply comm_raise].
Qed.
Lemma execute_wx : forall p x n k, fst (kit_execute p x (wx n k)) = fst (kit_execute p x k) /\ exists m, snd (kit_execute p x k) = wx m k.
Proof.
  intros p x n k. unfold kit_execute, bind, gets. cbn [kt_map wx]. destruct (kt_map k) as [v|]; cbn [fst snd raise modify lift kt_ens kt_out wx].
  - destruct (res_map _ (seq 0 (length v))); cbn [fst snd]; [|split; auto; eexists; reflexivity]. destruct (kt_out k) eqn:Eo; cbn [fst snd ret raise]; (split; [auto|exists (S (kt_executed k)); unfold wx; rewrite ?Eo; reflexivity]).
  - split; auto. exists (kt_executed k). destruct k; reflexivity.
Qed.
Definition kit_eq (a b : option (kitobj A)) : Prop := match a, b with None, None => True | Some k, Some k' => exists n, k' = wx n k | _, _ => False end.
Lemma silent_kitnet : forall Y p s0, scoring_is_silent (KitNet (Y := Y) p) s0.
Proof.
  intros Y p. apply (silent_plain_rel _ _ _ _ _ _ kit_eq).
  - intros [k|]; cbn; auto. exists (kt_executed k). destruct k; reflexivity.
  - intros [a|] [b|] [c|]; cbn; auto; try contradiction. intros (n & ->) (m & ->). exists m. reflexivity.
  - intros x _ s s' E.
    assert (G : forall n k, fst (kit_process p x (wx n k)) = fst (kit_process p x k) /\ exists m, snd (kit_process p x (wx n k)) = wx m (snd (kit_process p x k))).
    { intros n k. unfold kit_process, bind, gets. cbn [kt_trained wx]. destruct (_ <? _)%nat.
      - destruct (execute_wx p x n k) as [E1 (m1 & E2)]. destruct (execute_wx p x (kt_executed k) (wx n k)) as [_ (m2 & E3)]. destruct (kit_execute p x k) as [r1 k1], (kit_execute p x (wx n k)) as [r2 k2]. cbn [fst snd] in *. subst. destruct r1; cbn; (split; [reflexivity|exists m2; reflexivity]).
      - split; [rewrite comm_train; reflexivity|exists n; rewrite comm_train; reflexivity]. }
    unfold eval, exec, bind, modify. destruct s as [k|], s' as [k'|]; cbn in E; try contradiction.
    + destruct E as (n & ->). destruct (G n k) as [G1 (m & G2)]. destruct (kit_process p x k), (kit_process p x (wx n k)). cbn [fst snd kit_eq] in *. subst. split; auto. exists m. reflexivity.
    + destruct (kit_process p x (kit_init (length x))) as [r t]. cbn. split; auto. exists (kt_executed t). destruct t; reflexivity.
  - intros x s s' E. destruct s as [k|], s' as [k'|]; cbn in E; try contradiction; auto. destruct E as (n & ->). unfold eval. cbn [kt_map wx]. destruct (kt_map k) eqn:Em; auto. destruct (execute_wx p x n k) as [E1 _]. destruct (kit_execute p x k), (kit_execute p x (wx n k)). cbn [fst] in *. subst. reflexivity.
  - intros x [k|]; unfold exec; cbn [snd kit_eq]; auto. destruct (kt_map k) eqn:Em; cbn [snd kit_eq]. 2: { exists (kt_executed k). destruct k; reflexivity. } destruct (execute_wx p x (kt_executed k) k) as [_ (m & E2)]. destruct (kit_execute p x k) as [r k1]. cbn [snd kit_eq] in *. subst k1. exists (kt_executed k). destruct k; reflexivity.
  - intros [k|] [k'|]; cbn; auto. intros (n & ->). exists (kt_executed k). destruct k; reflexivity.
Qed.
End Kit.

(** ** C90 *)
Theorem C90_scoring_is_silent :
  (forall X Y (half : R) s, scoring_is_silent (NullModel (X := X) (Y := Y) half) s) /\
  (forall Y A (NA : Num A) radius s, scoring_is_silent (ExactStorm (Y := Y) (A := A) radius) s) /\
  (forall Y eps b absolute s, scoring_is_silent (MedianAbsoluteDeviation (Y := Y) (A := R) eps b absolute) s) /\
  (forall Y eps absolute n m s, SAD_statistic n = Ok m -> scoring_is_silent (StandardAbsoluteDeviation (Y := Y) (A := R) eps absolute m) s) /\
  (forall Y A (NA : Num A) window_size max_depth s, scoring_is_silent (HalfSpaceTrees (Y := Y) (A := A) window_size max_depth) s) /\
  (forall X Y A (d : Detector X Y A) s, scoring_is_silent (OneFitModel d) s) /\
  (forall X Y A (d : Detector X Y A) window_size sliding_size s, scoring_is_silent (ReferenceWindowModel d window_size sliding_size) s) /\
  (forall Y A (NA : Num A) log ceil thr min_val step num_bins window_size s, scoring_is_silent (RelativeEntropy (Y := Y) (A := A) log ceil thr min_val step num_bins window_size) s) /\
  (forall Y A (NA : Num A) pow2 log floor decay comps s, scoring_is_silent (RSHash (Y := Y) (A := A) pow2 log floor decay comps) s) /\
  (forall Y A (NA : Num A) half eps log randn perms n_bins n_cuts s, scoring_is_silent (LODA (Y := Y) (A := A) half eps log randn perms n_bins n_cuts) s) /\
  (forall Y A (NA : Num A) two one tiny mmh3 pr floor log2 K window_size s, scoring_is_silent (xStream (Y := Y) (A := A) two one tiny mmh3 pr floor log2 K window_size) s) /\
  (forall Y A (NA : Num A) eps cs ppf stl s, scoring_is_silent (SeasonalESD (Y := Y) (A := A) eps cs ppf stl) s) /\
  (forall Y A (NA : Num A) p s, scoring_is_silent (KitNet (Y := Y) (A := A) p) s).
Proof.
  repeat split; intros.
  - apply silent_plain. reflexivity.
  - apply silent_plain. intros x s1. run_pure.
  - apply silent_mad.
  - eapply silent_sad; eauto.
  - apply silent_plain. intros x s1. run_pure.
  - apply silent_plain. intros x s1. run_pure.
  - apply silent_plain. intros x s1. run_pure.
  - apply silent_plain. intros x s1. run_pure.
  - apply silent_plain. intros x s1. run_pure.
  - apply silent_plain. intros x s1. run_pure.
  - apply silent_plain. intros x s1. run_pure.
  - apply (silent _ eq); auto.
    + intros; congruence.
    + intros c s1 s' ->. auto.
    + intros x s1. cbn [md_score SeasonalESD]. unfold exec, bind, gets, lift. destruct (se_value x); auto. destruct (se_score_window _ _ _ _ _ _); reflexivity.
    + intros x y s1. cbn [md_fit_score md_fit SeasonalESD]. unfold exec. unfold bind at 1. destruct (se_fit x s1) as [[u|e] s2]; auto. unfold bind, gets, lift. destruct (se_score_window _ _ _ _ _ _); reflexivity.
  - apply silent_kitnet.
Qed.
Print Assumptions C90_scoring_is_silent.
(** Refuted for PerfectModel: a score takes the label of the next instance away, and the next score fails. *)
Theorem C90_perfect_model_refuted : forall X Y (x : X) (y : Y),
  eval (model_call PerfectModel (CScore x)) (model_run (PerfectModel (X := X)) [] [CFit x (Some y); CScore x]) = Raise IndexError /\
  eval (model_call PerfectModel (CScore x)) (model_run (PerfectModel (X := X)) [] [CFit x (Some y)]) = Ok (Some (VScalar y)).
Proof. intros. split; reflexivity. Qed.
Print Assumptions C90_perfect_model_refuted.
(** Refuted for RandomModel: the draw used for a score is not available to the next one. *)
Theorem C90_random_model_refuted : forall X Y A (draw : nat -> A) (x : X), draw 0 <> draw 1 ->
  ~ scoring_is_silent (RandomModel (X := X) (Y := Y) draw) 0.
Proof. intros X Y A draw x N S. specialize (S [CScore x] (CScore x)). cbn in S. injection S as S. congruence. Qed.
Print Assumptions C90_random_model_refuted.
(** Refuted for KNNCAD, on binary64 with the constants of the code and an ordinary stream of length 96: a score that is an
    alarm turns the following ones into 0.5. *)
Definition knn_stream : list (mcall (list float) unit) := map (fun v => CFit [v] None) (repeat 0%float 20 ++ repeat 1%float 75 ++ [(-100)%float]).
Theorem C90_knncad_refuted : let m := KNNCAD (Y := unit) 0.5%float 0.9965%float (fun _ => None) 48 in
  eval (model_call m (CScore [0%float])) (model_run m KNNCAD_init knn_stream) = Ok (Some (VScalar 1%float)) /\
  eval (model_call m (CScore [0%float])) (model_run m KNNCAD_init (knn_stream ++ [CScore [0%float]])) = Ok (Some (VScalar 0.5%float)) /\
  ~ scoring_is_silent m KNNCAD_init.
Proof.
  intros m. assert (E1 : eval (model_call m (CScore [0%float])) (model_run m KNNCAD_init knn_stream) = Ok (Some (VScalar 1%float))) by (vm_compute; reflexivity).
  assert (E2 : eval (model_call m (CScore [0%float])) (model_run m KNNCAD_init (knn_stream ++ [CScore [0%float]])) = Ok (Some (VScalar 0.5%float))) by (vm_compute; reflexivity).
  split; [exact E1|]. split; [exact E2|]. intros S. specialize (S (knn_stream ++ [CScore [0%float]]) (CScore [0%float])). rewrite E2 in S. rewrite flat_map_app in S. cbn [flat_map quiet app] in S. rewrite app_nil_r in S.
  assert (Q : flat_map quiet knn_stream = knn_stream). { unfold knn_stream. generalize (repeat 0%float 20 ++ repeat 1%float 75 ++ [(-100)%float]). intros l. induction l as [|v l IH]; auto. cbn [map flat_map quiet app]. rewrite IH. reflexivity. }
  rewrite Q, E1 in S. injection S as S. assert (B : PrimFloat.eqb 0.5 1 = true) by (rewrite S; reflexivity). vm_compute in B. discriminate.
Qed.
Print Assumptions C90_knncad_refuted.

(** ** C91 *)
Theorem C91_labels_are_ignored :
  (forall X Y (half : R) s, ignores_labels (NullModel (X := X) (Y := Y) half) s) /\
  (forall X Y A (draw : nat -> A) s, ignores_labels (RandomModel (X := X) (Y := Y) draw) s) /\
  (forall Y A (NA : Num A) radius s, ignores_labels (ExactStorm (Y := Y) (A := A) radius) s) /\
  (forall Y A (NA : Num A) eps b absolute s, ignores_labels (MedianAbsoluteDeviation (Y := Y) (A := A) eps b absolute) s) /\
  (forall Y A (NA : Num A) eps absolute m s, ignores_labels (StandardAbsoluteDeviation (Y := Y) (A := A) eps absolute m) s) /\
  (forall Y A (NA : Num A) window_size max_depth s, ignores_labels (HalfSpaceTrees (Y := Y) (A := A) window_size max_depth) s) /\
  (forall X Y A (d : Detector X Y A) s, ignores_labels (OneFitModel d) s) /\
  (forall X Y A L (stream : X -> M L A) s, ignores_labels (LocalOutlierProbability (Y := Y) stream) s) /\
  (forall Y A (NA : Num A) log ceil thr min_val step num_bins window_size s, ignores_labels (RelativeEntropy (Y := Y) (A := A) log ceil thr min_val step num_bins window_size) s) /\
  (forall X Y A (NA : Num A) (d : RCTree X A) tree_size s, ignores_labels (RobustRandomCutForest (Y := Y) d tree_size) s) /\
  (forall Y A (NA : Num A) pow2 log floor decay comps s, ignores_labels (RSHash (Y := Y) (A := A) pow2 log floor decay comps) s) /\
  (forall Y A (NA : Num A) half eps log randn perms n_bins n_cuts s, ignores_labels (LODA (Y := Y) (A := A) half eps log randn perms n_bins n_cuts) s) /\
  (forall Y A (NA : Num A) half alarm inverse P s, ignores_labels (KNNCAD (Y := Y) (A := A) half alarm inverse P) s) /\
  (forall Y A (NA : Num A) two one tiny mmh3 pr floor log2 K window_size s, ignores_labels (xStream (Y := Y) (A := A) two one tiny mmh3 pr floor log2 K window_size) s) /\
  (forall Y A (NA : Num A) eps cs ppf stl s, ignores_labels (SeasonalESD (Y := Y) (A := A) eps cs ppf stl) s) /\
  (forall Y A (NA : Num A) p s, ignores_labels (KitNet (Y := Y) (A := A) p) s) /\
  (forall Y A (NA : Num A) p b s, ignores_labels (Inqmad (Y := Y) (A := A) p b) s).
Proof.
  repeat split; intros; try (apply labels_plain; reflexivity).
  intros h c. assert (C : forall c, model_call (SeasonalESD (Y := Y) eps cs ppf stl) c = model_call (SeasonalESD (Y := Y) eps cs ppf stl) (unlabelled c)) by (intros [x y|x|x y]; reflexivity). rewrite <- C. f_equal. revert s. induction h as [|o h IH]; intros s; auto. cbn [map]. change (model_run (SeasonalESD (Y := Y) eps cs ppf stl) s (o :: h)) with (model_run (SeasonalESD (Y := Y) eps cs ppf stl) (model_do (SeasonalESD (Y := Y) eps cs ppf stl) s o) h). rewrite IH. unfold model_do at 1. rewrite C. reflexivity.
Qed.
Print Assumptions C91_labels_are_ignored.
(** Refuted for IForestASD: with an initial window and no initial labels, labels in the stream make fit_partial fail at
    every retraining, although the isolation forest does not use them. *)
Theorem C91_iforest_asd_refuted : forall X Y A (d : Detector X Y A) (x : X) (y : Y) x0 s, RW_init d (Some x0) None = (Ok tt, s) ->
  eval (model_call (IForestASD d 1) (CFit x (Some y))) s = Raise ValueError /\
  eval (model_call (IForestASD d 1) (CFit x None)) s = rmap (fun _ => None) (fst (dt_fit d (skipn (length (x0 ++ [x]) - 1) (x0 ++ [x])) None (dt_new d 1))).
Proof.
  intros X Y A d x y x0 s H. unfold RW_init, rw_fit_model in H. cbn [rw_refX rw_refY rw_built] in H. destruct (dt_fit d x0 None (dt_new d 0)) as [r m]. cbn in H. inversion H. subst. split; [reflexivity|].
  unfold eval, model_call, IForestASD, ReferenceWindowModel. cbn [md_fit plain_model]. unfold rw_fit, bind, modify, gets. cbn. unfold rw_fit_model. cbn. destruct (dt_fit d _ None (dt_new d 1)) as [[[]|] ?]; reflexivity.
Qed.
Print Assumptions C91_iforest_asd_refuted.
(** PerfectModel is the one detector that needs the label. *)
Theorem C91_perfect_model_refuted : forall X Y (x : X) (y : Y), ~ ignores_labels (PerfectModel (X := X) (Y := Y)) [].
Proof. intros X Y x y I. specialize (I [] (CFit x (Some y))). cbn in I. discriminate. Qed.
Print Assumptions C91_perfect_model_refuted.

(** ** Concrete cases *)
(** ExactStorm on binary64, window of 3: with or without the intermediate scores the answer is the same, and not trivial. *)
Definition storm_h : list (mcall (list float) unit) := [CFit [0%float] None; CScore [1%float]; CFitScore [1%float] None; CScore [5%float]; CFit [9%float] None].
Example C90_ex_storm : map (fun h => eval (model_call (ExactStorm 2%float) (CScore [1%float])) (model_run (ExactStorm 2%float) (Window_init 3) h)) [storm_h; flat_map quiet storm_h] = repeat (Ok (Some (VScalar 1%float))) 2 /\
  length (flat_map quiet storm_h) = 3.
Proof. split; vm_compute; reflexivity. Qed.
Example C90_ex_storm_far : eval (model_call (ExactStorm 2%float) (CScore [50%float])) (model_run (ExactStorm 2%float) (Window_init 3) storm_h) = Ok (Some (VScalar 0%float)).
Proof. vm_compute; reflexivity. Qed.
(** Labels: the same detector with and without them. *)
Example C91_ex_storm : map (fun o : option unit => eval (model_call (ExactStorm 2%float) (CScore [1%float])) (model_run (ExactStorm 2%float) (Window_init 3) [CFit [0%float] o; CFit [1%float] o; CFit [9%float] o])) [None; Some tt] = repeat (Ok (Some (VScalar 1%float))) 2.
Proof. vm_compute; reflexivity. Qed.
(** A detector that scores the distance from the number of training instances, for the refutation on IForestASD. *)
Definition size_detector : Detector Z bool Z := mkDetector Z bool Z nat (fun _ => 0) (fun xs _ _ => (Ok tt, length xs)) (fun x s => Ok (Z.abs (x - Z.of_nat s))).
Example C91_ex_iforest : let s := snd (RW_init size_detector (Some [4; 5; 6]%Z) None) in
  eval (model_call (IForestASD size_detector 1) (CFit 7%Z (Some true))) s = Raise ValueError /\ eval (model_call (IForestASD size_detector 1) (CFit 7%Z None)) s = Ok None.
Proof. split; reflexivity. Qed.
