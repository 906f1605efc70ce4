(** * Lemmas for postprocessors, calibrators and ensemblers. *)
From Coq Require Import List ZArith Lia Bool Reals Lra Permutation Sorted Arith.
From Verif Require Import Base Num Spec Model_Stats Model_Utils Model_Core Model_Post P_Lists P_Stats P_Utils P_Core.
Import ListNotations.
Open Scope R_scope.

(** ** Streams of scores *)
Definition post_step {X A} (p : Postprocessor X A) (x : X) (s : pp_state p) : res (npres A) * pp_state p :=
  match pp_fit p x s with
  | (Ok _, s1) => match pp_transform p x s1 with (Ok v, s2) => (store v, s2) | (Raise e, s2) => (Raise e, s2) end
  | (Raise e, s1) => (Raise e, s1)
  end.
Lemma post_fit_transform_step : forall X A (p : Postprocessor X A) xs s,
  Post_fit_transform p xs s = mapM (post_step p) xs s.
Proof.
  intros. unfold Post_fit_transform. rewrite map_gen_none. apply mapM_ext. intros x s0.
  unfold pp_fit_transform, post_step, bind, lift. simpl.
  destruct (pp_fit p x s0) as [[[]|e] s1]; auto.
Qed.
Lemma post_stream : forall X A (p : Postprocessor X A) (Rl : list X -> pp_state p -> Prop) (f : list X -> npres A),
  (forall past s x, Rl past s -> exists s', post_step p x s = (Ok (f (past ++ [x])), s') /\ Rl (past ++ [x]) s') ->
  forall xs past s, Rl past s -> exists s',
    Post_fit_transform p xs s = (Ok (map f (map (app past) (prefixes xs))), s') /\ Rl (past ++ xs) s'.
Proof.
  intros X A p Rl f H xs. induction xs as [|x xs IH]; intros past s Hs.
  - exists s. rewrite post_fit_transform_step, app_nil_r. simpl. auto.
  - destruct (H past s x Hs) as (s1 & E1 & H1).
    destruct (IH (past ++ [x]) s1 H1) as (s2 & E2 & H2).
    exists s2. rewrite <- app_assoc in H2. split; auto.
    rewrite post_fit_transform_step in *. simpl. unfold bind, ret. rewrite E1, E2.
    f_equal. f_equal. f_equal. rewrite !map_map. apply map_ext. intros l. rewrite <- app_assoc. reflexivity.
Qed.
Lemma prefixes_nonempty : forall A (l : list A) p, In p (prefixes l) -> p <> [].
Proof.
  intros A l; induction l as [|x l IH]; simpl; intros p H; [contradiction|].
  destruct H as [<-|H]; [congruence|]. apply in_map_iff in H. destruct H as (q & <- & _). congruence.
Qed.
Lemma prefixes_spec : forall A (l : list A), prefixes l = map (fun i => firstn (S i) l) (seq 0 (length l)).
Proof.
  intros A l; induction l as [|x l IH]; simpl; auto. f_equal. rewrite IH, map_map.
  rewrite <- seq_shift, map_map. reflexivity.
Qed.

(** ** Statistics under an affine map *)
Lemma Rsum_affine : forall a b l, Rsum (map (fun x => a * x + b) l) = a * Rsum l + INR (length l) * b.
Proof.
  intros a b l. rewrite (Rsum_map_plus _ (fun x => a * x) (fun _ => b)), (Rsum_map_scal _ a (fun x => x)), map_id, Rsum_map_const.
  reflexivity.
Qed.
Lemma mean_affine : forall a b l, l <> [] -> mean (map (fun x => a * x + b) l) = a * mean l + b.
Proof.
  intros a b l H. unfold mean, Rlen. rewrite Rsum_affine, map_length.
  pose proof (INR_length_pos _ l H). field. lra.
Qed.
Lemma variance_affine : forall a b l, l <> [] -> variance (map (fun x => a * x + b) l) = a ^ 2 * variance l.
Proof.
  intros a b l H. unfold variance. rewrite mean_affine by auto. rewrite map_map.
  unfold mean at 1 3, Rlen. rewrite !map_length.
  rewrite (map_ext _ (fun x => a ^ 2 * (x - mean l) ^ 2)) by (intros; ring).
  rewrite Rsum_map_scal. pose proof (INR_length_pos _ l H). field. lra.
Qed.
Lemma std_affine : forall a b l, l <> [] -> 0 < a -> std (map (fun x => a * x + b) l) = a * std l.
Proof.
  intros. unfold std. rewrite variance_affine by auto.
  rewrite sqrt_mult_alt by (apply pow2_ge_0). rewrite sqrt_pow2 by lra. reflexivity.
Qed.
Lemma std_pos : forall l, l <> [] -> (exists a b, In a l /\ In b l /\ a <> b) -> 0 < std l.
Proof.
  intros l H (a & b & Ha & Hb & N). unfold std. apply sqrt_lt_R0.
  pose proof (variance_nonneg l). destruct (Req_dec (variance l) 0) as [E|E]; [|lra].
  exfalso. apply N. apply (proj1 (variance_zero_iff l H) E); auto.
Qed.

(** ** z-score *)
Definition zscore (l : list R) (x : R) : npres R :=
  if Req_EM_T (variance l) 0 then NonFin else FinV ((x - mean l) / std l).
Lemma zscore_model : forall l x, np_div_by (x - mean l) (np_sqrt (variance l)) = zscore l x.
Proof.
  intros. unfold np_div_by, np_sqrt, zscore. cbn [oltb num_ord NumR OrdR n0 nsqrt].
  pose proof (variance_nonneg l).
  destruct (Rltb (variance l) 0) eqn:E; [apply Rltb_lt in E; lra|].
  unfold npdiv. cbn [oeqb num_ord NumR OrdR n0 ndiv].
  destruct (Req_EM_T (variance l) 0) as [Z|Z].
  - rewrite Z, sqrt_0. destruct (Reqb 0 0) eqn:Q; auto. apply Reqb_neq in Q. lra.
  - destruct (Reqb (R_sqrt.sqrt (variance l)) 0) eqn:Q; auto.
    apply Reqb_eq in Q. apply sqrt_eq_0 in Q; lra.
Qed.
Lemma zscore_affine : forall a b l x, l <> [] -> 0 < a -> zscore (map (fun y => a * y + b) l) (a * x + b) = zscore l x.
Proof.
  intros a b l x H Ha. unfold zscore. rewrite variance_affine, mean_affine, std_affine by auto.
  assert (0 < a ^ 2) by (apply pow_lt; auto).
  destruct (Req_EM_T (variance l) 0) as [E|E], (Req_EM_T (a ^ 2 * variance l) 0) as [F|F]; auto.
  - exfalso. apply F. rewrite E. lra.
  - exfalso. apply E. apply Rmult_eq_reg_l with (a ^ 2); lra.
  - f_equal. assert (std l <> 0).
    { unfold std. intros Q. apply sqrt_eq_0 in Q; auto. apply variance_nonneg. }
    field. split; lra.
Qed.

Definition ZRel (l : list R) (s : pp_state (ZScorePostprocessor (A := R))) : Prop :=
  var_R l (fst s) /\ sum_R l (snd s).
Lemma zscore_fit : forall l s x, ZRel l s -> exists s', pp_fit ZScorePostprocessor x s = (Ok tt, s') /\ ZRel (x :: l) s'.
Proof.
  intros l [v a] x [Hv Ha]. cbn [pp_fit ZScorePostprocessor]. unfold bind, zoom.
  destruct (rep_upd _ _ _ var_rep _ _ x Hv) as (v' & E1 & H1). cbn [fst snd] in *. rewrite E1.
  destruct (rep_upd _ _ _ avg_rep _ _ x Ha) as (a' & E2 & H2). cbn [fst snd] in *. rewrite E2.
  eexists. split; [reflexivity|]. split; auto.
Qed.
Lemma zscore_transform : forall l s x, ZRel l s -> l <> [] ->
  exists s', pp_transform ZScorePostprocessor x s = (Ok (VScalar (zscore l x)), s') /\ ZRel l s'.
Proof.
  intros l [v a] x [Hv Ha] N. cbn [pp_transform ZScorePostprocessor]. unfold bind, zoom, ret.
  destruct (rep_get _ _ _ avg_rep _ _ Ha) as (a' & E2 & H2). cbn [fst snd] in *. rewrite E2.
  destruct (rep_get _ _ _ var_rep _ _ Hv) as (v' & E1 & H1). cbn [fst snd] in *.
  unfold avg_spec, var_spec in *. destruct l; [congruence|]. cbn [fst snd]. rewrite E1.
  eexists. split; [rewrite <- zscore_model; reflexivity|]. split; auto.
Qed.
Lemma ZRel_perm : forall l l' s, Permutation l l' -> ZRel l s -> ZRel l' s.
Proof.
  intros l l' s P [H1 H2]. split; eapply rep_perm; eauto using var_rep, avg_rep.
Qed.
Lemma ZRel_init : ZRel [] (mt_init VarianceMeter, mt_init AverageMeter).
Proof. split; [apply (rep_init _ _ _ var_rep) | apply (rep_init _ _ _ avg_rep)]. Qed.

(** Running z-score *)
Definition RZRel (w : Z) (xs : list R) (s : pp_state (RunningZScorePostprocessor (A := R))) : Prop :=
  RunRep VarianceMeter var_R w xs (fst s) /\ RunRep AverageMeter sum_R w xs (snd s).
Lemma rz_fit : forall w xs s x, RZRel w xs s -> exists s', pp_fit RunningZScorePostprocessor x s = (Ok tt, s') /\ RZRel w (xs ++ [x]) s'.
Proof.
  intros w xs [v a] x [Hv Ha]. cbn [pp_fit RunningZScorePostprocessor]. unfold bind, zoom. cbn [fst snd] in *.
  destruct (running_step _ _ _ var_rep w xs v x Hv) as (v' & E1 & H1). rewrite E1.
  destruct (running_step _ _ _ avg_rep w xs a x Ha) as (a' & E2 & H2). cbn [fst snd]. rewrite E2.
  eexists. split; [reflexivity|]. split; auto.
Qed.
Lemma rz_transform : forall w xs s x, RZRel w xs s -> (1 <= w)%Z -> xs <> [] ->
  exists s', pp_transform RunningZScorePostprocessor x s = (Ok (VScalar (zscore (lastn (Z.to_nat w) xs) x)), s') /\ RZRel w xs s'.
Proof.
  intros w xs [v a] x [Hv Ha] Hw N. cbn [pp_transform RunningZScorePostprocessor]. unfold bind, zoom, ret. cbn [fst snd] in *.
  destruct (running_get _ _ _ avg_rep w xs a Ha) as (a' & E2 & H2). rewrite E2.
  destruct (running_get _ _ _ var_rep w xs v Hv) as (v' & E1 & H1).
  pose proof (lastn_nonempty _ (Z.to_nat w) xs ltac:(lia) N) as NL.
  unfold avg_spec, var_spec in *. destruct (lastn (Z.to_nat w) xs) eqn:EL; [congruence|]. cbn [fst snd]. rewrite E1.
  eexists. split; [rewrite <- zscore_model; reflexivity|]. split; auto.
Qed.

(** ** Counting *)
Lemma filter_length_le : forall A (f : A -> bool) l, (length (filter f l) <= length l)%nat.
Proof. induction l; simpl; auto. destruct (f a); simpl; lia. Qed.
Lemma filter_impl_length : forall A (f g : A -> bool) l, (forall x, In x l -> f x = true -> g x = true) ->
  (length (filter f l) <= length (filter g l))%nat.
Proof.
  induction l as [|a l IH]; simpl; intros H; auto.
  assert (length (filter f l) <= length (filter g l))%nat by (apply IH; auto).
  destruct (f a) eqn:Ef.
  - rewrite (H a) by auto. simpl. lia.
  - destruct (g a); simpl; lia.
Qed.
Lemma filter_lt_length : forall A (f : A -> bool) l a, In a l -> f a = false -> (length (filter f l) < length l)%nat.
Proof.
  induction l as [|b l IH]; simpl; intros a Ha0 F; [contradiction|]; destruct Ha0 as [->|Ha].
  - rewrite F. pose proof (filter_length_le _ f l). lia.
  - specialize (IH a Ha F). destruct (f b); simpl; lia.
Qed.

(** ** Monotone sorting *)
Lemma insert_le_left : forall (l l' : list R) y x', Forall2 Rle l l' -> (forall z, In z l -> y <= z) ->
  StronglySorted Rle l -> y <= x' -> Forall2 Rle (y :: l) (insert_sorted x' l').
Proof.
  intros l l' y x' F. revert y. induction F as [|z z' l l' Hz F IH]; intros y Hy S Hx; simpl.
  - auto.
  - destruct (Rleb x' z') eqn:E.
    + constructor; auto.
    + apply Rleb_nle in E. inversion S; subst. rewrite Forall_forall in H2.
      constructor; [specialize (Hy z (or_introl eq_refl)); lra|]. apply IH; auto. lra.
Qed.
Lemma insert_le_right : forall (l l' : list R) x y', Forall2 Rle l l' -> (forall z, In z l' -> y' <= z) ->
  StronglySorted Rle l' -> x <= y' -> Forall2 Rle (insert_sorted x l) (y' :: l').
Proof.
  intros l l' x y' F. revert y'. induction F as [|z z' l l' Hz F IH]; intros y' Hy S Hx; simpl.
  - auto.
  - destruct (Rleb x z) eqn:E.
    + constructor; auto.
    + apply Rleb_nle in E. inversion S; subst. rewrite Forall_forall in H2.
      constructor; [lra|]. apply IH; auto. specialize (Hy z' (or_introl eq_refl)). lra.
Qed.
Lemma insert_mono : forall (l l' : list R) x x', Forall2 Rle l l' -> x <= x' ->
  StronglySorted Rle l -> StronglySorted Rle l' -> Forall2 Rle (insert_sorted x l) (insert_sorted x' l').
Proof.
  intros l l' x x' F Hx. induction F as [|z z' l l' Hz F IH]; intros S S'; simpl.
  - auto.
  - inversion S; inversion S'; subst. rewrite Forall_forall in *.
    destruct (Rleb x z) eqn:E, (Rleb x' z') eqn:E'.
    + auto.
    + apply Rleb_le in E. apply Rleb_nle in E'. constructor; [lra|]. apply insert_le_left; auto. lra.
    + apply Rleb_nle in E. apply Rleb_le in E'. constructor; [lra|]. apply insert_le_right; auto. lra.
    + constructor; auto.
Qed.
Lemma ole_Rle_sorted : forall l : list R, StronglySorted Rle (sorted l).
Proof.
  intros l. pose proof (sorted_sorted l) as S. induction S; constructor; auto.
  rewrite Forall_forall in *. intros. apply Rleb_le. apply H; auto.
Qed.
Lemma sorted_mono : forall l l' : list R, Forall2 Rle l l' -> Forall2 Rle (sorted l) (sorted l').
Proof.
  intros l l' F. induction F; simpl; auto. apply insert_mono; auto; apply ole_Rle_sorted.
Qed.
Lemma Forall2_nth : forall (l l' : list R) i, Forall2 Rle l l' -> nth i l 0 <= nth i l' 0.
Proof. intros l l' i F. revert i. induction F; intros [|i]; simpl; auto; lra. Qed.
Lemma median_mono : forall l l', Forall2 Rle l l' -> median_fn l <= median_fn l'.
Proof.
  intros l l' F. pose proof (Forall2_length _ _ _ _ _ F) as L. pose proof (sorted_mono _ _ F) as S.
  unfold median_fn. rewrite <- L. destruct (Nat.odd (length l)).
  - apply Forall2_nth; auto.
  - pose proof (Forall2_nth _ _ (length l / 2 - 1) S). pose proof (Forall2_nth _ _ (length l / 2) S). lra.
Qed.
Lemma median_perm : forall l l', Permutation l l' -> median_fn l = median_fn l'.
Proof.
  intros l l' P. unfold median_fn. rewrite (sorted_eq_of_perm _ _ P), (Permutation_length P). reflexivity.
Qed.
Lemma median_bounds : forall l lo hi, l <> [] -> (forall x, In x l -> lo <= x <= hi) -> lo <= median_fn l <= hi.
Proof.
  intros l lo hi H B.
  assert (N : forall i, (i < length l)%nat -> lo <= nth i (sorted l) 0 <= hi).
  { intros i Hi. apply B. eapply Permutation_in; [apply sorted_perm|]. apply nth_In. rewrite sorted_length. auto. }
  assert (0 < length l)%nat by (destruct l; simpl; [congruence|lia]).
  assert (length l / 2 < length l)%nat by (apply Nat.div_lt; lia).
  unfold median_fn. destruct (Nat.odd (length l)).
  - apply N; auto.
  - pose proof (N (length l / 2)%nat ltac:(lia)). pose proof (N (length l / 2 - 1)%nat ltac:(lia)). lra.
Qed.

(** ** Buckets *)
Lemma slices_concat : forall A n size (l : list A), length l = (n * size)%nat -> concat (slices n size l) = l.
Proof.
  induction n; intros size l H; simpl in *.
  - destruct l; auto; discriminate.
  - rewrite IHn by (rewrite skipn_length; lia). apply firstn_skipn.
Qed.
Lemma slices_length : forall A n size (l : list A), length (slices n size l) = n.
Proof. induction n; intros; simpl; auto. Qed.
Lemma slices_sizes : forall A n size (l : list A), length l = (n * size)%nat -> forall b, In b (slices n size l) -> length b = size.
Proof.
  induction n; intros size l H b Hb; simpl in *; [contradiction|].
  destruct Hb as [<-|Hb].
  - rewrite firstn_length. lia.
  - apply IHn in Hb; auto. rewrite skipn_length. lia.
Qed.
Lemma Rsum_concat : forall ls, Rsum (concat ls) = Rsum (map Rsum ls).
Proof.
  induction ls as [|l ls IH]; auto. cbn [concat map]. rewrite Rsum_app, IH. reflexivity.
Qed.
Lemma np_mean_R : forall l : list R, l <> [] -> np_mean l = Ok (mean l).
Proof.
  intros l H. unfold np_mean, div_int. rewrite nsum_Rsum.
  destruct (Z.eqb_spec (Z.of_nat (length l)) 0) as [E|E]; [destruct l; [congruence|simpl in E; lia]|].
  unfold mean, Rlen. rewrite <- INR_Zof_nat. reflexivity.
Qed.
Lemma np_median_R : forall l : list R, l <> [] -> np_median l = Ok (median_fn l).
Proof.
  intros l H. unfold np_median, eval.
  destruct (rep_get _ _ _ med_rep l (mkMed l (Z.of_nat (length l)))) as (s & E & _).
  - split; simpl; auto.
  - rewrite E. unfold med_spec. destruct l; [congruence|reflexivity].
Qed.
(** Mean of bucket means = overall mean, for non-empty buckets of equal size. *)
Lemma mean_of_means : forall n size (l : list R), (0 < n)%nat -> (0 < size)%nat -> length l = (n * size)%nat ->
  mean (map mean (slices n size l)) = mean l.
Proof.
  intros n size l Hn Hs L. unfold mean at 1, Rlen. rewrite map_length, slices_length.
  assert (E : map mean (slices n size l) = map (fun b => / INR size * Rsum b) (slices n size l)).
  { apply map_ext_in. intros b Hb. unfold mean, Rlen. rewrite (slices_sizes _ n size l L b Hb). unfold Rdiv. ring. }
  rewrite E, Rsum_map_scal, <- Rsum_concat, slices_concat by auto.
  unfold mean, Rlen. rewrite L, mult_INR.
  assert (0 < INR n) by (apply lt_0_INR; auto). assert (0 < INR size) by (apply lt_0_INR; auto).
  field. lra.
Qed.
Lemma mean_mono : forall A (f g : A -> R) l, l <> [] -> (forall x, In x l -> f x <= g x) -> mean (map f l) <= mean (map g l).
Proof.
  intros A f g l H Hx. unfold mean, Rlen. rewrite !map_length. pose proof (INR_length_pos _ l H).
  apply Rmult_le_compat_r; [left; apply Rinv_0_lt_compat; auto|]. apply Rsum_le; auto.
Qed.

(** ** Histories of partial calls *)
(** A client calls fit_partial and transform_partial in any order and ignores what they return or raise. *)
Inductive pop (X : Type) : Type := PFit (x : X) | PTransform (x : X).
Arguments PFit {X}.
Arguments PTransform {X}.
Definition post_do {X A} (p : Postprocessor X A) (s : pp_state p) (o : pop X) : pp_state p :=
  match o with PFit x => exec (pp_fit p x) s | PTransform x => exec (pp_transform p x) s end.
Definition post_run {X A} (p : Postprocessor X A) (s0 : pp_state p) (h : list (pop X)) : pp_state p :=
  fold_left (post_do p) h s0.
Definition fitted {X} (h : list (pop X)) : list X := flat_map (fun o => match o with PFit x => [x] | _ => [] end) h.
(** transform_partial(x) depends only on x and on the values fitted so far (in order). *)
Definition history_law {X A} (p : Postprocessor X A) (s0 : pp_state p) (spec : list X -> X -> res (pyval A)) : Prop :=
  forall h x, eval (pp_transform p x) (post_run p s0 h) = spec (fitted h) x.
(** fit_transform on a stream. *)
Definition stream_law {X A} (p : Postprocessor X A) (s0 : pp_state p) (f : list X -> npres A) : Prop :=
  forall xs, eval (Post_fit_transform p xs) s0 = Ok (map f (prefixes xs)).

Lemma history_of_inv : forall X A (p : Postprocessor X A) s0 spec (Rl : list X -> pp_state p -> Prop),
  Rl [] s0 ->
  (forall l s x, Rl l s -> exists s', pp_fit p x s = (Ok tt, s') /\ Rl (l ++ [x]) s') ->
  (forall l s x, Rl l s -> exists s', pp_transform p x s = (spec l x, s') /\ Rl l s') ->
  history_law p s0 spec.
Proof.
  intros X A p s0 spec Rl H0 Hf Ht h x.
  assert (G : forall h l s, Rl l s -> Rl (l ++ fitted h) (post_run p s h)).
  { induction h0 as [|o h0 IH]; intros l s Hs.
    - cbn. rewrite app_nil_r; auto.
    - destruct o as [y|y].
      + destruct (Hf l s y Hs) as (s' & E & Hs'). change (post_run p s (PFit y :: h0)) with (post_run p (snd (pp_fit p y s)) h0). rewrite E. cbn [snd].
        change (fitted (PFit y :: h0)) with ([y] ++ fitted h0). rewrite app_assoc.
        apply IH; auto.
      + destruct (Ht l s y Hs) as (s' & E & Hs'). change (post_run p s (PTransform y :: h0)) with (post_run p (snd (pp_transform p y s)) h0). rewrite E. cbn [snd].
        apply IH; auto. }
  specialize (G h [] s0 H0). simpl in G. destruct (Ht _ _ x G) as (s' & E & _). unfold eval. rewrite E. reflexivity.
Qed.
Lemma stream_of_inv : forall X A (p : Postprocessor X A) s0 spec (f : list X -> npres A) (Rl : list X -> pp_state p -> Prop),
  Rl [] s0 ->
  (forall l s x, Rl l s -> exists s', pp_fit p x s = (Ok tt, s') /\ Rl (l ++ [x]) s') ->
  (forall l s x, Rl l s -> exists s', pp_transform p x s = (spec l x, s') /\ Rl l s') ->
  (forall l x, rbind (spec (l ++ [x]) x) store = Ok (f (l ++ [x]))) ->
  stream_law p s0 f.
Proof.
  intros X A p s0 spec f Rl H0 Hf Ht Hs xs.
  destruct (post_stream X A p Rl f) with (xs := xs) (past := @nil X) (s := s0) as (s' & E & _); auto.
  - intros past s x R0. destruct (Hf _ _ x R0) as (s1 & E1 & R1). destruct (Ht _ _ x R1) as (s2 & E2 & R2).
    exists s2. unfold post_step. rewrite E1, E2. specialize (Hs past x). split; auto.
    destruct (spec (past ++ [x]) x); simpl in *; [|discriminate]. rewrite Hs. reflexivity.
  - unfold eval. rewrite E. simpl. f_equal. f_equal. rewrite map_id. reflexivity.
Qed.

Lemma meterpost_inv : forall A (m : Meter A A) spec Rl, Rep m spec Rl ->
  Rl [] (mt_init m) /\
  (forall l s x, Rl l s -> exists s', pp_fit (MeterPost m) x s = (Ok tt, s') /\ Rl (l ++ [x]) s') /\
  (forall l s x, Rl l s -> exists s', pp_transform (MeterPost m) x s = (rmap VScalar (spec l), s') /\ Rl l s').
Proof.
  intros A m spec Rl HR. split; [apply rep_init with (1 := HR)|]. split.
  - intros l s x H. destruct (rep_upd _ _ _ HR l s x H) as (s' & E & H'). exists s'. split; auto.
    eapply rep_perm; [exact HR| |exact H']. apply Permutation_cons_append.
  - intros l s x H. destruct (rep_get _ _ _ HR l s H) as (s' & E & H'). exists s'.
    simpl. unfold bind, ret. rewrite E. destruct (spec l); simpl; auto.
Qed.
Lemma runpost_inv : forall A (m : Meter A A) spec Rl (w : Z), Rep m spec Rl ->
  RunRep m Rl w [] (mkRun (mt_init m) w []) /\
  (forall l s x, RunRep m Rl w l s -> exists s', pp_fit (RunningPost m) x s = (Ok tt, s') /\ RunRep m Rl w (l ++ [x]) s') /\
  (forall l s x, RunRep m Rl w l s -> exists s', pp_transform (RunningPost m) x s = (rmap VScalar (spec (lastn (Z.to_nat w) l)), s') /\ RunRep m Rl w l s').
Proof.
  intros A m spec Rl w HR. split; [apply running_init with (1 := HR)|]. split.
  - intros l s x H. apply (running_step m spec Rl HR w l s x H).
  - intros l s x H. destruct (running_get m spec Rl HR w l s H) as (s' & E & H'). exists s'.
    simpl. unfold bind, ret. rewrite E. destruct (spec _); simpl; auto.
Qed.
Lemma snoc_nonempty : forall A (l : list A) x, l ++ [x] <> [].
Proof. intros A [|a l] x; simpl; congruence. Qed.
Lemma avg_spec_ok : forall l, l <> [] -> avg_spec l = Ok (mean l).
Proof. intros [|x l] H; [congruence|reflexivity]. Qed.
Lemma var_spec_ok : forall l, l <> [] -> var_spec l = Ok (variance l).
Proof. intros [|x l] H; [congruence|reflexivity]. Qed.
Lemma med_spec_ok : forall l, l <> [] -> med_spec l = Ok (median_fn l).
Proof. intros [|x l] H; [congruence|reflexivity]. Qed.
