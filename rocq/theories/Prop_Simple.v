(** * Properties of the elementary detectors (C49-C52, C70, C71). *)
From Coq Require Import List ZArith Lia Bool Reals Lra Permutation Arith Sorted.
From Verif Require Import Base Num Spec Model_Stats Model_Utils Model_Core Model_Simple P_Lists P_Stats P_Utils P_Core P_Post P_Models.
Import ListNotations.
Open Scope R_scope.

(** ** C49 *)
(** The labels given to fit_partial / fit_score_partial, in order. *)
Definition labels {X Y} (h : list (mcall X Y)) : list Y :=
  flat_map (fun c : X * option Y => match snd c with Some y => [y] | None => [] end) (fitted_calls h).
Lemma perfect_run : forall X Y (h : list (mcall X Y)) q,
  map VScalar (q ++ labels h) = model_scores PerfectModel q h ++ map VScalar (model_run PerfectModel q h).
Proof.
  intros X Y h. induction h as [|o h IH]; intros q.
  - cbn. rewrite app_nil_r. reflexivity.
  - cbn [model_scores model_run fold_left]. unfold labels, fitted_calls. cbn [flat_map]. rewrite flat_map_app.
    change (flat_map (fun c : X * option Y => match snd c with Some y => [y] | None => [] end) (flat_map call_fit h)) with (labels h).
    fold (model_run (PerfectModel (X := X) (Y := Y)) (model_do PerfectModel q o) h). rewrite <- app_assoc, <- IH.
    destruct o as [x [y|]|x|x [y|]]; cbn [call_fit flat_map snd app]; unfold model_do, exec, eval; cbn.
    + rewrite <- app_assoc. reflexivity.
    + reflexivity.
    + unfold bind, gets, lift, modify, ret, py_index. destruct q as [|a q]; reflexivity.
    + unfold default_fit_score, bind, gets, lift, modify, ret, py_index. destruct q as [|a q]; cbn; [reflexivity|]. rewrite <- app_assoc. reflexivity.
    + reflexivity.
Qed.
Theorem C49_fifo : forall X Y (h : list (mcall X Y)), exists pending,
  map VScalar (labels h) = model_scores PerfectModel [] h ++ map VScalar pending /\
  (forall x, eval (md_score PerfectModel x) (model_run PerfectModel [] h) =
     match pending with [] => Raise IndexError | y :: _ => Ok (VScalar y) end).
Proof.
  intros X Y h. exists (model_run PerfectModel [] h). split; [apply (perfect_run X Y h [])|].
  intros x. cbn. unfold eval, bind, gets, lift, modify, ret, py_index. destruct (model_run PerfectModel [] h); reflexivity.
Qed.
Print Assumptions C49_fifo.
Theorem C49_unlabelled_fit_rejected : forall X Y (h : list (mcall X Y)) x,
  md_fit PerfectModel x None (model_run PerfectModel [] h) = (Raise ValueError, model_run PerfectModel [] h).
Proof. reflexivity. Qed.
Print Assumptions C49_unlabelled_fit_rejected.
Theorem C49_fit_score_returns_labels : forall X Y (xs : list X) (ys : list Y), length xs = length ys ->
  BaseModel_fit_score PerfectModel xs (Some ys) [] = (Ok (map FinV ys), []).
Proof.
  intros X Y xs ys E. unfold BaseModel_fit_score. rewrite map_gen_some by auto. revert ys E.
  induction xs as [|x xs IH]; intros [|y ys] E; try discriminate; auto.
  cbn [combine mapM map]. unfold bind at 1. cbn. unfold bind, default_fit_score in *. cbn in *. rewrite IH by lia. reflexivity.
Qed.
Print Assumptions C49_fit_score_returns_labels.
Example C49_ex : model_scores (PerfectModel (X := unit)) [] [CScore tt; CFit tt (Some 1%Z); CFitScore tt (Some 0%Z); CFit tt None; CScore tt; CScore tt] = [VScalar 1%Z; VScalar 0%Z].
Proof. reflexivity. Qed.

(** ** C50 *)
Definition score_calls {X Y} (h : list (mcall X Y)) : nat := length (filter (fun o => match o with CFit _ _ => false | _ => true end) h).
Theorem C50_null_constant : forall X Y A (half : A) (h : list (mcall X Y)) s,
  model_scores (NullModel half) s h = repeat (VScalar half) (score_calls h).
Proof.
  intros X Y A half h. unfold score_calls. induction h as [|o h IH]; intros s; auto. cbn [model_scores]. rewrite IH.
  destruct o; reflexivity.
Qed.
Print Assumptions C50_null_constant.
Theorem C50_random_draws_in_order : forall X Y A (draw : nat -> A) (h : list (mcall X Y)) k,
  model_scores (RandomModel draw) k h = map (fun i => VScalar (draw i)) (seq k (score_calls h)).
Proof.
  intros X Y A draw h. unfold score_calls. induction h as [|o h IH]; intros k; auto. cbn [model_scores]. rewrite IH.
  destruct o; reflexivity.
Qed.
Print Assumptions C50_random_draws_in_order.
Theorem C50_random_in_range : forall X Y (draw : nat -> R) (h : list (mcall X Y)) k v,
  (forall i, 0 <= draw i < 1) -> In v (model_scores (RandomModel draw) k h) -> exists a, v = VScalar a /\ 0 <= a < 1.
Proof.
  intros X Y draw h k v H I. rewrite C50_random_draws_in_order in I. apply in_map_iff in I. destruct I as (i & <- & _). eauto.
Qed.
Print Assumptions C50_random_in_range.
(** The number of scores, and hence every score, is independent of instances and labels. *)
Definition same_shape {X Y X' Y'} (h : list (mcall X Y)) (h' : list (mcall X' Y')) : Prop :=
  Forall2 (fun o o' => match o, o' with CFit _ _, CFit _ _ | CScore _, CScore _ | CFitScore _ _, CFitScore _ _ => True | _, _ => False end) h h'.
Theorem C50_inputs_ignored : forall X Y X' Y' A (half : A) (draw : nat -> A) (h : list (mcall X Y)) (h' : list (mcall X' Y')) (k : nat), same_shape h h' ->
  model_scores (NullModel half) tt h = model_scores (NullModel (X := X') (Y := Y') half) tt h' /\ model_scores (RandomModel draw) k h = model_scores (RandomModel (X := X') (Y := Y') draw) k h'.
Proof.
  intros X Y X' Y' A half draw h h' k H. rewrite !C50_null_constant, !C50_random_draws_in_order.
  assert (E : score_calls h = score_calls h').
  { induction H as [|o o' h h' Ho H IH]; auto. unfold score_calls in *. destruct o, o'; try contradiction; cbn in *; auto. }
  rewrite E. auto.
Qed.
Print Assumptions C50_inputs_ignored.
Example C50_ex : model_scores (RandomModel (X := unit) (Y := unit) (fun i => (Z.of_nat i * 10)%Z)) 0%nat [CFit tt None; CScore tt; CFitScore tt None; CFit tt None; CScore tt] = [VScalar 0%Z; VScalar 10%Z; VScalar 20%Z].
Proof. reflexivity. Qed.

(** ** C51 *)
Definition dist (a b : list R) : R := sqrt (Rsum (map (fun p => (fst p - snd p) ^ 2) (combine a b))).
Definition near (radius : R) (x r : list R) : bool := Rltb (dist r x) radius.
(** The fraction of near instances, 0 if there is no instance. *)
Definition near_fraction (radius : R) (x : list R) (win : list (list R)) : R :=
  match win with [] => 0 | _ => fraction (near radius x) win end.
Lemma euclid_R : forall a b : list R, euclid a b = dist a b.
Proof.
  intros. unfold euclid, dist. rewrite nsum_Rsum. cbn [nsqrt NumR]. do 2 f_equal. apply map_ext. intros [u v]. unfold nsq. cbn [nmul nsub NumR fst snd]. ring.
Qed.
Lemma In_removelast : forall A (l : list A) r, In r (removelast l) -> In r l.
Proof. intros A l r. induction l as [|a l IH]; intros H; [contradiction|]. cbn in H. destruct l; [contradiction|]. destruct H as [<-|H]; [left; auto|right; auto]. Qed.
Lemma storm_score_R : forall radius stored x, (forall r, In r stored -> length r = length x) ->
  storm_score radius stored x = Ok (near_fraction radius x (removelast stored)).
Proof.
  intros radius stored x H. unfold storm_score. cbv zeta.
  assert (H' : forall r, In r (removelast stored) -> length r = length x).
  { intros r Hr. apply H. apply In_removelast. auto. }
  generalize dependent (removelast stored). intros win H'. clear stored H. destruct win as [|r win]; [reflexivity|].
  assert (F : forallb (fun r0 => (length r0 =? length x)%nat) (r :: win) = true) by (apply forallb_forall; intros r0 H0; apply Nat.eqb_eq, H'; auto).
  rewrite F. cbn [length Nat.eqb]. f_equal. unfold near_fraction, fraction, Rlen, near.
  cbn [ndiv nofZ NumR oltb num_ord OrdR]. rewrite !INR_Zof_nat. f_equal. f_equal. f_equal. apply filter_ext. intros r0. rewrite euclid_R. reflexivity.
Qed.
Definition storm_inv (w : Z) (l : list (list R)) (s : window (list R)) : Prop := wd_size s = w /\ wd_items s = lastn (Z.to_nat w) l.
Lemma storm_run : forall Y radius w (h : list (mcall (list R) Y)), storm_inv w (fitted_instances h) (model_run (ExactStorm radius) (Window_init w) h).
Proof.
  intros Y radius w h. refine (plain_run_all _ _ _ _ _ _ (storm_inv w) _ _ h _ _).
  - intros l s x y [E1 E2]. subst w. destruct (window_update_step _ x s l E2) as (s' & E & ES & EI). unfold exec. rewrite E. split; auto.
  - intros l s x R0. unfold exec, bind, Window_get, gets, lift, ret. destruct (storm_score _ _ _); auto.
  - split; auto.
Qed.
Theorem C51_near_fraction : forall Y radius w (h : list (mcall (list R) Y)) x,
  (forall r, In r (fitted_instances h) -> length r = length x) ->
  eval (md_score (ExactStorm radius) x) (model_run (ExactStorm radius) (Window_init w) h) =
  Ok (VScalar (near_fraction radius x (removelast (lastn (Z.to_nat w) (fitted_instances h))))).
Proof.
  intros Y radius w h x H. destruct (storm_run Y radius w h) as [E1 E2]. unfold eval. cbn. unfold bind, Window_get, gets, lift, ret. rewrite E2.
  rewrite storm_score_R; auto. intros r Hr. apply H. eapply In_lastn; eauto.
Qed.
Print Assumptions C51_near_fraction.
Theorem C51_range : forall radius x win, 0 <= near_fraction radius x win <= 1.
Proof.
  intros radius x win. unfold near_fraction. destruct win as [|r win]; [lra|]. unfold fraction, Rlen.
  assert (P : 0 < INR (length (r :: win))) by (apply lt_0_INR; simpl; lia).
  assert (Q : INR (length (filter (near radius x) (r :: win))) <= INR (length (r :: win))) by (apply le_INR, filter_length_le).
  pose proof (pos_INR (length (filter (near radius x) (r :: win)))). split.
  - apply Rmult_le_pos; [auto|left; apply Rinv_0_lt_compat; auto].
  - apply Rmult_le_reg_r with (1 := P). unfold Rdiv. rewrite Rmult_assoc, Rinv_l; lra.
Qed.
Print Assumptions C51_range.
(** A just-fitted instance is never compared with itself. *)
Theorem C51_fit_score_excludes_itself : forall Y radius w (h : list (mcall (list R) Y)) x y, (1 <= w)%Z ->
  (forall r, In r (fitted_instances h) -> length r = length x) ->
  eval (md_fit_score (ExactStorm radius) x y) (model_run (ExactStorm radius) (Window_init w) h) =
  Ok (VScalar (near_fraction radius x (lastn (Z.to_nat w - 1) (fitted_instances h)))).
Proof.
  intros Y radius w h x y Hw H. 
  pose proof (C51_near_fraction Y radius w (h ++ [CFit x y]) x) as C. rewrite fitted_instances_app in C. cbn [fitted_instances fitted_calls flat_map call_fit map app fst] in C.
  replace (Z.to_nat w) with (S (Z.to_nat w - 1)) in C by lia. rewrite lastn_snoc, removelast_last in C. rewrite <- C.
  - rewrite model_run_app. unfold eval. cbn. unfold default_fit_score, bind, model_do, exec. cbn. unfold bind, modify, Window_get, gets. cbn. reflexivity.
  - intros r Hr. apply in_app_or in Hr. destruct Hr as [Hr|[<-|[]]]; auto.
Qed.
Print Assumptions C51_fit_score_excludes_itself.
Theorem C51_scoring_changes_nothing : forall Y radius x (s : window (list R)), exec (md_score (ExactStorm (Y := Y) radius) x) s = s.
Proof. intros. unfold exec. cbn. unfold bind, Window_get, gets, lift, ret. destruct (storm_score _ _ _); auto. Qed.
Print Assumptions C51_scoring_changes_nothing.
Lemma filter_le : forall A (f g : A -> bool) l, (forall a, In a l -> f a = true -> g a = true) -> (length (filter f l) <= length (filter g l))%nat.
Proof.
  induction l as [|a l IH]; intros H; auto. cbn. pose proof (H a (or_introl eq_refl)) as Ha. assert (length (filter f l) <= length (filter g l))%nat by (apply IH; intros; apply H; simpl; auto).
  destruct (f a); [rewrite Ha by auto; cbn; lia|]. destruct (g a); cbn; lia.
Qed.
Lemma near_fraction_le : forall r1 x1 r2 x2 win, (forall r, In r win -> near r1 x1 r = true -> near r2 x2 r = true) ->
  near_fraction r1 x1 win <= near_fraction r2 x2 win.
Proof.
  intros r1 x1 r2 x2 win H. unfold near_fraction. destruct win as [|r win]; [lra|]. unfold fraction, Rlen.
  assert (P : 0 < INR (length (r :: win))) by (apply lt_0_INR; simpl; lia).
  apply Rmult_le_compat_r; [left; apply Rinv_0_lt_compat; auto|]. apply le_INR, filter_le. auto.
Qed.
Theorem C51_monotone_in_radius : forall r1 r2 x win, r1 <= r2 -> near_fraction r1 x win <= near_fraction r2 x win.
Proof. intros. apply near_fraction_le. intros r _. unfold near. rewrite !Rltb_lt. lra. Qed.
Print Assumptions C51_monotone_in_radius.
Lemma dist1 : forall a b, dist [a] [b] = Rabs (a - b).
Proof. intros. unfold dist. simpl. replace ((a - b) * ((a - b) * 1) + 0) with (Rsqr (a - b)) by (unfold Rsqr; ring). apply sqrt_Rsqr_abs. Qed.
Lemma near1 : forall r a b, Rabs (b - a) < r -> near r [a] [b] = true.
Proof. intros. unfold near. rewrite dist1. apply Rltb_lt. auto. Qed.
Lemma far1 : forall r a b, r <= Rabs (b - a) -> near r [a] [b] = false.
Proof. intros. unfold near. rewrite dist1. apply Rltb_nlt. lra. Qed.
Example C51_ex : eval (md_score (ExactStorm (Y := unit) 1) [0]) (model_run (ExactStorm 1) (Window_init 3) [CFit [9] None; CFit [0] None; CFit [5] None; CFit [7] None]) = Ok (VScalar (1 / 2)).
Proof.
  rewrite C51_near_fraction.
  - cbn [fitted_instances fitted_calls flat_map call_fit app map fst]. do 2 f_equal. change (Z.to_nat 3) with 3%nat. cbn [lastn length Nat.sub skipn removelast near_fraction].
    unfold fraction. cbn [filter]. rewrite near1, far1 by (rewrite ?Rminus_0_r; unfold Rabs; destruct (Rcase_abs _); lra). unfold Rlen. cbn [length]. simpl. lra.
  - cbn. intros r H. repeat (destruct H as [<-|H]; [reflexivity|]). contradiction.
Qed.

(** ** C52: the orientation of the score. *)
(** If x1 is at least as far as x2 from every stored instance, x1 never scores higher. *)
Theorem C52_farther_never_scores_higher : forall Y radius w (h : list (mcall (list R) Y)) x1 x2 v1 v2,
  (forall r, In r (fitted_instances h) -> length r = length x1 /\ length r = length x2 /\ dist r x2 <= dist r x1) ->
  eval (md_score (ExactStorm radius) x1) (model_run (ExactStorm radius) (Window_init w) h) = Ok (VScalar v1) ->
  eval (md_score (ExactStorm radius) x2) (model_run (ExactStorm radius) (Window_init w) h) = Ok (VScalar v2) -> v1 <= v2.
Proof.
  intros Y radius w h x1 x2 v1 v2 H E1 E2. rewrite C51_near_fraction in E1 by (intros; apply H; auto). rewrite C51_near_fraction in E2 by (intros; apply H; auto).
  injection E1 as <-. injection E2 as <-. apply near_fraction_le. intros r Hr. unfold near. rewrite !Rltb_lt.
  assert (I : In r (fitted_instances h)).
  { apply In_lastn with (n := Z.to_nat w). apply In_removelast. auto. }
  destruct (H r I) as (_ & _ & D). lra.
Qed.
Print Assumptions C52_farther_never_scores_higher.
Theorem C52_isolated_zero_central_one : forall radius x win, win <> [] ->
  ((forall r, In r win -> radius <= dist r x) -> near_fraction radius x win = 0) /\
  ((forall r, In r win -> dist r x < radius) -> near_fraction radius x win = 1).
Proof.
  intros radius x win NE. assert (P : 0 < INR (length win)) by (apply INR_length_pos; auto). split; intros H.
  - unfold near_fraction. destruct win as [|r0 win]; [congruence|]. unfold fraction, Rlen.
    assert (E : filter (near radius x) (r0 :: win) = []).
    { destruct (filter (near radius x) (r0 :: win)) as [|r l] eqn:Q; auto. assert (I : In r (filter (near radius x) (r0 :: win))) by (rewrite Q; left; auto).
      apply filter_In in I. destruct I as [I N]. unfold near in N. apply Rltb_lt in N. specialize (H r I). lra. }
    rewrite E. simpl length at 1. simpl INR at 1. unfold Rdiv. ring.
  - unfold near_fraction. destruct win as [|r0 win]; [congruence|]. unfold fraction, Rlen.
    assert (E : filter (near radius x) (r0 :: win) = r0 :: win).
    { clear NE P. induction (r0 :: win) as [|a l IH]; auto. cbn. unfold near at 1. assert (Ha : dist a x < radius) by (apply H; left; auto). apply Rltb_lt in Ha. rewrite Ha. f_equal. apply IH. intros; apply H; right; auto. }
    rewrite E. field. lra.
Qed.
Print Assumptions C52_isolated_zero_central_one.
Theorem C52_more_anomalous_scores_higher_refuted : exists (h : list (mcall (list R) unit)) far central vf vc,
  (forall r, In r (removelast (fitted_instances h)) -> dist r central < dist r far) /\
  eval (md_score (ExactStorm (1 / 10)) far) (model_run (ExactStorm (1 / 10)) (Window_init 10000) h) = Ok (VScalar vf) /\
  eval (md_score (ExactStorm (1 / 10)) central) (model_run (ExactStorm (1 / 10)) (Window_init 10000) h) = Ok (VScalar vc) /\ vf < vc.
Proof.
  exists [CFit [0] None; CFit [0] None; CFit [0] None], [5], [0], 0, 1.
  assert (L : forall x : R, (forall r, In r (@fitted_instances (list R) unit [CFit [0] None; CFit [0] None; CFit [0] None]) -> length r = length [x])).
  { cbn. intros x r H. repeat (destruct H as [<-|H]; [reflexivity|]). contradiction. }
  rewrite !C51_near_fraction by auto. cbn [fitted_instances fitted_calls flat_map call_fit app map fst]. rewrite !lastn_all by (cbn [length]; lia). cbn [removelast].
  assert (D5 : dist [0] [5] = 5) by (rewrite dist1; unfold Rabs; destruct (Rcase_abs _); lra).
  assert (D0 : dist [0] [0] = 0) by (rewrite dist1, Rminus_0_r; apply Rabs_R0).
  split; [|split; [|split]].
  - intros r [<-|[<-|[]]]; rewrite D5, D0; lra.
  - do 2 f_equal. apply (C52_isolated_zero_central_one (1 / 10) [5] [[0]; [0]]); [discriminate|]. intros r [<-|[<-|[]]]; rewrite D5; lra.
  - do 2 f_equal. apply (C52_isolated_zero_central_one (1 / 10) [0] [[0]; [0]]); [discriminate|]. intros r [<-|[<-|[]]]; rewrite D0; lra.
  - lra.
Qed.
Print Assumptions C52_more_anomalous_scores_higher_refuted.

(** ** C70, C71 *)
(** The values accepted by a univariate detector: the one-element arrays. *)
Definition univariate {X Y} (h : list (mcall (list X) Y)) : list X :=
  flat_map (fun c : list X * option Y => match fst c with [v] => [v] | _ => [] end) (fitted_calls h).
(** deviation of each value from the median of the values up to and including it *)
Definition running_devs (vs devs : list R) : Prop :=
  Forall2 (fun p d => exists med, is_median med p /\ d = Rabs (last p 0 - med)) (prefixes vs) devs.
Definition devs_fn (vs : list R) : list R := map (fun p => Rabs (last p 0 - median_fn p)) (prefixes vs).
Lemma running_devs_fn : forall vs devs, running_devs vs devs <-> devs = devs_fn vs.
Proof.
  intros vs devs. unfold running_devs, devs_fn.
  assert (NE : forall p, In p (prefixes vs) -> p <> []) by (apply prefixes_nonempty).
  induction (prefixes vs) as [|p ps IH] in devs, NE |- *.
  - split; [intros H; inversion H; auto|intros ->; constructor].
  - split.
    + intros H. inversion H as [|? d ? ds (med & Hm & ->) HF]; subst. cbn. f_equal.
      * rewrite (median_unique med (median_fn p) p Hm); auto. apply median_fn_spec. apply NE; left; auto.
      * apply IH; auto. intros; apply NE; right; auto.
    + intros ->. cbn. constructor.
      * exists (median_fn p). split; auto. apply median_fn_spec. apply NE; left; auto.
      * apply IH; auto. intros; apply NE; right; auto.
Qed.
Lemma prefixes_snoc : forall A (l : list A) x, prefixes (l ++ [x]) = prefixes l ++ [l ++ [x]].
Proof. intros A l x. induction l as [|a l IH]; auto. cbn. rewrite IH, map_app. reflexivity. Qed.
Lemma devs_fn_snoc : forall vs v, devs_fn (vs ++ [v]) = devs_fn vs ++ [Rabs (v - median_fn (vs ++ [v]))].
Proof. intros. unfold devs_fn. rewrite prefixes_snoc, map_app. cbn. rewrite last_last. reflexivity. Qed.
Definition mad_inv (vs : list R) (s : madst R) : Prop := med_R vs (mad_median s) /\ med_R (devs_fn vs) (mad_mad s).
Lemma snoc_perm : forall A (x : A) l, Permutation (x :: l) (l ++ [x]).
Proof. intros. apply Permutation_cons_append. Qed.
Lemma mad_fit_step : forall Y eps b ab vs s v y, mad_inv vs s ->
  exists s', md_fit (MedianAbsoluteDeviation (Y := Y) eps b ab) [v] y s = (Ok tt, s') /\ mad_inv (vs ++ [v]) s'.
Proof.
  intros Y eps b ab vs [m d] v y [H1 H2]. cbn [mad_median mad_mad] in *. cbn [md_fit MedianAbsoluteDeviation plain_model the_value]. unfold on_median, on_mad, zoom, bind, lift.
  destruct (rep_upd _ _ _ med_rep vs m v H1) as (m1 & E1 & R1). cbn [mad_median mad_mad]. rewrite E1.
  apply (rep_perm _ _ _ med_rep _ _ _ (snoc_perm _ v vs)) in R1.
  destruct (rep_get _ _ _ med_rep _ m1 R1) as (m2 & E2 & R2). cbn [mad_median mad_mad]. rewrite E2. rewrite med_spec_ok by (apply snoc_nonempty). cbn [mad_median mad_mad].
  destruct (rep_upd _ _ _ med_rep (devs_fn vs) d (nabs (nsub v (median_fn (vs ++ [v])))) H2) as (d1 & E3 & R3). rewrite E3. eexists. split; [reflexivity|].
  split; cbn [mad_median mad_mad]; auto. rewrite devs_fn_snoc. apply (rep_perm _ _ _ med_rep _ _ _ (snoc_perm _ _ _)) in R3. exact R3.
Qed.
Lemma mad_run : forall Y eps b ab (h : list (mcall (list R) Y)), mad_inv (univariate h) (model_run (MedianAbsoluteDeviation eps b ab) MAD_init h).
Proof.
  intros Y eps b ab h.
  apply (plain_run_inv (list R) Y (npres R) R (madst R) _ _ (fun x _ => match x with [v] => [v] | _ => [] end) mad_inv) with (l := []).
  - intros l s x y H. destruct x as [|v [|v' x]].
    + rewrite app_nil_r. auto.
    + destruct (mad_fit_step Y eps b ab l s v y H) as (s' & E & H'). cbn [md_fit MedianAbsoluteDeviation plain_model] in E. unfold exec. rewrite E. auto.
    + rewrite app_nil_r. auto.
  - intros l [m d] x [H1 H2]. cbn [mad_median mad_mad] in *. unfold exec, on_median, on_mad, zoom, bind, ret. cbn [mad_median mad_mad].
    destruct (rep_get _ _ _ med_rep _ m H1) as (m2 & E2 & R2). rewrite E2. destruct (med_spec l); cbn [snd mad_median mad_mad]; [|split; auto].
    destruct (rep_get _ _ _ med_rep _ d H2) as (d2 & E3 & R3). rewrite E3. destruct (med_spec (devs_fn l)); cbn; split; auto.
  - split; apply (rep_init _ _ _ med_rep).
Qed.
Definition maybe_abs (absolute : bool) (v : R) : R := if absolute then Rabs v else v.
Lemma deviation_R : forall eps ab x c d, 0 < d + eps ->
  deviation_score eps ab x c d = VArray (map (fun v => FinV (maybe_abs ab ((v - c) / (d + eps)))) x).
Proof.
  intros eps ab x c d H. unfold deviation_score. f_equal. apply map_ext. intros v. unfold npdiv. cbn [oeqb num_ord NumR OrdR nsub nadd n0 ndiv].
  destruct (Reqb (d + eps) 0) eqn:Q; [apply Reqb_eq in Q; lra|]. destruct ab; reflexivity.
Qed.
Lemma median_nonneg : forall m l, is_median m l -> (forall d, In d l -> 0 <= d) -> 0 <= m.
Proof.
  intros m l Hm H. assert (NE : l <> []) by (destruct Hm as (s & _ & _ & NE & _); auto). rewrite (median_unique m (median_fn l) l Hm (median_fn_spec l NE)).
  set (hi := Rsum (map Rabs l)).
  apply (median_bounds l 0 hi NE). intros x Hx. split; auto. apply Rle_trans with (Rabs x); [apply Rle_abs|]. unfold hi.
  clear - Hx. induction l as [|a l IH]; [contradiction|]. cbn [map]. change (Rsum (Rabs a :: map Rabs l)) with (Rabs a + Rsum (map Rabs l)).
  assert (0 <= Rsum (map Rabs l)) by (apply Rsum_nonneg; intros z Hz; apply in_map_iff in Hz; destruct Hz as (u & <- & _); apply Rabs_pos).
  destruct Hx as [<-|Hx]; [lra|]. pose proof (IH Hx). pose proof (Rabs_pos a). lra.
Qed.
Theorem C70_score : forall Y eps b ab (h : list (mcall (list R) Y)) x med devs D, 0 < eps -> 0 <= b ->
  is_median med (univariate h) -> running_devs (univariate h) devs -> is_median D devs ->
  eval (md_score (MedianAbsoluteDeviation eps b ab) x) (model_run (MedianAbsoluteDeviation eps b ab) MAD_init h) =
  Ok (VArray (map (fun v => FinV (maybe_abs ab ((v - med) / (b * D + eps)))) x)).
Proof.
  intros Y eps b ab h x med devs D He Hb Hm Hd HD. destruct (mad_run Y eps b ab h) as [R1 R2]. set (s := model_run _ _ h) in *.
  apply running_devs_fn in Hd. subst devs. assert (N1 : univariate h <> []) by (destruct Hm as (? & _ & _ & N & _); auto).
  assert (N2 : devs_fn (univariate h) <> []) by (destruct HD as (? & _ & _ & N & _); auto).
  unfold eval. cbn [md_score MedianAbsoluteDeviation plain_model]. unfold on_median, on_mad, zoom, bind, ret. clearbody s. destruct s as [m d]. cbn [mad_median mad_mad] in *.
  destruct (rep_get _ _ _ med_rep _ m R1) as (m2 & E2 & _). rewrite E2, (med_spec_ok _ N1). cbn [mad_median mad_mad].
  destruct (rep_get _ _ _ med_rep _ d R2) as (d2 & E3 & _). rewrite E3, (med_spec_ok _ N2). cbn [fst].
  rewrite <- (median_unique med _ _ Hm (median_fn_spec _ N1)), <- (median_unique D _ _ HD (median_fn_spec _ N2)).
  assert (0 <= D). { apply (median_nonneg D _ HD). intros d' Hd'. unfold devs_fn in Hd'. apply in_map_iff in Hd'. destruct Hd' as (p & <- & _). apply Rabs_pos. }
  rewrite deviation_R; [reflexivity|]. cbn [nmul NumR]. assert (0 <= b * D) by (apply Rmult_le_pos; auto). lra.
Qed.
Print Assumptions C70_score.
Theorem C70_no_value_no_score : forall Y eps b ab (h : list (mcall (list R) Y)) x, univariate h = [] ->
  eval (md_score (MedianAbsoluteDeviation eps b ab) x) (model_run (MedianAbsoluteDeviation eps b ab) MAD_init h) = Raise IndexError.
Proof.
  intros Y eps b ab h x E. destruct (mad_run Y eps b ab h) as [R1 R2]. rewrite E in *. set (s := model_run _ _ h) in *. clearbody s. destruct s as [m d]. cbn [mad_median mad_mad] in *.
  unfold eval. cbn [md_score MedianAbsoluteDeviation plain_model]. unfold on_median, zoom, bind. cbn [mad_median].
  destruct (rep_get _ _ _ med_rep _ m R1) as (m2 & E2 & _). rewrite E2. reflexivity.
Qed.
Print Assumptions C70_no_value_no_score.
Theorem C70_vectors_rejected : forall Y eps b ab (h : list (mcall (list R) Y)) x y, length x <> 1%nat ->
  let s := model_run (MedianAbsoluteDeviation eps b ab) MAD_init h in
  md_fit (MedianAbsoluteDeviation eps b ab) x y s = (Raise AssertionError, s).
Proof. intros Y eps b ab h [|v [|v' x]] y H s; try reflexivity. simpl in H. lia. Qed.
Print Assumptions C70_vectors_rejected.
(** The quantities of C70_score exist and are unique as soon as a value was fitted. *)
Lemma running_stats_exist : forall vs, vs <> [] -> exists med devs D, is_median med vs /\ running_devs vs devs /\ is_median D devs.
Proof.
  intros vs NE. assert (N2 : devs_fn vs <> []) by (destruct vs; [congruence|discriminate]).
  exists (median_fn vs), (devs_fn vs), (median_fn (devs_fn vs)). split; [apply median_fn_spec; auto|]. split; [apply running_devs_fn; auto|apply median_fn_spec; auto].
Qed.
Theorem C70_finite_and_absolute_nonneg : forall Y eps b ab (h : list (mcall (list R) Y)) x, 0 < eps -> 0 <= b -> univariate h <> [] ->
  exists l, eval (md_score (MedianAbsoluteDeviation eps b ab) x) (model_run (MedianAbsoluteDeviation eps b ab) MAD_init h) = Ok (VArray (map FinV l)) /\
  length l = length x /\ (ab = true -> forall v, In v l -> 0 <= v).
Proof.
  intros Y eps b ab h x He Hb NE. destruct (running_stats_exist _ NE) as (med & devs & D & H1 & H2 & H3).
  exists (map (fun v => maybe_abs ab ((v - med) / (b * D + eps))) x). rewrite (C70_score Y eps b ab h x med devs D He Hb H1 H2 H3), map_map, map_length.
  split; [reflexivity|]. split; [reflexivity|]. intros -> v Hv. apply in_map_iff in Hv. destruct Hv as (u & <- & _). apply Rabs_pos.
Qed.
Print Assumptions C70_finite_and_absolute_nonneg.
Example C70_ex : univariate [CFit [1] None; CFitScore [2; 3] (@None unit); CScore [7]; CFitScore [5] None] = [1; 5].
Proof. reflexivity. Qed.
(** The spread is not the median absolute deviation of the values. *)
Theorem C70_spread_is_the_MAD_refuted : exists vs devs med D true_mad,
  running_devs vs devs /\ is_median D devs /\ is_median med vs /\ is_median true_mad (map (fun v => Rabs (v - med)) vs) /\ D <> true_mad.
Proof.
  assert (M2 : forall a b, a <= b -> is_median ((a + b) / 2) [a; b]).
  { intros a b H. exists [a; b]. split; [reflexivity|]. split; [apply Sorted_cons; [apply Sorted_cons; [apply Sorted_nil|apply HdRel_nil]|apply HdRel_cons; auto]|]. split; [discriminate|]. reflexivity. }
  assert (M1 : forall a, is_median a [a]). { intros a. exists [a]. split; [reflexivity|]. split; [apply Sorted_cons; [apply Sorted_nil|apply HdRel_nil]|]. split; [discriminate|]. reflexivity. }
  exists [0; 2], [Rabs (0 - 0); Rabs (2 - (0 + 2) / 2)], ((0 + 2) / 2), ((Rabs (0 - 0) + Rabs (2 - (0 + 2) / 2)) / 2), ((1 + 1) / 2).
  assert (A0 : Rabs (0 - 0) = 0) by (rewrite Rminus_0_r; apply Rabs_R0).
  assert (A1 : Rabs (2 - (0 + 2) / 2) = 1) by (unfold Rabs; destruct (Rcase_abs _); lra).
  assert (A2 : Rabs (0 - (0 + 2) / 2) = 1) by (unfold Rabs; destruct (Rcase_abs _); lra).
  split; [|split; [|split; [|split]]].
  - unfold running_devs. cbn [prefixes map]. constructor; [exists 0; split; [apply M1|reflexivity]|]. constructor; [|constructor]. exists ((0 + 2) / 2). split; [apply M2; lra|reflexivity].
  - apply M2. rewrite A0, A1. lra.
  - apply M2. lra.
  - cbn [map]. rewrite A1, A2. apply M2. lra.
  - rewrite A0, A1. lra.
Qed.
Print Assumptions C70_spread_is_the_MAD_refuted.

(** C71.  [center] is the statistic named at construction. *)
Inductive center : statname -> list R -> R -> Prop :=
| center_mean : forall l, l <> [] -> center NMean l (mean l)
| center_median : forall l m, is_median m l -> center NMedian l m.
Section SAD.
Variables (Y : Type) (eps : R) (ab : bool) (m : Meter R R) (spec : list R -> res R) (Rl : list R -> mt_state m -> Prop).
Hypothesis HR : Rep m spec Rl.
Definition sad_inv (vs : list R) (s : varst R * mt_state m) : Prop := var_R vs (fst s) /\ Rl vs (snd s).
Lemma sad_run : forall h : list (mcall (list R) Y), sad_inv (univariate h) (model_run (StandardAbsoluteDeviation eps ab m) (SAD_init m) h).
Proof.
  intros h. apply (plain_run_inv (list R) Y (npres R) R (varst R * mt_state m) _ _ (fun x _ => match x with [v] => [v] | _ => [] end) sad_inv) with (l := []).
  - intros l [sv ss] x y [H1 H2]. cbn [fst snd] in *. destruct x as [|v [|v' x]]; [rewrite app_nil_r; split; auto| |rewrite app_nil_r; split; auto].
    unfold exec, the_value, zoom, bind, lift. cbn [fst snd]. destruct (rep_upd _ _ _ var_rep l sv v H1) as (s1 & E1 & R1). rewrite E1. cbn [fst snd].
    destruct (rep_upd _ _ _ HR l ss v H2) as (s2 & E2 & R2). rewrite E2. cbn [fst snd]. split; cbn [fst snd].
    + eapply (rep_perm _ _ _ var_rep); [apply snoc_perm|auto].
    + eapply (rep_perm _ _ _ HR); [apply snoc_perm|auto].
  - intros l [sv ss] x [H1 H2]. cbn [fst snd] in *. unfold exec, zoom, bind, ret. cbn [fst snd].
    destruct (rep_get _ _ _ HR l ss H2) as (s2 & E2 & R2). rewrite E2. destruct (spec l); cbn [fst snd]; [|split; auto].
    destruct (rep_get _ _ _ var_rep l sv H1) as (s1 & E1 & R1). rewrite E1. destruct (var_spec l); cbn [fst snd]; split; auto.
  - split; [apply (rep_init _ _ _ var_rep)|apply (rep_init _ _ _ HR)].
Qed.
Lemma sad_score : forall (h : list (mcall (list R) Y)) x c, 0 < eps -> univariate h <> [] -> spec (univariate h) = Ok c ->
  eval (md_score (StandardAbsoluteDeviation eps ab m) x) (model_run (StandardAbsoluteDeviation eps ab m) (SAD_init m) h) =
  Ok (VArray (map (fun v => FinV (maybe_abs ab ((v - c) / (std (univariate h) + eps)))) x)).
Proof.
  intros h x c He NE EC. destruct (sad_run h) as [H1 H2]. set (s := model_run _ _ h) in *. clearbody s. destruct s as [sv ss]. cbn [fst snd] in *.
  unfold eval. cbn [md_score StandardAbsoluteDeviation plain_model]. unfold zoom, bind, ret. cbn [fst snd].
  destruct (rep_get _ _ _ HR _ ss H2) as (s2 & E2 & R2). rewrite E2, EC. cbn [fst snd].
  destruct (rep_get _ _ _ var_rep _ sv H1) as (s1 & E1 & R1). rewrite E1. destruct (univariate h) as [|v0 l] eqn:EU; [congruence|]. cbn [var_spec fst].
  rewrite deviation_R; [reflexivity|]. cbn [nsqrt NumR]. pose proof (sqrt_pos (variance (v0 :: l))). lra.
Qed.
End SAD.
Theorem C71_score : forall Y eps ab n m (h : list (mcall (list R) Y)) x c, 0 < eps -> SAD_statistic n = Ok m -> center n (univariate h) c ->
  eval (md_score (StandardAbsoluteDeviation eps ab m) x) (model_run (StandardAbsoluteDeviation eps ab m) (SAD_init m) h) =
  Ok (VArray (map (fun v => FinV (maybe_abs ab ((v - c) / (std (univariate h) + eps)))) x)).
Proof.
  intros Y eps ab n m h x c He Hn Hc. inversion Hc as [l NE|l md Hm]; subst.
  - cbn in Hn. injection Hn as <-. apply (sad_score Y eps ab AverageMeter avg_spec sum_R avg_rep); auto. destruct (univariate h); [congruence|reflexivity].
  - cbn in Hn. injection Hn as <-. assert (NE : univariate h <> []) by (destruct Hm as (? & _ & _ & N & _); auto).
    apply (sad_score Y eps ab MedianMeter med_spec med_R med_rep); auto. rewrite med_spec_ok by auto. f_equal. eapply median_unique; [apply median_fn_spec; auto|auto].
Qed.
Print Assumptions C71_score.
Theorem C71_unknown_statistic_rejected : forall n : statname, (exists m, SAD_statistic (A := R) n = Ok m) <-> n = NMean \/ n = NMedian.
Proof.
  intros [| |]; cbn; split; try (intros [m Q]; try discriminate; auto); try (intros [Q|Q]; discriminate); eauto.
Qed.
Print Assumptions C71_unknown_statistic_rejected.
Theorem C71_vectors_rejected : forall Y eps ab (m : Meter R R) x y s, length x <> 1%nat ->
  md_fit (StandardAbsoluteDeviation (Y := Y) eps ab m) x y s = (Raise AssertionError, s).
Proof. intros Y eps ab m [|v [|v' x]] y s H; try reflexivity. simpl in H. lia. Qed.
Print Assumptions C71_vectors_rejected.
Theorem C71_no_value_no_score : forall Y eps ab (h : list (mcall (list R) Y)) x, univariate h = [] ->
  eval (md_score (StandardAbsoluteDeviation eps ab AverageMeter) x) (model_run (StandardAbsoluteDeviation eps ab AverageMeter) (SAD_init AverageMeter) h) = Raise ZeroDivisionError /\
  eval (md_score (StandardAbsoluteDeviation eps ab MedianMeter) x) (model_run (StandardAbsoluteDeviation eps ab MedianMeter) (SAD_init MedianMeter) h) = Raise IndexError.
Proof.
  assert (G : forall Y eps ab m spec Rl (HR : Rep m spec Rl) (h : list (mcall (list R) Y)) x e, univariate h = [] -> spec [] = Raise e ->
    eval (md_score (StandardAbsoluteDeviation eps ab m) x) (model_run (StandardAbsoluteDeviation eps ab m) (SAD_init m) h) = Raise e).
  { intros Y eps ab m spec Rl HR h x e E S0. destruct (sad_run Y eps ab m spec Rl HR h) as [H1 H2]. rewrite E in *. set (s := model_run _ _ h) in *. clearbody s. destruct s as [sv ss]. cbn [fst snd] in *.
    unfold eval. cbn [md_score StandardAbsoluteDeviation plain_model]. unfold zoom, bind, ret. cbn [fst snd]. destruct (rep_get _ _ _ HR _ ss H2) as (s2 & E2 & R2). rewrite E2, S0. reflexivity. }
  intros Y eps ab h x E. split; [eapply G; [apply avg_rep|auto|reflexivity]|eapply G; [apply med_rep|auto|reflexivity]].
Qed.
Print Assumptions C71_no_value_no_score.
Example C71_ex : center NMean (univariate [CFit [1] None; CFitScore [2; 3] (@None unit); CScore [7]; CFitScore [5] None]) 3.
Proof. change (univariate [CFit [1] None; CFitScore [2; 3] (@None unit); CScore [7]; CFitScore [5] None]) with [1; 5]. replace 3 with (mean [1; 5]) by (unfold mean, Rlen; simpl; lra). constructor. discriminate. Qed.
