(** * C144: LODA and values that are not finite, on binary64. *)
From Coq Require Import List ZArith Lia Bool Arith Reals Lra.
From Coq Require Import Floats.
From Verif Require Import Base Num Spec Model_Core Model_Stats Model_Utils Model_Trans Model_Simple Model_Loda Model_Finite P_Lists P_Utils P_Core P_Post P_Models P_Float Prop_KitFloat Prop_Nan Prop_Poison Prop_Post.
Import ListNotations.
Open Scope nat_scope.

(** ** Specification *)
(** LODA on doubles. *)
Notation LodaF log randn perms nb c := (LODA_fin PrimFloat.is_finite PrimFloat.is_nan 0.5%float 1e-12%float log randn perms nb c).
(** Some value of the instance is nan or infinite. *)
Definition not_finite (z : list float) : Prop := exists v, In v z /\ PrimFloat.is_finite v = false.
(** The histograms and bin limits the object holds. *)
Definition bins (s : lodast float) : option (list (list float) * list (list float)) := option_map (fun o => (lo_hist o, lo_limits o)) (loda_obj s).
(** One row of zeros per random cut: what the object holds before it has seen an instance. *)
Definition no_bins (nb c : nat) : list (list float) * list (list float) := (repeat (repeat 0%float nb) c, repeat (repeat 0%float (S nb)) c).

(** ** Arithmetic *)
Lemma nsum_finite_inv : forall l s, P_Float.finite (fold_left PrimFloat.add l s) -> P_Float.finite s /\ Forall P_Float.finite l.
Proof.
  induction l as [|a l IH]; intros s H; cbn [fold_left] in H; [split; [exact H|constructor]|].
  destruct (IH _ H) as [H1 H2]. apply add_inv in H1. destruct H1. split; auto.
Qed.
Lemma dot_not_finite : forall row z, length row = length z -> not_finite z -> PrimFloat.is_finite (dot row z) = false.
Proof.
  intros row z L (v & I & F). destruct (PrimFloat.is_finite (dot row z)) eqn:E; auto. exfalso. destruct (nsum_finite_inv _ _ E) as [_ G]. clear E. rewrite Forall_forall in G.
  assert (K : exists w, In (w * v)%float (map2 nmul row z)).
  { clear G F. revert z L I. induction row as [|a row IH]; intros [|b z] L I; try discriminate; [destruct I|]. destruct I as [-> | I]; [exists a; left; reflexivity|]. destruct (IH z) as [w W]; auto. exists w. right. exact W. }
  destruct K as [w W]. apply G in W. apply mul_inv in W. destruct W as [_ W]. unfold P_Float.finite in W. congruence.
Qed.
Lemma dot_nan : forall row z, length row = length z -> has_nan z -> dot row z = nan.
Proof.
  intros row z L I. unfold dot. apply nsum_nan. unfold has_nan in I. revert z L I. induction row as [|a row IH]; intros [|b z] L I; try discriminate; [destruct I|]. destruct I as [-> | I]; [left; apply mul_nan|right; apply IH; auto].
Qed.
Lemma real_pos_sf : forall w, (0 < real w)%R -> exists m e, Prim2SF w = S754_finite false m e.
Proof.
  intros w H. unfold real in H. destruct (Prim2SF w) as [s|s| |s m e]; try lra. destruct s; [|eauto]. exfalso.
  assert (0 < IZR (Zpos m))%R by (apply IZR_lt; lia). assert (0 < powerRZ 2 e)%R by (apply powerRZ_lt; lra). nra.
Qed.
Lemma sf_inj : forall a b, Prim2SF a = Prim2SF b -> a = b.
Proof. intros a b H. rewrite <- (SF2Prim_Prim2SF a), <- (SF2Prim_Prim2SF b), H. reflexivity. Qed.
Lemma pos_ninf : forall w, (0 < real w)%R -> ((- w) * neg_infinity)%float = infinity.
Proof. intros w H. destruct (real_pos_sf w H) as (m & e & E). apply sf_inj. rewrite mul_spec, opp_spec, E. reflexivity. Qed.
Lemma inf_div_pos : forall w, (0 < real w)%R -> (infinity / w)%float = infinity.
Proof. intros w H. destruct (real_pos_sf w H) as (m & e & E). apply sf_inj. rewrite div_spec, E. reflexivity. Qed.
Lemma inf_sum : forall n, fold_left PrimFloat.add (repeat infinity n) infinity = infinity.
Proof. induction n as [|n IH]; auto. Qed.
Lemma share_pos : forall c, 1 <= c -> (Z.of_nat c <= 2 ^ 53)%Z -> (0 < real (float_ofZ (Z.of_nat c)))%R /\ (0 < real (float_ofZ 1 / float_ofZ (Z.of_nat c))%float)%R.
Proof.
  intros c Hc Hm. destruct (ofZ_real (Z.of_nat c) ltac:(lia)) as [F E]. destruct (ofZ_real 1 ltac:(lia)) as [F1 E1].
  assert (P : (1 <= IZR (Z.of_nat c) <= IZR (2 ^ 53))%R) by (split; apply IZR_le; lia). split; [rewrite E; lra|].
  assert (B : (/ IZR (2 ^ 53) <= 1 / IZR (Z.of_nat c) <= 1)%R). { unfold Rdiv. rewrite Rmult_1_l. split; [apply Rinv_le_contravar; lra|]. rewrite <- Rinv_1. apply Rinv_le_contravar; lra. }
  assert (PV : (0 < / IZR (2 ^ 53))%R) by (apply Rinv_0_lt_compat; apply IZR_lt; lia).
  destruct (div_real (float_ofZ 1) (float_ofZ (Z.of_nat c)) F1) as [G1 G2].
  - rewrite E. lra.
  - rewrite E, E1. apply fl_lt_max. rewrite Rabs_right by lra. apply Rle_trans with 1%R; [lra|]. apply (Raux.bpow_le Zaux.radix2 0 1023). lia.
  - rewrite G2, E, E1. apply Rlt_le_trans with (/ IZR (2 ^ 53))%R; auto.
    assert (Q : fl (/ IZR (2 ^ 53)) = (/ IZR (2 ^ 53))%R).
    { apply Generic_fmt.round_generic; [apply Generic_fmt.valid_rnd_N|]. change (/ IZR (2 ^ 53))%R with (Raux.bpow Zaux.radix2 (-53)). apply Generic_fmt.generic_format_bpow. unfold FLT.FLT_exp. lia. }
    rewrite <- Q at 1. apply Generic_fmt.round_le; [apply FLT.FLT_exp_valid; reflexivity|apply Generic_fmt.valid_rnd_N|lra].
Qed.

(** ** The object *)
(** With values that are all finite the two models are the same. *)
Lemma cut_same : forall A (NA : Num A) half eps perms nb x i s, loda_cut_fin (fun _ => true) half eps perms nb x i s = loda_cut half eps perms nb x i s.
Proof. intros. unfold loda_cut_fin, loda_cut, bind, gets. destruct (loda_obj s); [|reflexivity]. reflexivity. Qed.
Theorem C144_finite_values : forall A Y (NA : Num A) half eps log randn perms nb c x (y : option Y) s,
  md_fit (LODA_fin (fun _ => true) (fun _ => false) half eps log randn perms nb c) x y s = md_fit (LODA half eps log randn perms nb c) x y s /\
  md_score (LODA_fin (Y := Y) (fun _ => true) (fun _ => false) half eps log randn perms nb c) x s = md_score (LODA (Y := Y) half eps log randn perms nb c) x s.
Proof.
  intros. split; [|reflexivity].
  set (p := match loda_obj s with Some _ => s | None => mkLoda (Some (loda_setup randn nb c (length x))) (loda_draws s) end).
  change (iterM (loda_cut_fin (fun _ => true) half eps perms nb x) (seq 0 c) p = iterM (loda_cut half eps perms nb x) (seq 0 c) p). generalize p. generalize (seq 0 c). clear.
  intros l. induction l as [|i l IH]; intros s; [reflexivity|]. cbn [iterM]. unfold bind. rewrite cut_same. destruct (loda_cut _ _ _ _ _ _ s) as [[]]; auto.
Qed.
Print Assumptions C144_finite_values.

Section Loda.
Variables (Y : Type) (log : float -> float) (randn : nat -> nat -> float) (perms : nat -> list nat) (nb c n : nat).
Hypotheses (Hnb : 1 <= nb) (Hc : 1 <= c).
Notation m := (LodaF log randn perms nb c : Model (list float) Y float).
Notation cut := (loda_cut_fin PrimFloat.is_finite 0.5%float 1e-12%float perms nb).
Definition shaped (s : lodast float) : Prop := exists o, loda_obj s = Some o /\ lo_dim o = n /\ length (lo_proj o) = c /\ Forall (fun r => length r = n) (lo_proj o) /\
  length (lo_hist o) = c /\ Forall (fun r => length r = nb) (lo_hist o) /\ length (lo_limits o) = c.
Lemma zero_length : forall idx (r : list float), length (lo_zero r idx) = length r.
Proof. induction idx as [|i idx IH]; intros r; auto. unfold lo_zero in *. cbn [fold_left]. rewrite IH. apply set_nth_length. Qed.
Lemma Forall_set_nth : forall B (P : B -> Prop) i x l, P x -> Forall P l -> Forall P (set_nth i x l).
Proof. intros B P i x l Px F. revert i. induction F as [|a l Pa F IH]; intros [|i]; cbn; constructor; auto. Qed.
Lemma shaped_row : forall s o i, shaped s -> loda_obj s = Some o -> i < c -> length (nth i (lo_proj o) []) = n.
Proof. intros s o i (o' & E & _ & L & F & _) E' Hi. rewrite E in E'. injection E' as <-. rewrite Forall_forall in F. apply F, nth_In. lia. Qed.
(** One cut on an object of the right shape: it keeps the shape; a projected value that is not finite changes neither histograms nor limits. *)
Lemma cut_shape : forall x i s, i < c -> shaped s -> shaped (exec (cut x i) s).
Proof.
  intros x i s Hi S. pose proof S as (o & E & D & LP & FP & LH & FH & LL). pose proof (shaped_row s o i S E Hi) as LR. unfold exec, loda_cut_fin, bind, gets. rewrite E. unfold modify.
  assert (FP' : forall idx, Forall (fun r => length r = n) (set_nth i (lo_zero (nth i (lo_proj o) []) idx) (lo_proj o))). { intros idx. apply Forall_set_nth; auto. rewrite zero_length. exact LR. }
  assert (G : forall idx q d H Lm, length H = c -> Forall (fun r => length r = nb) H -> length Lm = c -> (@loda_obj float q = Some (mkLo (lo_dim o) (set_nth i (lo_zero (nth i (lo_proj o) []) idx) (lo_proj o)) H Lm)) -> d = 0 -> shaped q).
  { intros idx q d H Lm L1 F1 L2 Q _. eexists. split; [exact Q|]. cbn [lo_dim lo_proj lo_hist lo_limits]. rewrite set_nth_length. repeat split; auto. }
  destruct (negb _); [eapply (G _ _ 0); [| | |reflexivity|reflexivity]; auto|]. destruct (nb =? 0); [eapply (G _ _ 0); [| | |reflexivity|reflexivity]; auto|].
  destruct (negb _); [eapply (G _ _ 0); [| | |reflexivity|reflexivity]; auto|]. eapply (G _ _ 0); [| | |reflexivity|reflexivity]; rewrite ?set_nth_length; auto. apply Forall_set_nth; auto. unfold lo_normalise, lo_counts. rewrite !map_length, seq_length. reflexivity.
Qed.
Lemma cuts_shape : forall x l s, (forall i, In i l -> i < c) -> shaped s -> shaped (exec (iterM (cut x) l) s).
Proof.
  intros x l. induction l as [|i l IH]; intros s Hl S; [exact S|]. cbn [iterM]. pose proof (cut_shape x i s (Hl i (or_introl eq_refl)) S) as S1. unfold exec in *. unfold bind. destruct (cut x i s) as [[[]|e] s1]; [|exact S1]. apply IH; auto. intros. apply Hl. right. auto.
Qed.
Definition prepared (x : list float) (s : lodast float) : lodast float := match loda_obj s with Some _ => s | None => mkLoda (Some (loda_setup randn nb c (length x))) (loda_draws s) end.
Lemma fit_prepared : forall x (y : option Y) s, md_fit m x y s = iterM (cut x) (seq 0 c) (prepared x s).
Proof. intros. reflexivity. Qed.
Lemma prepared_shape : forall x s, length x = n -> loda_obj s = None \/ shaped s -> shaped (prepared x s).
Proof.
  intros x s L [E|(o & E & S)]; unfold prepared; rewrite E; [|exists o; auto]. unfold shaped. eexists. split; [reflexivity|]. unfold loda_setup. cbn [lo_dim lo_proj lo_hist lo_limits]. rewrite map_length, seq_length, !repeat_length. repeat split; auto.
  - apply Forall_forall. intros r I. apply in_map_iff in I. destruct I as (i & <- & _). rewrite map_length, seq_length. exact L.
  - apply Forall_forall. intros r I. apply repeat_spec in I. subst r. apply repeat_length.
Qed.
Lemma refuse : forall z (y : option Y) s, length z = n -> not_finite z -> loda_obj s = None \/ shaped s ->
  exists s', md_fit m z y s = (Raise ValueError, s') /\ bins s' = bins (prepared z s).
Proof.
  intros z y s L NF H. pose proof (prepared_shape z s L H) as S. rewrite fit_prepared. set (s1 := prepared z s) in *. clearbody s1. destruct c as [|c'] eqn:Ec; [lia|]. cbn [seq iterM]. pose proof S as (o & E & D & _).
  assert (LR : length (nth 0 (lo_proj o) []) = n) by (destruct S as (o' & E' & _ & LP & FP & _); rewrite E in E'; injection E' as <-; rewrite Forall_forall in FP; apply FP, nth_In; lia).
  unfold bind at 1, loda_cut_fin at 1. unfold bind, gets. rewrite E. unfold modify. rewrite D, L, Nat.eqb_refl. cbn [negb]. destruct (Nat.eqb_spec nb 0); [lia|]. rewrite dot_not_finite; [|rewrite zero_length; congruence|exact NF]. cbn [negb raise]. eexists. split; [reflexivity|]. unfold bins. rewrite E. reflexivity.
Qed.
Definition loda_inv (l : list (list float)) (s : lodast float) : Prop := Forall (fun x => length x = n) l -> (l = [] -> loda_obj s = None) /\ (l <> [] -> shaped s) /\ (l <> [] -> Forall not_finite l -> bins s = Some (no_bins nb c)).
Lemma score_state : forall x s, exec (md_score m x) s = s.
Proof. intros x s. unfold exec. cbn [md_score LODA_fin plain_model]. unfold bind, gets, lift, ret, raise. destruct (loda_obj s); [|reflexivity]. destruct (res_map _ _); reflexivity. Qed.
Lemma loda_run : forall h : list (mcall (list float) Y), loda_inv (fitted_instances h) (model_run m LODA_init h).
Proof.
  intros h. refine (plain_run_all _ _ _ _ _ _ loda_inv _ _ h _ _).
  - intros l s x y H F. apply Forall_app in F. destruct F as [F Fx]. apply Forall_inv in Fx. destruct (H F) as (H1 & H2 & H3).
    assert (OS : loda_obj s = None \/ shaped s). { destruct l as [|a l]; [left; apply H1; reflexivity|right; apply H2; discriminate]. }
    split; [intros Q; destruct l; discriminate|]. split.
    + intros _. change (shaped (exec (iterM (cut x) (seq 0 c)) (prepared x s))). apply cuts_shape; [intros i I; apply in_seq in I; lia|apply prepared_shape; auto].
    + intros _ N. apply Forall_app in N. destruct N as [N Nx]. apply Forall_inv in Nx. destruct (refuse x y s Fx Nx OS) as (s' & E & B). change (bins (exec (md_fit m x y) s) = Some (no_bins nb c)). unfold exec. rewrite E. cbn [snd]. rewrite B.
      destruct l as [|a l]; [unfold prepared; rewrite (H1 eq_refl); reflexivity|]. destruct (H2 ltac:(discriminate)) as (o & Eo & _). unfold prepared. rewrite Eo. apply H3; auto. discriminate.
  - intros l s x H. change (loda_inv l (exec (md_score m x) s)). rewrite score_state. exact H.
  - intros _. split; [reflexivity|]. split; congruence.
Qed.
(** An instance with a nan or an infinity is refused with ValueError, at any point of any history, and leaves the histograms and limits as they are. *)
Theorem C144_refused : forall (h : list (mcall (list float) Y)) z y, Forall (fun x => length x = n) (fitted_instances h) -> length z = n -> not_finite z ->
  let s := model_run m LODA_init h in eval (md_fit m z y) s = Raise ValueError /\
  bins (exec (md_fit m z y) s) = match fitted_instances h with [] => Some (no_bins nb c) | _ => bins s end.
Proof.
  intros h z y F L NF s. destruct (loda_run h F) as (H1 & H2 & _). fold s in H1, H2. unfold eval, exec.
  destruct (refuse z y s L NF) as (s' & E & B). { destruct (fitted_instances h); [left; auto|right; apply H2; discriminate]. }
  rewrite E. split; [reflexivity|]. cbn [snd]. rewrite B. destruct (fitted_instances h) as [|a l]; unfold prepared; [rewrite H1 by auto; reflexivity|]. destruct (H2 ltac:(discriminate)) as (o & Eo & _). rewrite Eo. reflexivity.
Qed.
Lemma filter_every : forall B (f : B -> bool) l, (forall v, In v l -> f v = true) -> filter f l = l.
Proof. intros B f l H. induction l as [|a l IH]; auto. cbn. rewrite (H a (or_introl eq_refl)). f_equal. apply IH. intros. apply H. right. auto. Qed.
Lemma hist_index : forall o x i, length (firstn (nb - 1) (nth i (lo_limits o) [])) <= nb - 1 -> searchsorted_nan PrimFloat.is_nan (firstn (nb - 1) (nth i (lo_limits o) [])) (dot (nth i (lo_proj o) []) x) < nb.
Proof. intros o x i H. unfold searchsorted_nan. match goal with |- length (filter ?f ?l) < _ => pose proof (P_Post.filter_length_le _ f l) end. lia. Qed.
(** A detector whose instances so far were all refused exists and answers: infinity, to everything. *)
Theorem C144_only_refused : forall (h : list (mcall (list float) Y)) x, log 0%float = neg_infinity -> (Z.of_nat c <= 2 ^ 53)%Z -> Forall (fun x => length x = n /\ not_finite x) (fitted_instances h) -> length x = n ->
  eval (md_score m x) (model_run m LODA_init h) = match fitted_instances h with [] => Raise AttributeError | _ => Ok (VArray [infinity]) end.
Proof.
  intros h x Hlog Hcm F Lx. assert (F1 : Forall (fun x => length x = n) (fitted_instances h)) by (eapply Forall_impl; [|exact F]; cbn; tauto). assert (F2 : Forall not_finite (fitted_instances h)) by (eapply Forall_impl; [|exact F]; cbn; tauto).
  destruct (loda_run h F1) as (H1 & H2 & H3). set (s := model_run m LODA_init h) in *. clearbody s. destruct (fitted_instances h) as [|a l]; unfold eval; cbn [md_score LODA_fin plain_model]; unfold bind, gets.
  - rewrite H1 by auto. reflexivity.
  - destruct (H2 ltac:(discriminate)) as (o & Eo & D & _). specialize (H3 ltac:(discriminate) F2). unfold bins in H3. rewrite Eo in H3. cbn [option_map] in H3. injection H3 as EH EL. rewrite Eo. destruct (share_pos c Hc Hcm) as [P1 P2].
    assert (R : res_map (loda_cut_score_fin PrimFloat.is_nan log nb c o x) (seq 0 c) = Ok (repeat infinity c)).
    { assert (G : forall k st, st + k <= c -> res_map (loda_cut_score_fin PrimFloat.is_nan log nb c o x) (seq st k) = Ok (repeat infinity k)).
      { induction k as [|k IH]; intros st Hk; [reflexivity|]. cbn [seq res_map repeat]. rewrite IH by lia. unfold loda_cut_score_fin at 1. rewrite D, Lx, Nat.eqb_refl. cbn [negb].
        pose proof (hist_index o x st) as Hi. specialize (Hi ltac:(rewrite firstn_length; lia)). set (ind := searchsorted_nan _ _ _) in *. clearbody ind. rewrite EH.
        assert (ER : nth st (repeat (repeat 0%float nb) c) [] = repeat 0%float nb). { apply (repeat_spec c). apply nth_In. rewrite repeat_length. lia. }
        rewrite ER. unfold py_index. rewrite (nth_error_repeat 0%float Hi). cbn [rmap rbind]. rewrite Hlog. cbn [nmul nneg ndiv nofZ NumF]. rewrite (pos_ninf _ P2). reflexivity. }
      apply G. lia. }
    rewrite R. unfold lift, ret. cbn [fst]. assert (Sm : nsum (repeat infinity c) = infinity). { unfold nsum. destruct c as [|c']; [lia|]. cbn [repeat fold_left]. change (nadd n0 infinity) with infinity. apply inf_sum. }
    rewrite Sm. cbn [ndiv nofZ NumF]. rewrite (inf_div_pos _ P1). reflexivity.
Qed.
(** An instance with a nan is not refused by score_partial: on every random cut it counts as lying in the last bin, so all such instances
    get the same score, whatever else they contain. *)
Theorem C144_nan_scores_as_the_last_bin : forall (h : list (mcall (list float) Y)) z hist limits, Forall (fun x => length x = n) (fitted_instances h) -> length z = n -> has_nan z ->
  bins (model_run m LODA_init h) = Some (hist, limits) -> Forall (fun r => nb - 1 <= length r /\ Forall (fun v => PrimFloat.is_nan v = false) (firstn (nb - 1) r)) limits ->
  eval (md_score m z) (model_run m LODA_init h) = Ok (VArray [(nsum (map (fun r => (- (float_ofZ 1 / float_ofZ (Z.of_nat c)) * log (last r 0))%float) hist) / float_ofZ (Z.of_nat c))%float]).
Proof.
  intros h z hist limits F Lz NZ B FL. destruct (loda_run h F) as (H1 & H2 & _). set (s := model_run m LODA_init h) in *. clearbody s.
  destruct (fitted_instances h) as [|a l]; [unfold bins in B; rewrite H1 in B by auto; discriminate|]. destruct (H2 ltac:(discriminate)) as (o & Eo & D & LP & FP & LH & FH & LL). unfold bins in B. rewrite Eo in B. cbn [option_map] in B. injection B as EH EL. subst hist limits.
  unfold eval. cbn [md_score LODA_fin plain_model]. unfold bind, gets. rewrite Eo.
  assert (R : res_map (loda_cut_score_fin PrimFloat.is_nan log nb c o z) (seq 0 c) = Ok (map (fun i => (- (float_ofZ 1 / float_ofZ (Z.of_nat c)) * log (last (nth i (lo_hist o) []) 0))%float) (seq 0 c))).
  { apply Prop_Post.res_map_ok. intros i Hi. apply in_seq in Hi. unfold loda_cut_score_fin. rewrite D, Lz, Nat.eqb_refl. cbn [negb].
    assert (LR : length (nth i (lo_proj o) []) = n) by (rewrite Forall_forall in FP; apply FP, nth_In; lia). rewrite dot_nan by (auto; congruence).
    assert (LHi : length (nth i (lo_hist o) []) = nb) by (rewrite Forall_forall in FH; apply FH, nth_In; lia).
    assert (LLi : In (nth i (lo_limits o) []) (lo_limits o)) by (apply nth_In; lia). rewrite Forall_forall in FL. destruct (FL _ LLi) as [L1 L2].
    assert (SI : searchsorted_nan PrimFloat.is_nan (firstn (nb - 1) (nth i (lo_limits o) [])) nan = nb - 1).
    { unfold searchsorted_nan. rewrite (filter_every _ (fun e => PrimFloat.is_nan nan && negb (PrimFloat.is_nan e) || oltb e nan)); [rewrite firstn_length; lia|]. intros v Iv. rewrite Forall_forall in L2. rewrite (L2 v Iv). reflexivity. }
    rewrite SI. unfold py_index. destruct (exists_last (l := nth i (lo_hist o) [])) as (q & w & Eq); [intros Q; rewrite Q in LHi; cbn in LHi; lia|]. rewrite Eq in *. rewrite last_last. rewrite app_length in LHi. cbn [length] in LHi. rewrite nth_error_app2 by lia. replace (nb - 1 - length q) with 0 by lia. reflexivity. }
  assert (EM : forall g : list float -> float, map (fun i => g (nth i (lo_hist o) [])) (seq 0 c) = map g (lo_hist o)).
  { intros g. rewrite <- (map_map (fun i => nth i (lo_hist o) []) g), <- LH, P_Utils.map_nth_seq. reflexivity. }
  rewrite R, (EM (fun r => (- (float_ofZ 1 / float_ofZ (Z.of_nat c)) * log (last r 0))%float)). reflexivity.
Qed.
End Loda.
Print Assumptions C144_refused.
Print Assumptions C144_only_refused.
Print Assumptions C144_nan_scores_as_the_last_bin.
(** Two cuts of two features, four bins: the first instance fits, the second is refused, and instances with a nan share a score. *)
Definition ex_log (v : float) : float := if (v =? 0)%float then neg_infinity else v.
Definition ex_loda : Model (list float) unit float := LodaF ex_log (fun i j => 1%float) (fun _ => [0; 1]) 4 2.
Definition ex_fit : lodast float := model_run ex_loda LODA_init [CFit [1; 2]%float None].
Definition ex_refused : lodast float := model_run ex_loda LODA_init [CFit [1; infinity]%float None].
Example C144_ex : eval (md_fit ex_loda [1; nan]%float None) ex_fit = Raise ValueError /\ not_finite [1; nan]%float /\
  eval (md_score ex_loda [5; 6]%float) ex_refused = Ok (VArray [infinity]) /\
  eval (md_score ex_loda [nan; 2]%float) ex_fit = eval (md_score ex_loda [7; nan]%float) ex_fit /\
  option_map (fun b => forallb (fun r => (3 <=? length r) && forallb (fun v => negb (PrimFloat.is_nan v)) (firstn 3 r)) (snd b)) (bins ex_fit) = Some true.
Proof.
  split; [vm_compute; reflexivity|]. split; [exists nan; split; [right; left; reflexivity|reflexivity]|]. split; [vm_compute; reflexivity|]. split; vm_compute; reflexivity.
Qed.
