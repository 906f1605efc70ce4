(** * More about RelativeEntropy (C72) and RobustRandomCutForest (C73). *)
From Coq Require Import List ZArith Lia Bool Reals Lra Permutation Arith.
From Verif Require Import Base Num Spec Model_Stats Model_Utils Model_Core Model_Simple Model_Sketch P_Lists P_Stats P_Utils P_Core P_Post P_Models Prop_Sketch.
Import ListNotations.
Open Scope R_scope.

(** ** C72: window_size = 0: the slice util[-0:] is the whole history, compared with the first value alone. *)
Lemma agreement_one' : forall ceil thr min_val step N W p q, (1 <= N)%nat -> agreement ln thr (IZR (2 * Z.of_nat W)) (re_dens ceil min_val step N p) [re_dens ceil min_val step N q] 0 None (-1) = 0%Z <->
  agrees thr W (distribution N (quantized ceil min_val step p)) (distribution N (quantized ceil min_val step q)).
Proof.
  intros ceil thr min_val step N W p q HN. unfold agreement, re_dens, agrees. rewrite !density_spec by auto.
  assert (NN : forall l, scipy_entropy ln (repeat NonFin N) l = ENaN) by (intros; destruct N; [lia|reflexivity]).
  destruct (distribution N (quantized ceil min_val step p)) as [p'|] eqn:Ep.
  - destruct (distribution N (quantized ceil min_val step q)) as [q'|] eqn:Eq.
    + destruct (distribution_props _ _ _ HN Ep) as (_ & P1 & P2). destruct (distribution_props _ _ _ HN Eq) as (_ & Q1 & Q2). rewrite entropy_spec by auto.
      destruct (divergence p' q') as [D|] eqn:ED.
      * cbn [nmul NumR oltb num_ord OrdR]. rewrite andb_true_r, mult_IZR, INR_Zof_nat. destruct (Rltb (2 * INR W * D) thr) eqn:Q; cbn.
        -- apply Rltb_lt in Q. split; [|auto]. intros _. exists p', q', D. auto.
        -- apply Rltb_nlt in Q. split; [discriminate|]. intros (p2 & q2 & D2 & E1 & E2 & E3 & E4). injection E1 as <-. injection E2 as <-. rewrite ED in E3. injection E3 as <-. contradiction.
      * split; [discriminate|]. intros (p2 & q2 & D2 & E1 & E2 & E3 & E4). injection E1 as <-. injection E2 as <-. rewrite ED in E3. discriminate.
    + assert (EN : scipy_entropy ln (map FinV p') (repeat NonFin N) = ENaN) by (unfold scipy_entropy; rewrite all_fin_FinV; destruct N; [lia|reflexivity]). rewrite EN.
      split; [discriminate|]. intros (p2 & q2 & D2 & E1 & E2 & E3 & E4). discriminate.
  - rewrite NN. split; [discriminate|]. intros (p2 & q2 & D2 & E1 & E2 & E3 & E4). discriminate.
Qed.
Theorem C72_window_size_zero : forall Y ceil thr min_val step N (h : list (mcall (list R) Y)) vs x,
  (1 <= N)%nat -> step <> 0 -> fitted_instances h = map (fun v => [v]) vs ->
  let a := eval (md_score (RelativeEntropy ln ceil thr min_val step N 0) x) (model_run (RelativeEntropy (Y := Y) ln ceil thr min_val step N 0) RE_init h) in
  let dist win := distribution N (map (fun v => ceil ((v - min_val) / step)) win) in
  (vs = [] -> a = Ok (VScalar 0)) /\
  (vs <> [] -> (agrees thr 0 (dist vs) (dist (firstn 1 vs)) -> a = Ok (VScalar 0)) /\ (~ agrees thr 0 (dist vs) (dist (firstn 1 vs)) -> a = Ok (VScalar (-1)))).
Proof.
  intros Y ceil thr min_val step N h vs x HN Hs E. cbv zeta.
  assert (I : let s := model_run (RelativeEntropy (Y := Y) ln ceil thr min_val step N 0) RE_init h in re_util s = map (fun v => [v]) vs /\
    match vs with [] => re_m s = 0%nat /\ re_P s = [] /\ re_hat s = None | _ => re_m s = 1%nat /\ re_P s = [re_dens ceil min_val step N (firstn 1 vs)] /\ re_hat s = Some (re_dens ceil min_val step N vs) end).
  { cbv zeta. refine (plain_run_all _ _ _ _ _ _ (fun l s => forall vs, l = map (fun v => [v]) vs -> re_util s = map (fun v => [v]) vs /\
      match vs with [] => re_m s = 0%nat /\ re_P s = [] /\ re_hat s = None | _ => re_m s = 1%nat /\ re_P s = [re_dens ceil min_val step N (firstn 1 vs)] /\ re_hat s = Some (re_dens ceil min_val step N vs) end) _ _ h _ _ vs E).
    - clear h vs E. intros l s xx y H vs E. destruct vs as [|v vs _] using rev_ind; [destruct l; discriminate|]. rewrite map_app in E. cbn in E. apply app_inj_tail in E. destruct E as [E1 ->].
      destruct (H vs E1) as [H1 H2]. unfold exec, bind, modify, gets, lift, ret. cbn [re_util re_m re_P re_c re_hat length Nat.leb py_last Nat.eqb]. rewrite H1.
      replace (map (fun v0 => [v0]) vs ++ [[v]]) with (map (fun v0 => [v0]) (vs ++ [v])) by (rewrite map_app; reflexivity). rewrite quantize_ok by exact Hs.
      destruct vs as [|v1 vs]; destruct H2 as (M1 & M2 & M3); rewrite M1; cbn [Nat.eqb snd re_util re_m re_P re_c re_hat]; rewrite M2; (split; [reflexivity|]); cbn [app]; repeat split; reflexivity.
    - intros l s xx H vs' E'. specialize (H vs' E'). unfold exec, bind, gets, ret. destruct (re_hat s) eqn:Hh; [destruct (_ && _)|]; cbn [snd]; rewrite ?Hh; exact H.
    - intros [|v vs'] Q; [|discriminate]. repeat split; reflexivity. }
  cbv zeta in I. destruct I as [H1 H2]. set (s := model_run _ _ h) in *. clearbody s. unfold eval. cbn [md_score RelativeEntropy plain_model]. unfold bind, gets, ret. destruct vs as [|v vs].
  - destruct H2 as (_ & _ & E3). rewrite E3. split; [reflexivity|]. intros []; reflexivity.
  - split; [discriminate|]. intros _. destruct H2 as (E1 & E2 & E3). rewrite E3, E1, E2. cbn [Nat.leb Nat.ltb andb firstn fst nofZ NumR]. fold (quantized ceil min_val step (v :: vs)) (quantized ceil min_val step [v]).
    pose proof (agreement_one' ceil thr min_val step N 0 (v :: vs) [v] HN) as AO. destruct (agreement_range thr 0 (re_dens ceil min_val step N (v :: vs)) (re_dens ceil min_val step N [v])) as [Q|Q]; rewrite Q in *; split; intros H0; try reflexivity.
    + exfalso. apply H0, AO. reflexivity.
    + apply AO in H0. discriminate.
Qed.
Print Assumptions C72_window_size_zero.

(** _get_agreement_hypothesis with any number of hypotheses: the first of those with the least statistic below the threshold, or -1.
    [stat q] is the statistic for hypothesis q (None: not finite). *)
Definition statistic (log : R -> R) (twoW : R) (p q : list (npres R)) : option R := match scipy_entropy log p q with EFin e => Some (twoW * e) | _ => None end.
Theorem C72_agreement_is_first_least : forall log thr twoW p ps, let st i := statistic log twoW p (nth i ps []) in
  let r := agreement log thr twoW p ps 0 None (-1) in
  (r = (-1)%Z /\ forall i v, (i < length ps)%nat -> st i = Some v -> thr <= v) \/
  (exists k v, r = Z.of_nat k /\ (k < length ps)%nat /\ st k = Some v /\ v < thr /\ (forall i w, (i < length ps)%nat -> st i = Some w -> v <= w) /\ (forall i w, (i < k)%nat -> st i = Some w -> v < w)).
Proof.
  intros log thr twoW p ps. cbv zeta.
  assert (G : forall ps' pre best index, ps = pre ++ ps' ->
    ((best = None /\ index = (-1)%Z /\ forall i v, (i < length pre)%nat -> statistic log twoW p (nth i ps []) = Some v -> thr <= v) \/
     (exists k v, best = Some v /\ index = Z.of_nat k /\ (k < length pre)%nat /\ statistic log twoW p (nth k ps []) = Some v /\ v < thr /\ (forall i w, (i < length pre)%nat -> statistic log twoW p (nth i ps []) = Some w -> v <= w) /\ (forall i w, (i < k)%nat -> statistic log twoW p (nth i ps []) = Some w -> v < w))) ->
    let r := agreement log thr twoW p ps' (length pre) best index in
    (r = (-1)%Z /\ forall i v, (i < length ps)%nat -> statistic log twoW p (nth i ps []) = Some v -> thr <= v) \/
    (exists k v, r = Z.of_nat k /\ (k < length ps)%nat /\ statistic log twoW p (nth k ps []) = Some v /\ v < thr /\ (forall i w, (i < length ps)%nat -> statistic log twoW p (nth i ps []) = Some w -> v <= w) /\ (forall i w, (i < k)%nat -> statistic log twoW p (nth i ps []) = Some w -> v < w))).
  2: { specialize (G ps [] None (-1)%Z eq_refl). apply G. left. repeat split; auto. intros i v Hi. cbn in Hi. lia. }
  induction ps' as [|q ps' IH]; intros pre best index E I; cbv zeta.
  - rewrite app_nil_r in E. subst pre. cbn [agreement]. destruct I as [(_ & -> & I)|(k & v & _ & -> & I)]; [left; auto|right; exists k, v; auto].
  - assert (Q : nth (length pre) ps [] = q) by (rewrite E, app_nth2, Nat.sub_diag by lia; reflexivity).
    assert (E' : ps = (pre ++ [q]) ++ ps') by (rewrite <- app_assoc; exact E). assert (L : length (pre ++ [q]) = S (length pre)) by (rewrite app_length; cbn; lia).
    specialize (IH (pre ++ [q])). rewrite L in IH. cbn [agreement].
    assert (ST : statistic log twoW p q = match scipy_entropy log p q with EFin e => Some (twoW * e) | _ => None end) by reflexivity.
    assert (SP : forall i, (i < S (length pre))%nat -> (i < length pre)%nat \/ i = length pre) by (intros; lia).
    assert (SK : statistic log twoW p q = None -> let r := agreement log thr twoW p ps' (S (length pre)) best index in
      (r = (-1)%Z /\ forall i v, (i < length ps)%nat -> statistic log twoW p (nth i ps []) = Some v -> thr <= v) \/
      (exists k v, r = Z.of_nat k /\ (k < length ps)%nat /\ statistic log twoW p (nth k ps []) = Some v /\ v < thr /\ (forall i w, (i < length ps)%nat -> statistic log twoW p (nth i ps []) = Some w -> v <= w) /\ (forall i w, (i < k)%nat -> statistic log twoW p (nth i ps []) = Some w -> v < w))).
    { intros N0. apply IH; [exact E'|]. destruct I as [(-> & -> & I)|(k & v & -> & -> & K1 & K2 & K3 & K4 & K5)]; [left|right; exists k, v].
      - repeat split; auto. intros i w Hi Hw. destruct (SP i Hi) as [Hi'|Hi']; [eauto|]. subst i. rewrite Q, N0 in Hw. discriminate.
      - split; [reflexivity|]. split; [reflexivity|]. split; [lia|]. split; [auto|]. split; [auto|]. split; [|auto]. intros i w Hi Hw. destruct (SP i Hi) as [Hi'|Hi']; [eauto|]. subst i. rewrite Q, N0 in Hw. discriminate. }
    destruct (scipy_entropy log p q) as [e| |]; [|apply SK; exact ST|apply SK; exact ST].
    cbn [nmul NumR oltb num_ord OrdR]. destruct (Rltb (twoW * e) thr) eqn:T; cbn [andb].
    + apply Rltb_lt in T. destruct I as [(-> & -> & I)|(k & v & -> & -> & K1 & K2 & K3 & K4 & K5)].
      * apply IH; [exact E'|]. right. exists (length pre), (twoW * e). split; [reflexivity|]. split; [reflexivity|]. split; [lia|]. rewrite Q. split; [exact ST|]. split; [exact T|]. split.
        -- intros i w Hi Hw. destruct (SP i Hi) as [Hi'|Hi']; [specialize (I i w Hi' Hw); lra|]. subst i. rewrite Q, ST in Hw. injection Hw as <-. lra.
        -- intros i w Hi Hw. specialize (I i w Hi Hw). lra.
      * destruct (Rltb (twoW * e) v) eqn:V.
        -- apply Rltb_lt in V. apply IH; [exact E'|]. right. exists (length pre), (twoW * e). split; [reflexivity|]. split; [reflexivity|]. split; [lia|]. rewrite Q. split; [exact ST|]. split; [exact T|]. split.
           ++ intros i w Hi Hw. destruct (SP i Hi) as [Hi'|Hi']; [specialize (K4 i w Hi' Hw); lra|]. subst i. rewrite Q, ST in Hw. injection Hw as <-. lra.
           ++ intros i w Hi Hw. specialize (K4 i w Hi Hw). lra.
        -- apply Rltb_nlt in V. apply IH; [exact E'|]. right. exists k, v. split; [reflexivity|]. split; [reflexivity|]. split; [lia|]. split; [auto|]. split; [auto|]. split; [|auto]. intros i w Hi Hw. destruct (SP i Hi) as [Hi'|Hi']; [eauto|]. subst i. rewrite Q, ST in Hw. injection Hw as <-. lra.
    + apply Rltb_nlt in T. apply IH; [exact E'|]. destruct I as [(-> & -> & I)|(k & v & -> & -> & K1 & K2 & K3 & K4 & K5)]; [left|right; exists k, v].
      * repeat split; auto. intros i w Hi Hw. destruct (SP i Hi) as [Hi'|Hi']; [eauto|]. subst i. rewrite Q, ST in Hw. injection Hw as <-. lra.
      * split; [reflexivity|]. split; [reflexivity|]. split; [lia|]. split; [auto|]. split; [auto|]. split; [|auto]. intros i w Hi Hw. destruct (SP i Hi) as [Hi'|Hi']; [eauto|]. subst i. rewrite Q, ST in Hw. injection Hw as <-. lra.
Qed.
Print Assumptions C72_agreement_is_first_least.

(** ** C73: the score is the mean over the trees of the collusive displacement of the instance: of the leaf holding an equal point,
    or of the leaf it is given for the query. *)
Definition displacement {X A} (d : RCTree X A) (x : X) (t : rc_state d) (v : A) : Prop :=
  (exists k, rc_find d x t = Ok (Some k) /\ rc_codisp d k t = Ok v) \/
  (rc_find d x t = Ok None /\ exists t', rc_insert d x KTest t = (Ok tt, t') /\ rc_codisp d KTest t' = Ok v).
Theorem C73_score : forall X Y (d : RCTree X R) T (s : list (rc_state d) * Z) x v, fst s <> [] -> eval (md_score (RobustRandomCutForest (Y := Y) d T) x) s = Ok v ->
  exists ds, Forall2 (displacement d x) (fst s) ds /\ v = VScalar (mean ds).
Proof.
  intros X Y d T [f i] x v NE E. cbn [fst] in *. unfold eval in E. cbn [md_score RobustRandomCutForest plain_model fst snd] in E.
  assert (G : forall f ds f', each_tree (rrcf_score_tree d x) f = (Ok ds, f') -> Forall2 (displacement d x) f ds).
  { clear. induction f as [|t f IH]; intros ds f' E; cbn [each_tree] in E; [injection E as <- _; constructor|].
    destruct (rrcf_score_tree d x t) as [[b|e] t'] eqn:Q; [|discriminate]. destruct (each_tree (rrcf_score_tree d x) f) as [[ds'|e] f''] eqn:F; [|discriminate]. cbn [rmap] in E. injection E as <- _. constructor; [|eapply IH; reflexivity].
    unfold rrcf_score_tree, bind in Q. destruct (rc_find d x t) as [[k|]|e] eqn:K; [| |discriminate].
    - left. exists k. injection Q as Q _. auto.
    - right. split; [exact K|]. destruct (rc_insert d x KTest t) as [[[]|e] t1]; [|discriminate]. exists t1. split; [reflexivity|]. destruct (rc_codisp d KTest t1) as [w|e]; [|discriminate]. destruct (rc_forget d KTest t1) as [[[]|e] t2]; [|discriminate]. unfold ret in Q. injection Q as -> _. reflexivity. }
  destruct (each_tree (rrcf_score_tree d x) f) as [[ds|e] f'] eqn:F; [|discriminate]. exists ds. pose proof (G f ds f' F) as FA. split; [exact FA|]. cbn [rmap fst] in E. injection E as <-. f_equal.
  replace (length f) with (length ds) by (clear - FA; induction FA; cbn; congruence). clear. unfold mean, Rlen. rewrite nsum_Rsum. cbn [ndiv nofZ NumR]. rewrite <- INR_IZR_INZ. generalize (INR (length ds)). intros n. unfold Rsum. induction ds as [|a ds IH]; cbn [map fold_right]; [unfold Rdiv; ring|]. rewrite IH. unfold Rdiv. ring.
Qed.
Print Assumptions C73_score.

(** ** Concrete cases *)
Example C72_ex_zero : let h := [CFit [1] (None : option unit); CFit [1] None; CFit [2] None] in fitted_instances h = map (fun v => [v]) [1; 1; 2] /\
  ~ agrees 5 0 (distribution 3 [1; 1; 2]%Z) (distribution 3 [1]%Z) /\ agrees 5 0 (distribution 3 [1; 1]%Z) (distribution 3 [1]%Z).
Proof.
  split; [reflexivity|]. assert (D1 : distribution 3 [1]%Z = Some [0 / 1; 1 / 1; 0 / 1]) by reflexivity. split.
  - intros (p & q & D & E1 & E2 & E3 & _). rewrite D1 in E2. injection E2 as <-. assert (D3 : distribution 3 [1; 1; 2]%Z = Some [0 / INR 3; INR 2 / INR 3; 1 / INR 3]) by reflexivity. rewrite D3 in E1. injection E1 as <-. unfold divergence in E3.
    cbn [combine forallb fst snd] in E3. replace (Rltb 0 (0 / 1)) with false in E3 by (symmetry; apply Rltb_nlt; lra). replace (Rleb (1 / (1 + 1 + 1)) 0) with false in E3 by (symmetry; apply Rleb_nle; lra). cbn [orb andb] in E3. rewrite !andb_false_r in E3. discriminate.
  - assert (D2 : distribution 3 [1; 1]%Z = Some [0 / INR 2; INR 2 / INR 2; 0 / INR 2]) by reflexivity. change (INR 2) with 2 in D2. rewrite D1, D2. do 2 eexists. exists 0. split; [reflexivity|]. split; [reflexivity|]. split; [|cbn; lra]. unfold divergence. cbn [combine forallb fst snd map].
    replace (Rleb (0 / 2) 0) with true by (symmetry; apply Rleb_le; lra). replace (Rltb 0 (1 / 1)) with true by (symmetry; apply Rltb_lt; lra). rewrite orb_true_r. cbn [orb andb].
    replace (Rltb 0 (0 / 2)) with false by (symmetry; apply Rltb_nlt; lra). replace (Rltb 0 (2 / 2)) with true by (symmetry; apply Rltb_lt; lra). cbn [Rsum fold_right]. replace (2 / 2 / (1 / 1)) with 1 by field. rewrite ln_1. unfold Rsum. cbn. f_equal. ring.
Qed.
(** Two hypotheses with statistics 2 ln 2 and 0: the answer is the second. *)
Example C72_ex_agreement : let p := map FinV [1; 0] in let ps := [map FinV [1 / 2; 1 / 2]; p] in
  statistic ln 2 p (nth 0 ps []) = Some (2 * ln 2) /\ statistic ln 2 p (nth 1 ps []) = Some 0 /\ agreement ln 5 2 p ps 0 None (-1) = 1%Z.
Proof.
  intros p ps. assert (L2 : 0 < ln 2) by (rewrite <- ln_1; apply ln_increasing; lra).
  assert (P0 : forall v, In v [1; 0] -> 0 <= v) by (intros v [<-|[<-|[]]]; lra). assert (P1 : forall v, In v [1 / 2; 1 / 2] -> 0 <= v) by (intros v [<-|[<-|[]]]; lra).
  assert (T1 : Rltb 0 1 = true) by (apply Rltb_lt; lra). assert (T2 : Rltb 0 0 = false) by (apply Rltb_nlt; lra). assert (T3 : Rltb 0 (1 / 2) = true) by (apply Rltb_lt; lra). assert (T4 : Rleb 0 0 = true) by (apply Rleb_le; lra). assert (T5 : Rleb 1 0 = false) by (apply Rleb_nle; lra).
  assert (S0 : statistic ln 2 p (nth 0 ps []) = Some (2 * ln 2)).
  { unfold statistic, ps, p. cbn [nth]. rewrite entropy_spec; auto; try (unfold Rsum; cbn; lra). unfold divergence. cbn [combine forallb fst snd map]. rewrite T1, T2, T3, T4, T5. cbn [orb andb]. unfold Rsum. cbn [fold_right]. do 2 f_equal. replace (1 / (1 / 2)) with 2 by field. ring. }
  assert (S1 : statistic ln 2 p (nth 1 ps []) = Some 0).
  { unfold statistic, ps, p. cbn [nth]. rewrite entropy_spec; auto; try (unfold Rsum; cbn; lra). unfold divergence. cbn [combine forallb fst snd map]. rewrite T1, T2, T4, T5. cbn [orb andb]. unfold Rsum. cbn [fold_right]. f_equal. replace (1 / 1) with 1 by field. rewrite ln_1. ring. }
  split; [exact S0|]. split; [exact S1|]. destruct (C72_agreement_is_first_least ln 5 2 p ps) as [[_ H]|(k & v & -> & Hk & Hv & _ & Hle & _)].
  - specialize (H 1%nat 0 ltac:(cbn; lia) S1). lra.
  - specialize (Hle 1%nat 0 ltac:(cbn; lia) S1). cbn in Hk. destruct k as [|[|k]]; [|reflexivity|lia]. rewrite S0 in Hv. injection Hv as <-. lra.
Qed.
(** A forest of two trees that answer 3 and 5 for every leaf. *)
Definition flat_tree : RCTree nat R := mkRCTree nat R R (fun _ => []) (fun _ _ s => (Ok tt, s)) (fun _ s => (Ok tt, s)) (fun _ _ => Ok None) (fun _ v => Ok v).
Example C73_ex_score : eval (md_score (RobustRandomCutForest (Y := unit) flat_tree 4) 7%nat) ([3; 5], 1%Z) = Ok (VScalar (0 + 3 / 2 + 5 / 2)) /\ mean [3; 5] = 4.
Proof. split; [reflexivity|]. unfold mean, Rlen, Rsum. cbn. lra. Qed.
