(** * Properties of RelativeEntropy and RobustRandomCutForest (C72, C73). *)
From Coq Require Import List ZArith Lia Bool Reals Lra Permutation Arith.
From Verif Require Import Base Num Spec Model_Stats Model_Utils Model_Core Model_Simple Model_Sketch P_Lists P_Stats P_Utils P_Core P_Post P_Models.
Import ListNotations.
Open Scope R_scope.

(** ** C72: RelativeEntropy *)
(** Empirical distribution of the values in [0, n] over the n bins (the value n belongs to the last bin); None if no value is in range. *)
Definition in_range (n : nat) (b : Z) : bool := (0 <=? b)%Z && (b <=? Z.of_nat n)%Z.
Definition distribution (n : nat) (bs : list Z) : option (list R) :=
  match filter (in_range n) bs with
  | [] => None
  | l => Some (map (fun i => fraction (fun b => Z.min b (Z.of_nat n - 1) =? Z.of_nat i)%Z l) (seq 0 n))
  end.
(** Kullback-Leibler divergence; None is +infinity. *)
Definition divergence (p q : list R) : option R :=
  if forallb (fun u => Rleb (fst u) 0 || Rltb 0 (snd u)) (combine p q)
  then Some (Rsum (map (fun u => if Rltb 0 (fst u) then fst u * ln (fst u / snd u) else 0) (combine p q)))
  else None.
(** The G statistic 2*W*D(p || q) is below the threshold. *)
Definition agrees (thr : R) (W : nat) (p q : option (list R)) : Prop :=
  exists p' q' D, p = Some p' /\ q = Some q' /\ divergence p' q' = Some D /\ 2 * INR W * D < thr.

Lemma in_bin_spec : forall n i b, (i < n)%nat -> in_bin n i b = in_range n b && (Z.min b (Z.of_nat n - 1) =? Z.of_nat i)%Z.
Proof.
  intros n i b H. unfold in_bin, in_range.
  destruct (Z.leb_spec (Z.of_nat i) b), (Z.ltb_spec b (Z.of_nat i + 1)), (Nat.eqb_spec (i + 1) n), (Z.eqb_spec b (Z.of_nat n)), (Z.leb_spec 0 b), (Z.leb_spec b (Z.of_nat n)), (Z.eqb_spec (Z.min b (Z.of_nat n - 1)) (Z.of_nat i)); cbn; try reflexivity; lia.
Qed.
Lemma filter_filter : forall A (f g : A -> bool) l, filter f (filter g l) = filter (fun x => g x && f x) l.
Proof. intros A f g l. induction l as [|a l IH]; auto. cbn. destruct (g a); cbn; [destruct (f a); cbn; rewrite IH; auto|auto]. Qed.
Lemma histogram_spec : forall n bs, np_histogram n bs = map (fun i => Z.of_nat (length (filter (fun b => Z.min b (Z.of_nat n - 1) =? Z.of_nat i)%Z (filter (in_range n) bs)))) (seq 0 n).
Proof.
  intros n bs. unfold np_histogram. apply map_ext_in. intros i Hi. apply in_seq in Hi. rewrite filter_filter. do 2 f_equal. apply filter_ext. intros b. apply in_bin_spec. lia.
Qed.
Lemma fold_Zadd : forall l a, fold_left Z.add l a = (a + fold_right Z.add 0 l)%Z.
Proof. induction l as [|b l IH]; intros a; cbn; [lia|]. rewrite IH. lia. Qed.
(** A value belongs to exactly one class. *)
Lemma class_counts : forall A (f : A -> nat) n l, (forall a, In a l -> (f a < n)%nat) ->
  fold_right Z.add 0%Z (map (fun i => Z.of_nat (length (filter (fun a => (f a =? i)%nat) l))) (seq 0 n)) = Z.of_nat (length l).
Proof.
  intros A f n l. induction l as [|a l IH]; intros H.
  - cbn [length filter]. clear H. change (Z.of_nat 0) with 0%Z. generalize 0%nat. induction n as [|n IHn]; intros k; [reflexivity|]. cbn [seq map fold_right]. rewrite IHn. reflexivity.
  - assert (Ha : (f a < n)%nat) by (apply H; left; auto). assert (IH' := IH (fun b Hb => H b (or_intror Hb))). clear IH H.
    cbn [length]. rewrite Nat2Z.inj_succ, <- IH'. clear IH'.
    assert (G : forall k m, fold_right Z.add 0%Z (map (fun i => Z.of_nat (length (filter (fun a0 => (f a0 =? i)%nat) (a :: l)))) (seq k m)) =
      (fold_right Z.add 0%Z (map (fun i => Z.of_nat (length (filter (fun a0 => (f a0 =? i)%nat) l))) (seq k m)) + (if (k <=? f a)%nat && (f a <? k + m)%nat then 1 else 0))%Z).
    { intros k m. revert k. induction m as [|m IH]; intros k; cbn [seq map fold_right].
      - destruct (Nat.leb_spec k (f a)), (Nat.ltb_spec (f a) (k + 0)); cbn; lia.
      - rewrite IH. cbn [filter]. destruct (Nat.eqb_spec (f a) k), (Nat.leb_spec (S k) (f a)), (Nat.ltb_spec (f a) (S k + m)), (Nat.leb_spec k (f a)), (Nat.ltb_spec (f a) (k + S m)); cbn [andb length]; lia. }
    rewrite G. destruct (Nat.leb_spec 0 (f a)), (Nat.ltb_spec (f a) (0 + n)); cbn [andb]; lia.
Qed.
Lemma histogram_total : forall n bs, (1 <= n)%nat -> fold_left Z.add (np_histogram n bs) 0%Z = Z.of_nat (length (filter (in_range n) bs)).
Proof.
  intros n bs Hn. rewrite histogram_spec, fold_Zadd, Z.add_0_l, <- (class_counts Z (fun b => Z.to_nat (Z.min b (Z.of_nat n - 1))) n).
  - f_equal. apply map_ext_in. intros i Hi. apply in_seq in Hi. do 2 f_equal. apply filter_ext_in. intros b Hb. apply filter_In in Hb. destruct Hb as [_ Hb]. unfold in_range in Hb. apply andb_prop in Hb. destruct Hb as [B1 B2].
    apply Z.leb_le in B1, B2. destruct (Z.eqb_spec (Z.min b (Z.of_nat n - 1)) (Z.of_nat i)), (Nat.eqb_spec (Z.to_nat (Z.min b (Z.of_nat n - 1))) i); auto; lia.
  - intros b Hb. apply filter_In in Hb. destruct Hb as [_ Hb]. unfold in_range in Hb. apply andb_prop in Hb. destruct Hb as [B1 B2]. apply Z.leb_le in B1, B2. lia.
Qed.
Lemma density_spec : forall n bs, (1 <= n)%nat ->
  np_density (np_histogram n bs) = match distribution n bs with None => repeat NonFin n | Some p => map FinV p end.
Proof.
  intros n bs Hn. unfold np_density. rewrite histogram_total, histogram_spec by auto. unfold distribution. destruct (filter (in_range n) bs) as [|b l] eqn:E.
  - rewrite map_map. unfold npdiv. cbn [length Z.of_nat nofZ NumR oeqb num_ord OrdR n0]. destruct (Reqb 0 0) eqn:Q; [|apply Reqb_neq in Q; lra].
    generalize 0%nat. clear. induction n; intros k; auto. cbn. f_equal. apply IHn.
  - rewrite !map_map. apply map_ext. intros i. unfold npdiv, fraction, Rlen. cbn [nofZ NumR oeqb num_ord OrdR n0 ndiv]. rewrite !INR_Zof_nat.
    destruct (Reqb (INR (length (b :: l))) 0) eqn:Q; [apply Reqb_eq in Q|reflexivity]. assert (0 < INR (length (b :: l))) by (apply lt_0_INR; cbn; lia). lra.
Qed.
Lemma Rsum_IZR : forall l, Rsum (map IZR l) = IZR (fold_right Z.add 0%Z l).
Proof. induction l as [|a l IH]; auto. cbn [map fold_right]. change (Rsum (IZR a :: map IZR l)) with (IZR a + Rsum (map IZR l)). rewrite IH, plus_IZR. reflexivity. Qed.
Lemma distribution_props : forall n bs p, (1 <= n)%nat -> distribution n bs = Some p -> length p = n /\ (forall v, In v p -> 0 <= v) /\ Rsum p = 1.
Proof.
  intros n bs p Hn H. pose proof (histogram_total n bs Hn) as HT. rewrite histogram_spec, fold_Zadd, Z.add_0_l in HT.
  unfold distribution in H. destruct (filter (in_range n) bs) as [|b l] eqn:E; [discriminate|]. injection H as <-.
  assert (P : 0 < INR (length (b :: l))) by (apply lt_0_INR; cbn; lia).
  split; [rewrite map_length, seq_length; auto|]. split.
  - intros v Hv. apply in_map_iff in Hv. destruct Hv as (i & <- & _). unfold fraction, Rlen. apply Rmult_le_pos; [apply pos_INR|left; apply Rinv_0_lt_compat; auto].
  - unfold fraction, Rdiv.
    rewrite (map_ext _ (fun i => / Rlen (b :: l) * Rlen (filter (fun b0 => (Z.min b0 (Z.of_nat n - 1) =? Z.of_nat i)%Z) (b :: l)))) by (intros; ring).
    rewrite Rsum_map_scal.
    assert (EQ : Rsum (map (fun i => Rlen (filter (fun b0 => (Z.min b0 (Z.of_nat n - 1) =? Z.of_nat i)%Z) (b :: l))) (seq 0 n)) = Rlen (b :: l)).
    { unfold Rlen. rewrite <- (INR_Zof_nat (length (b :: l))), <- HT, <- Rsum_IZR, map_map. f_equal. apply map_ext. intros i. rewrite INR_Zof_nat. reflexivity. }
    rewrite EQ. unfold Rlen in *. field. lra.
Qed.
Lemma all_fin_FinV : forall (l : list R), all_fin (map FinV l) = Some l.
Proof. induction l as [|a l IH]; auto. cbn. rewrite IH. reflexivity. Qed.
Lemma entropy_sum_fin : forall (l : list (R * R)) acc, forallb (fun u => Rleb (fst u) 0 || Rltb 0 (snd u)) l = true -> (forall u, In u l -> 0 <= fst u /\ 0 <= snd u) ->
  fold_left entr_add (map (fun u => rel_entr ln (fst u) (snd u)) l) (EFin acc) =
  EFin (acc + Rsum (map (fun u => if Rltb 0 (fst u) then fst u * ln (fst u / snd u) else 0) l)).
Proof.
  induction l as [|[p q] l IH]; intros acc H N.
  - cbn. f_equal. unfold Rsum. cbn. ring.
  - cbn [forallb fst snd] in H. apply andb_prop in H. destruct H as [H1 H2]. destruct (N (p, q) (or_introl eq_refl)) as [Np Nq]. cbn [fst snd] in *.
    cbn [map fold_left fst snd]. set (t := if Rltb 0 p then p * ln (p / q) else 0).
    assert (E : rel_entr ln p q = EFin t).
    { unfold rel_entr, t. cbn [oltb oeqb oleb num_ord NumR OrdR n0 nmul ndiv]. destruct (Rltb 0 p) eqn:Q; cbn [andb].
      - apply Rltb_lt in Q. destruct (Rltb 0 q) eqn:Q2; auto. rewrite orb_false_r in H1. apply Rleb_le in H1. lra.
      - apply Rltb_nlt in Q. assert (E0 : p = 0) by lra. subst p. destruct (Reqb 0 0) eqn:Q3; [|apply Reqb_neq in Q3; lra]. cbn [andb]. destruct (Rleb 0 q) eqn:Q4; auto. apply Rleb_nle in Q4. lra. }
    rewrite E. cbn [entr_add]. rewrite IH; auto.
    + f_equal. unfold Rsum. cbn [nadd NumR fold_right map fst snd]. unfold t. ring.
    + intros u Hu. apply N. right; auto.
Qed.
Lemma entr_add_inf : forall l : list (R * R), fold_left entr_add (map (fun u => rel_entr ln (fst u) (snd u)) l) EInf = EInf.
Proof. induction l as [|[p q] l IH]; auto. cbn [map fold_left fst snd]. destruct (rel_entr ln p q) eqn:E; cbn [entr_add]; auto. unfold rel_entr in E. destruct (_ && _); [discriminate|]. destruct (_ && _); discriminate. Qed.
Lemma entropy_sum_inf : forall (l : list (R * R)) acc, forallb (fun u => Rleb (fst u) 0 || Rltb 0 (snd u)) l = false -> (forall u, In u l -> 0 <= fst u /\ 0 <= snd u) ->
  fold_left entr_add (map (fun u => rel_entr ln (fst u) (snd u)) l) (EFin acc) = EInf.
Proof.
  induction l as [|[p q] l IH]; intros acc H N; [discriminate|].
  cbn [forallb fst snd] in H. cbn [map fold_left fst snd]. destruct (N (p, q) (or_introl eq_refl)) as [Np Nq]. cbn [fst snd] in *.
  destruct (Rleb p 0 || Rltb 0 q) eqn:Q; cbn [andb] in H.
  - assert (EE : exists t, rel_entr ln p q = EFin t).
    { unfold rel_entr. cbn [oltb oeqb oleb num_ord NumR OrdR n0 nmul ndiv]. destruct (Rltb 0 p) eqn:Q1; cbn [andb].
      - apply Rltb_lt in Q1. destruct (Rltb 0 q) eqn:Q2; eauto. rewrite orb_false_r in Q. apply Rleb_le in Q. lra.
      - apply Rltb_nlt in Q1. assert (E0 : p = 0) by lra. subst p. destruct (Reqb 0 0) eqn:Q3; [|apply Reqb_neq in Q3; lra]. cbn [andb]. destruct (Rleb 0 q) eqn:Q4; eauto. apply Rleb_nle in Q4. lra. }
    destruct EE as [t Et]. rewrite Et. cbn [entr_add]. apply IH; auto. intros u Hu. apply N. right; auto.
  - apply orb_false_elim in Q. destruct Q as [Q1 Q2]. apply Rleb_nle in Q1. apply Rltb_nlt in Q2.
    assert (EI : rel_entr ln p q = EInf).
    { unfold rel_entr. cbn [oltb oeqb oleb num_ord NumR OrdR n0 nmul ndiv]. destruct (Rltb 0 q) eqn:Q3; [apply Rltb_lt in Q3; lra|]. rewrite andb_false_r. destruct (Reqb p 0) eqn:Q4; [apply Reqb_eq in Q4; lra|reflexivity]. }
    rewrite EI. cbn [entr_add]. apply entr_add_inf.
Qed.
Lemma map_div_one : forall l s, s = 1 -> map (fun v => v / s) l = l.
Proof. intros l s ->. rewrite <- (map_id l) at 2. apply map_ext. intros. field. Qed.
Lemma in_combine_both : forall (p q : list R), (forall v, In v p -> 0 <= v) -> (forall v, In v q -> 0 <= v) -> forall u, In u (combine p q) -> 0 <= fst u /\ 0 <= snd u.
Proof. intros p q Hp Hq [a b] H. cbn. split; [eapply Hp, in_combine_l; eauto|eapply Hq, in_combine_r; eauto]. Qed.
Lemma entropy_spec : forall p q, (forall v, In v p -> 0 <= v) -> Rsum p = 1 -> (forall v, In v q -> 0 <= v) -> Rsum q = 1 ->
  scipy_entropy ln (map FinV p) (map FinV q) = match divergence p q with Some D => EFin D | None => EInf end.
Proof.
  intros p q Hp Sp Hq Sq. unfold scipy_entropy. rewrite !all_fin_FinV. cbn [ndiv NumR]. rewrite !nsum_Rsum. rewrite !map_div_one by auto. unfold divergence. cbn [n0 NumR].
  destruct (forallb _ (combine p q)) eqn:E.
  - rewrite entropy_sum_fin; auto; [f_equal; ring|apply in_combine_both; auto].
  - apply entropy_sum_inf; auto. apply in_combine_both; auto.
Qed.

Section RE.
Variables (Y : Type) (ceil : R -> Z) (thr min_val step : R) (N W : nat).
Hypotheses (HN : (1 <= N)%nat) (HW : (1 <= W)%nat) (Hstep : step <> 0).
Definition quantized (vs : list R) : list Z := map (fun v => ceil ((v - min_val) / step)) vs.
Definition re_dens (vs : list R) : list (npres R) := np_density (np_histogram N (quantized vs)).
Definition re_inv (vs : list R) (s : rest R) : Prop :=
  re_util s = map (fun v => [v]) vs /\
  if (length vs <? W)%nat then re_m s = 0%nat /\ re_P s = [] /\ re_hat s = None
  else re_m s = 1%nat /\ re_P s = [re_dens (firstn W vs)] /\ re_hat s = Some (re_dens (lastn W vs)).
Lemma quantize_ok : forall vs, res_map (re_quantize ceil min_val step) (map (fun v => [v]) vs) = Ok (quantized vs).
Proof.
  induction vs as [|v vs IH]; auto. cbn [map res_map quantized]. unfold re_quantize at 1, pydiv. cbn [oeqb num_ord NumR OrdR n0 ndiv nsub].
  destruct (Reqb step 0) eqn:Q; [apply Reqb_eq in Q; contradiction|]. cbn [rmap rbind]. rewrite IH. reflexivity.
Qed.
Lemma re_fit_step : forall vs s v y, re_inv vs s -> exists s',
  md_fit (RelativeEntropy (Y := Y) ln ceil thr min_val step N W) [v] y s = (Ok tt, s') /\ re_inv (vs ++ [v]) s'.
Proof.
  intros vs [u m P c hat] v y [H1 H2]. cbn [re_util re_m re_P re_c re_hat] in *. subst u. cbn [md_fit RelativeEntropy plain_model]. unfold bind at 1, modify at 1. cbn [re_util re_m re_P re_c re_hat].
  unfold bind at 1, gets at 1. cbn [re_util re_m re_P re_c re_hat].
  assert (EU : map (fun v => [v]) vs ++ [[v]] = map (fun v => [v]) (vs ++ [v])) by (rewrite map_app; reflexivity). rewrite EU, map_length. unfold re_inv. cbn [re_util re_m re_P re_c re_hat].
  assert (LS : length (vs ++ [v]) = S (length vs)) by (rewrite app_length; cbn; lia).
  destruct (Nat.leb_spec W (length (vs ++ [v]))) as [HL|HL].
  - assert (EP : py_last W (map (fun v => [v]) (vs ++ [v])) = map (fun v => [v]) (lastn W (vs ++ [v]))).
    { unfold py_last. destruct (Nat.eqb_spec W 0); [lia|]. unfold lastn. rewrite map_length, skipn_map. reflexivity. }
    rewrite EP, quantize_ok. unfold bind, lift, modify. cbn [re_util re_m re_P re_c re_hat]. destruct (Nat.ltb_spec (length (vs ++ [v])) W); [lia|].
    destruct (Nat.ltb_spec (length vs) W) as [HS|HS]; destruct H2 as (-> & -> & ->).
    + cbn [Nat.eqb]. eexists. split; [reflexivity|]. cbn [re_util re_m re_P re_c re_hat app]. split; [reflexivity|]. split; [reflexivity|]. rewrite lastn_all, firstn_all2 by lia. split; reflexivity.
    + cbn [Nat.eqb]. eexists. split; [reflexivity|]. cbn [re_util re_m re_P re_c re_hat app ret]. split; [reflexivity|]. split; [reflexivity|]. rewrite firstn_app. replace (W - length vs)%nat with 0%nat by lia. cbn [firstn]. rewrite app_nil_r. split; reflexivity.
  - eexists. split; [reflexivity|]. cbn [re_util re_m re_P re_c re_hat]. split; [reflexivity|]. destruct (Nat.ltb_spec (length (vs ++ [v])) W); [|lia]. destruct (Nat.ltb_spec (length vs) W); [|lia]. auto.
Qed.
Lemma re_run : forall (h : list (mcall (list R) Y)) vs, fitted_instances h = map (fun v => [v]) vs ->
  re_inv vs (model_run (RelativeEntropy ln ceil thr min_val step N W) RE_init h).
Proof.
  intros h vs E.
  refine (plain_run_all _ _ _ _ _ _ (fun l s => forall vs, l = map (fun v => [v]) vs -> re_inv vs s) _ _ h _ _ vs E).
  - clear h vs E. intros l s x y H vs E. destruct vs as [|v vs] using rev_ind; [destruct l; discriminate|]. rewrite map_app in E. cbn in E. apply app_inj_tail in E. destruct E as [E1 ->].
    destruct (re_fit_step vs s v y (H vs E1)) as (s' & Q & I). cbn [md_fit RelativeEntropy plain_model] in Q. unfold exec. rewrite Q. auto.
  - intros l s x H vs' E'. unfold exec, bind, gets, ret. destruct (re_hat s); [destruct (_ && _)|]; apply H; auto.
  - intros [|v vs'] Q; [|discriminate]. split; [reflexivity|]. cbn [length]. destruct (Nat.ltb_spec 0 W); [auto|lia].
Qed.
Lemma agreement_one : forall p q, agreement ln thr (IZR (2 * Z.of_nat W)) (re_dens p) [re_dens q] 0 None (-1) = 0%Z <->
  agrees thr W (distribution N (quantized p)) (distribution N (quantized q)).
Proof.
  intros p q. unfold agreement, re_dens, agrees. rewrite !density_spec by auto.
  assert (NN : forall l, scipy_entropy ln (repeat NonFin N) l = ENaN) by (intros; destruct N; [lia|reflexivity]).
  destruct (distribution N (quantized p)) as [p'|] eqn:Ep.
  - destruct (distribution N (quantized q)) as [q'|] eqn:Eq.
    + destruct (distribution_props _ _ _ HN Ep) as (_ & P1 & P2). destruct (distribution_props _ _ _ HN Eq) as (_ & Q1 & Q2). rewrite entropy_spec by auto.
      destruct (divergence p' q') as [D|] eqn:ED.
      * cbn [nmul NumR oltb num_ord OrdR]. rewrite andb_true_r, mult_IZR, INR_Zof_nat. destruct (Rltb (2 * INR W * D) thr) eqn:Q; cbn.
        -- apply Rltb_lt in Q. split; [|auto]. intros _. exists p', q', D. auto.
        -- apply Rltb_nlt in Q. split; [discriminate|]. intros (p2 & q2 & D2 & E1 & E2 & E3 & E4). injection E1 as <-. injection E2 as <-. rewrite ED in E3. injection E3 as <-. contradiction.
      * split; [discriminate|]. intros (p2 & q2 & D2 & E1 & E2 & E3 & E4). injection E1 as <-. injection E2 as <-. rewrite ED in E3. discriminate.
    + assert (EN : scipy_entropy ln (map FinV p') (repeat NonFin N) = ENaN) by (unfold scipy_entropy; rewrite all_fin_FinV; destruct N; [lia|reflexivity]). rewrite EN.
      split; [discriminate|]. intros (p2 & q2 & D2 & E1 & E2 & E3 & E4). discriminate.
  - rewrite NN. split; [discriminate|]. intros (p2 & q2 & D2 & E1 & E2 & E3 & E4). discriminate.
Qed.
Lemma agreement_range : forall p q, agreement ln thr (IZR (2 * Z.of_nat W)) p [q] 0 None (-1) = 0%Z \/ agreement ln thr (IZR (2 * Z.of_nat W)) p [q] 0 None (-1) = (-1)%Z.
Proof. intros. unfold agreement. destruct (scipy_entropy ln p q); auto. destruct (_ && _); auto. Qed.
Lemma re_score : forall (h : list (mcall (list R) Y)) vs x, fitted_instances h = map (fun v => [v]) vs ->
  let a := eval (md_score (RelativeEntropy ln ceil thr min_val step N W) x) (model_run (RelativeEntropy (Y := Y) ln ceil thr min_val step N W) RE_init h) in
  ((length vs < W)%nat -> a = Ok (VScalar 0)) /\
  ((W <= length vs)%nat ->
    (agrees thr W (distribution N (quantized (lastn W vs))) (distribution N (quantized (firstn W vs))) -> a = Ok (VScalar 0)) /\
    (~ agrees thr W (distribution N (quantized (lastn W vs))) (distribution N (quantized (firstn W vs))) -> a = Ok (VScalar (-1)))).
Proof.
  intros h vs x E. destruct (re_run h vs E) as [H1 H2]. set (s := model_run _ _ h) in *. clearbody s. cbv zeta. unfold eval. cbn [md_score RelativeEntropy plain_model]. unfold bind, gets, ret. destruct (Nat.ltb_spec (length vs) W) as [HL|HL].
  - destruct H2 as (E1 & E2 & E3). rewrite E3. split; [reflexivity|lia].
  - destruct H2 as (E1 & E2 & E3). split; [lia|]. intros _. rewrite E3, E1, E2, H1, map_length. destruct (Nat.leb_spec W (length vs)); [|lia]. cbn [Nat.ltb Nat.leb andb firstn fst]. cbn [nofZ NumR].
    rewrite <- agreement_one. destruct (agreement_range (re_dens (lastn W vs)) (re_dens (firstn W vs))) as [Q|Q]; rewrite Q; split; intros H0; try reflexivity; try congruence; try (exfalso; apply H0; reflexivity).
Qed.
End RE.

(** The current window (the last W values) is compared with the first window only, and the answer is 0 or -1. *)
Theorem C72_compares_with_first_window : forall Y ceil thr min_val step N W (h : list (mcall (list R) Y)) vs x,
  (1 <= N)%nat -> (1 <= W)%nat -> step <> 0 -> fitted_instances h = map (fun v => [v]) vs ->
  let a := eval (md_score (RelativeEntropy ln ceil thr min_val step N W) x) (model_run (RelativeEntropy (Y := Y) ln ceil thr min_val step N W) RE_init h) in
  let dist win := distribution N (map (fun v => ceil ((v - min_val) / step)) win) in
  ((length vs < W)%nat -> a = Ok (VScalar 0)) /\
  ((W <= length vs)%nat -> (agrees thr W (dist (lastn W vs)) (dist (firstn W vs)) -> a = Ok (VScalar 0)) /\
                           (~ agrees thr W (dist (lastn W vs)) (dist (firstn W vs)) -> a = Ok (VScalar (-1)))).
Proof. intros. apply (re_score Y ceil thr min_val step N W); auto. Qed.
Print Assumptions C72_compares_with_first_window.
(** Whatever was fitted (also instances that made fit_partial fail), scoring never fails and returns 0 or -1. *)
Theorem C72_score_is_0_or_minus_1 : forall Y (A : Type) (NA : Num A) log ceil (thr min_val step : A) N W (h : list (mcall (list A) Y)) x,
  let a := eval (md_score (RelativeEntropy log ceil thr min_val step N W) x) (model_run (RelativeEntropy (Y := Y) log ceil thr min_val step N W) RE_init h) in
  a = Ok (VScalar n0) \/ a = Ok (VScalar (nofZ 0)) \/ a = Ok (VScalar (nofZ (-1))).
Proof.
  intros Y A NA log ceil thr min_val step N W h x. cbv zeta.
  assert (I : let s := model_run (RelativeEntropy (Y := Y) log ceil thr min_val step N W) RE_init h in (re_m s <= 1)%nat /\ length (re_P s) = re_m s).
  { cbv zeta. refine (plain_run_all _ _ _ _ _ _ (fun _ s => (re_m s <= 1)%nat /\ length (re_P s) = re_m s) _ _ h _ _).
    - intros l [u m P c hat] x' y [H1 H2]. cbn [re_m re_P] in *. unfold exec, bind, modify, gets, lift. cbn [re_util re_m re_P re_c re_hat].
      destruct (W <=? length (u ++ [x']))%nat; [|cbn; auto]. destruct (res_map _ _); [|cbn; auto]. cbn [re_util re_m re_P re_c re_hat]. destruct (Nat.eqb_spec m 0) as [->|Q]; cbn; [|auto]. rewrite app_length. cbn. lia.
    - intros l s x' H. unfold exec, bind, gets, ret. destruct (re_hat s); [destruct (_ && _)|]; auto.
    - cbn. lia. }
  set (s := model_run _ _ h) in *. clearbody s. destruct I as [I1 I2]. unfold eval. cbn. unfold bind, gets, ret. destruct (re_hat s) as [hat|]; [|auto]. destruct (_ && _); [|auto]. cbn [fst]. right.
  destruct (re_P s) as [|q [|q' P]]; cbn in I2; [rewrite <- I2; auto| |lia]. rewrite <- I2. cbn [firstn]. unfold agreement. destruct (scipy_entropy log hat q); auto. destruct (_ && _); auto.
Qed.
Print Assumptions C72_score_is_0_or_minus_1.
Lemma divergence_refl : forall p, (forall v, In v p -> 0 <= v) -> divergence p p = Some 0.
Proof.
  intros p H. unfold divergence.
  assert (E : forallb (fun u : R * R => Rleb (fst u) 0 || Rltb 0 (snd u)) (combine p p) = true).
  { apply forallb_forall. intros [a b] I. assert (a = b) by (clear H; induction p as [|c p IH]; [contradiction|]; destruct I as [Q|I]; [congruence|auto]). subst b. cbn. destruct (Rleb a 0) eqn:Q; auto. apply Rleb_nle in Q. cbn. apply Rltb_lt. lra. }
  rewrite E. f_equal. apply Rsum_map_zero. intros [a b] I. assert (a = b) by (clear H E; induction p as [|c p IH]; [contradiction|]; destruct I as [Q|I]; [congruence|auto]). subst b. cbn [fst snd]. destruct (Rltb 0 a) eqn:Q; auto. apply Rltb_lt in Q.
  replace (a / a) with 1 by (field; lra). rewrite ln_1. ring.
Qed.
(** A window distributed like the first one scores 0 (for a positive threshold); a window with a value in a bin the first window never used scores -1. *)
Theorem C72_same_distribution_0_new_bin_minus_1 : forall Y ceil thr min_val step N W (h : list (mcall (list R) Y)) vs x p q,
  (1 <= N)%nat -> (1 <= W)%nat -> step <> 0 -> fitted_instances h = map (fun v => [v]) vs -> (W <= length vs)%nat ->
  let a := eval (md_score (RelativeEntropy ln ceil thr min_val step N W) x) (model_run (RelativeEntropy (Y := Y) ln ceil thr min_val step N W) RE_init h) in
  let dist win := distribution N (map (fun v => ceil ((v - min_val) / step)) win) in
  dist (lastn W vs) = Some p -> dist (firstn W vs) = Some q ->
  (p = q -> 0 < thr -> a = Ok (VScalar 0)) /\ ((exists i, (i < N)%nat /\ 0 < nth i p 0 /\ nth i q 0 = 0) -> a = Ok (VScalar (-1))).
Proof.
  intros Y ceil thr min_val step N W h vs x p q HN HW Hs E HL a dist Ep Eq. destruct (C72_compares_with_first_window Y ceil thr min_val step N W h vs x HN HW Hs E) as [_ C]. specialize (C HL). fold a in C. unfold dist in Ep, Eq. cbv zeta in C. destruct C as [C1 C2].
  destruct (distribution_props _ _ _ HN Ep) as (L1 & P1 & S1). destruct (distribution_props _ _ _ HN Eq) as (L2 & P2 & S2). split.
  - intros <- Ht. apply C1. rewrite Ep, Eq. exists p, p, 0. rewrite divergence_refl by auto. split; [reflexivity|]. split; [reflexivity|]. split; [reflexivity|]. lra.
  - intros (i & Hi & G1 & G2). apply C2. rewrite Ep, Eq. intros (p' & q' & D & Q1 & Q2 & Q3 & _). injection Q1 as <-. injection Q2 as <-. unfold divergence in Q3.
    destruct (forallb _ (combine p q)) eqn:F; [|discriminate]. rewrite forallb_forall in F. assert (I : In (nth i p 0, nth i q 0) (combine p q)).
    { rewrite <- (combine_nth p q i 0 0) by congruence. apply nth_In. rewrite combine_length. lia. }
    specialize (F _ I). cbn [fst snd] in F. rewrite G2 in F. apply orb_prop in F. destruct F as [F|F]; [apply Rleb_le in F; lra|apply Rltb_lt in F; lra].
Qed.
Print Assumptions C72_same_distribution_0_new_bin_minus_1.
(** Orientation: with window 1 and two bins, a never seen value scores lower than the usual one. *)
Theorem C72_anomalous_window_scores_higher_refuted : forall ceil thr, (forall z, ceil (IZR z) = z) -> 0 < thr ->
  let m := RelativeEntropy (Y := unit) ln ceil thr 0 1 3 1 in
  eval (md_score m [0]) (model_run m RE_init [CFit [1] None; CFit [1] None]) = Ok (VScalar 0) /\
  eval (md_score m [0]) (model_run m RE_init [CFit [1] None; CFit [2] None]) = Ok (VScalar (-1)).
Proof.
  intros ceil thr Hc Ht. cbv zeta. assert (Q : forall z, ceil ((IZR z - 0) / 1) = z) by (intros z; rewrite <- (Hc z) at 2; f_equal; field).
  assert (D1 : distribution 3 [1%Z] = Some [0 / 1; 1 / 1; 0 / 1]) by reflexivity. assert (D2 : distribution 3 [2%Z] = Some [0 / 1; 0 / 1; 1 / 1]) by reflexivity. split.
  - apply (C72_same_distribution_0_new_bin_minus_1 unit ceil thr 0 1 3 1 [CFit [1] None; CFit [1] None] [1; 1] [0] [0 / 1; 1 / 1; 0 / 1] [0 / 1; 1 / 1; 0 / 1]); auto; try lra; try (cbn; lia); cbn; rewrite Q; auto.
  - apply (C72_same_distribution_0_new_bin_minus_1 unit ceil thr 0 1 3 1 [CFit [1] None; CFit [2] None] [1; 2] [0] [0 / 1; 0 / 1; 1 / 1] [0 / 1; 1 / 1; 0 / 1]); auto; try lra; try (cbn; lia); try (cbn; rewrite Q; auto).
    exists 2%nat. cbn. split; [lia|]. lra.
Qed.
Print Assumptions C72_anomalous_window_scores_higher_refuted.
(** The first window is remembered for ever: two streams with the same first window and the same last window have the same score. *)
Theorem C72_depends_on_first_and_last_window : forall Y ceil thr min_val step N W (h h' : list (mcall (list R) Y)) vs vs' x x',
  (1 <= N)%nat -> (1 <= W)%nat -> step <> 0 -> fitted_instances h = map (fun v => [v]) vs -> fitted_instances h' = map (fun v => [v]) vs' ->
  (W <= length vs)%nat -> (W <= length vs')%nat -> firstn W vs = firstn W vs' -> lastn W vs = lastn W vs' ->
  let m := RelativeEntropy ln ceil thr min_val step N W in eval (md_score m x) (model_run m RE_init h) = eval (md_score m x') (model_run m RE_init h').
Proof.
  intros Y ceil thr min_val step N W h h' vs vs' x x' HN HW Hs E E' L1 L2 F1 F2. cbv zeta.
  destruct (C72_compares_with_first_window Y ceil thr min_val step N W h vs x HN HW Hs E) as [_ C]. destruct (C72_compares_with_first_window Y ceil thr min_val step N W h' vs' x' HN HW Hs E') as [_ C'].
  specialize (C L1). specialize (C' L2). rewrite F1, F2 in C. destruct C as [C1 C2], C' as [C1' C2'].
  set (P := agrees _ _ _ _) in *. destruct (C72_score_is_0_or_minus_1 Y R NumR ln ceil thr min_val step N W h x) as [Q|[Q|Q]].
  - destruct (C72_score_is_0_or_minus_1 Y R NumR ln ceil thr min_val step N W h' x') as [Q'|[Q'|Q']]; cbn [nofZ n0 NumR] in *.
    + congruence.
    + congruence.
    + exfalso. assert (NP : ~ P) by (intros HP; specialize (C1' HP); rewrite Q' in C1'; injection C1'; lra). specialize (C2 NP). rewrite Q in C2. injection C2. lra.
  - destruct (C72_score_is_0_or_minus_1 Y R NumR ln ceil thr min_val step N W h' x') as [Q'|[Q'|Q']]; cbn [nofZ n0 NumR] in *.
    + congruence.
    + congruence.
    + exfalso. assert (NP : ~ P) by (intros HP; specialize (C1' HP); rewrite Q' in C1'; injection C1'; lra). specialize (C2 NP). rewrite Q in C2. injection C2. lra.
  - cbn [nofZ n0 NumR] in *. assert (NP : ~ P) by (intros HP; specialize (C1 HP); rewrite Q in C1; injection C1; lra). rewrite (C2' NP). auto.
Qed.
Print Assumptions C72_depends_on_first_and_last_window.

(** ** C73: RobustRandomCutForest *)
Definition keys {X A} (d : RCTree X A) (t : rc_state d) : list rkey := map fst (rc_leaves d t).
(** What the library's trees promise about the set of leaves. *)
Record tree_laws {X A} (d : RCTree X A) : Prop := {
  insert_new : forall t x k, ~ In k (keys d t) -> exists t', rc_insert d x k t = (Ok tt, t') /\ Permutation (rc_leaves d t') ((k, x) :: rc_leaves d t);
  insert_old : forall t x k, In k (keys d t) -> rc_insert d x k t = (Raise KeyError, t);
  forget_known : forall t k x l, Permutation (rc_leaves d t) ((k, x) :: l) -> ~ In k (map fst l) -> exists t', rc_forget d k t = (Ok tt, t') /\ Permutation (rc_leaves d t') l;
  forget_unknown : forall t k, ~ In k (keys d t) -> rc_forget d k t = (Raise KeyError, t)
}.
(** Indices of the instances held after n fits. *)
Definition kept (T n : nat) : list nat := filter (fun j => (j =? 0)%nat || (n <=? j + T)%nat) (seq 0 n).
Definition leaves_are {X A} (d : RCTree X A) (T : nat) (xs : list X) (t : rc_state d) : Prop :=
  forall dflt, Permutation (rc_leaves d t) (map (fun j => (KIndex (Z.of_nat j), nth j xs dflt)) (kept T (length xs))).

Lemma kept_small : forall T n, (n <= S T)%nat -> kept T n = seq 0 n.
Proof.
  intros T n H. unfold kept. assert (G : forall l, (forall j, In j l -> (j < n)%nat) -> filter (fun j => (j =? 0)%nat || (n <=? j + T)%nat) l = l).
  { induction l as [|j l IH]; intros HL; auto. cbn. assert (j < n)%nat by (apply HL; left; auto). destruct (Nat.eqb_spec j 0), (Nat.leb_spec n (j + T)); cbn; try (f_equal; apply IH; intros; apply HL; right; auto); lia. }
  apply G. intros j Hj. apply in_seq in Hj. lia.
Qed.
Lemma kept_large : forall T n, (S T <= n)%nat -> (1 <= T)%nat -> kept T n = 0%nat :: seq (n - T) T.
Proof.
  intros T n H HT. unfold kept. replace (seq 0 n) with (0%nat :: (seq 1 (n - T - 1) ++ seq (1 + (n - T - 1)) T)).
  2:{ rewrite <- seq_app. assert (En : n = S (n - T - 1 + T)) by lia. remember (n - T - 1 + T)%nat as q. rewrite En. reflexivity. }
  cbn [filter Nat.eqb orb]. f_equal. rewrite filter_app.
  assert (G1 : filter (fun j => (j =? 0)%nat || (n <=? j + T)%nat) (seq 1 (n - T - 1)) = []).
  { assert (G : forall l, (forall j, In j l -> (1 <= j /\ j + T < n)%nat) -> filter (fun j => (j =? 0)%nat || (n <=? j + T)%nat) l = []).
    { induction l as [|j l IH]; intros HL; auto. cbn. destruct (HL j (or_introl eq_refl)). destruct (Nat.eqb_spec j 0), (Nat.leb_spec n (j + T)); cbn; try lia. apply IH. intros; apply HL; right; auto. }
    apply G. intros j Hj. apply in_seq in Hj. lia. }
  rewrite G1. cbn [app]. replace (1 + (n - T - 1))%nat with (n - T)%nat by lia.
  assert (G : forall l, (forall j, In j l -> (n <= j + T)%nat) -> filter (fun j => (j =? 0)%nat || (n <=? j + T)%nat) l = l).
  { induction l as [|j l IH]; intros HL; auto. cbn. pose proof (HL j (or_introl eq_refl)). destruct (Nat.leb_spec n (j + T)); [|lia]. rewrite orb_true_r. f_equal. apply IH. intros; apply HL; right; auto. }
  apply G. intros j Hj. apply in_seq in Hj. lia.
Qed.
Section RRCF.
Variables (X Y A : Type) (NA : Num A) (d : RCTree X A) (T : nat).
Hypotheses (HL : tree_laws d) (HT : (1 <= T)%nat).
Definition leaf (xs : list X) (dflt : X) (j : nat) : rkey * X := (KIndex (Z.of_nat j), nth j xs dflt).
Lemma leaf_ext : forall xs x dflt l, (forall j, In j l -> (j < length xs)%nat) -> map (leaf xs dflt) l = map (leaf (xs ++ [x]) dflt) l.
Proof. intros xs x dflt l H. apply map_ext_in. intros j Hj. unfold leaf. rewrite app_nth1 by auto. reflexivity. Qed.
Lemma leaf_keys : forall xs dflt l, map fst (map (leaf xs dflt) l) = map (fun j => KIndex (Z.of_nat j)) l.
Proof. intros. rewrite map_map. reflexivity. Qed.
Lemma fit_tree_step : forall xs x t, leaves_are d T xs t -> exists t', rrcf_fit_tree d T (Z.of_nat (length xs)) x t = (Ok tt, t') /\ leaves_are d T (xs ++ [x]) t'.
Proof.
  intros xs x t H. unfold leaves_are in H. pose proof (H x) as H0. set (n := length xs) in *.
  assert (LS : length (xs ++ [x]) = S n) by (rewrite app_length; cbn; lia).
  assert (EL : length (rc_leaves d t) = length (kept T n)) by (rewrite (Permutation_length H0), map_length; auto).
  unfold rrcf_fit_tree, bind at 1, gets.
  assert (INS : forall t1 l, (forall j, In j l -> (j < n)%nat) -> (forall dflt, Permutation (rc_leaves d t1) (map (leaf xs dflt) l)) -> Permutation (kept T (S n)) (n :: l) ->
     exists t', rc_insert d x (KIndex (Z.of_nat n)) t1 = (Ok tt, t') /\ leaves_are d T (xs ++ [x]) t').
  { intros t1 l Hl P1 PK. destruct (insert_new d HL t1 x (KIndex (Z.of_nat n))) as (t' & E & P').
    - unfold keys. rewrite (Permutation_map fst (P1 x)), leaf_keys. intros I. apply in_map_iff in I. destruct I as (j & Q & I). injection Q as Q. apply Nat2Z.inj in Q. specialize (Hl j I). lia.
    - exists t'. split; auto. intros dflt. rewrite P', (P1 dflt), LS, (leaf_ext xs x dflt l Hl), PK. cbn [map]. rewrite app_nth2 by (unfold n; lia). replace (n - length xs)%nat with 0%nat by (unfold n; lia). cbn. apply Permutation_refl. }
  destruct (Nat.le_gt_cases n T) as [C|C].
  - (* nothing to forget *)
    rewrite EL, kept_small, seq_length by lia. destruct (Nat.ltb_spec T n); [lia|]. unfold bind at 1, ret. apply INS with (l := seq 0 n).
    + intros j Hj. apply in_seq in Hj. lia.
    + intros dflt. rewrite (H dflt), kept_small by lia. apply Permutation_refl.
    + rewrite kept_small by lia. rewrite seq_S. cbn. symmetry. apply Permutation_cons_append.
  - rewrite EL, kept_large by lia. cbn [length]. rewrite seq_length. destruct (Nat.ltb_spec T (S T)); [|lia].
    assert (ES : seq (n - T) T = (n - T)%nat :: seq (S (n - T)) (T - 1)) by (destruct T as [|T']; [lia|]; cbn [seq]; do 2 f_equal; lia).
    assert (PF : forall dflt, Permutation (rc_leaves d t) ((KIndex (Z.of_nat n - Z.of_nat T), nth (n - T) xs dflt) :: map (leaf xs dflt) (0%nat :: seq (S (n - T)) (T - 1)))).
    { intros dflt. rewrite (H dflt), kept_large, ES by lia. cbn [map]. unfold leaf at 2. rewrite perm_swap. replace (Z.of_nat n - Z.of_nat T)%Z with (Z.of_nat (n - T)) by lia. apply Permutation_refl. }
    destruct (forget_known d HL t _ _ _ (PF x)) as (t1 & E1 & P1).
    { rewrite leaf_keys. replace (Z.of_nat n - Z.of_nat T)%Z with (Z.of_nat (n - T)) by lia. intros I. apply in_map_iff in I. destruct I as (j & Q & I). injection Q as Q. apply Nat2Z.inj in Q. destruct I as [<-|I]; [lia|]. apply in_seq in I. lia. }
    unfold bind at 1. rewrite E1. apply INS with (l := 0%nat :: seq (S (n - T)) (T - 1)).
    + intros j [<-|Hj]; [lia|]. apply in_seq in Hj. lia.
    + intros dflt. rewrite P1. cbn [map]. assert (EQ : forall j, In j (0%nat :: seq (S (n - T)) (T - 1)) -> leaf xs x j = leaf xs dflt j).
      { intros j Hj. unfold leaf. f_equal. apply nth_indep. fold n. destruct Hj as [<-|Hj]; [lia|]. apply in_seq in Hj. lia. }
      assert (EM : map (leaf xs x) (0%nat :: seq (S (n - T)) (T - 1)) = map (leaf xs dflt) (0%nat :: seq (S (n - T)) (T - 1))) by (apply map_ext_in; auto). cbn [map] in EM. rewrite EM. apply Permutation_refl.
    + rewrite kept_large by lia. replace (S n - T)%nat with (S (n - T)) by lia. rewrite perm_swap. apply perm_skip. replace T with (S (T - 1)) at 2 by lia. rewrite seq_S. replace (S (n - T) + (T - 1))%nat with n by lia. symmetry. apply Permutation_cons_append.
Qed.
Lemma each_tree_ok : forall B (m : M (rc_state d) B) (P Q : rc_state d -> Prop) l, (forall t, P t -> exists b t', m t = (Ok b, t') /\ Q t') -> Forall P l ->
  exists bs l', each_tree m l = (Ok bs, l') /\ Forall Q l' /\ length l' = length l.
Proof.
  intros B m P Q l H. induction l as [|t l IH]; intros F; cbn.
  - exists [], []. auto.
  - inversion F as [|? ? Pt Fl]; subst. destruct (H t Pt) as (b & t' & E & Qt). rewrite E. destruct (IH Fl) as (bs & l' & E' & F' & L'). rewrite E'. exists (b :: bs), (t' :: l'). cbn. split; [reflexivity|]. split; [constructor; auto|]. lia.
Qed.
(** codisp succeeds on the trees at hand. *)
Hypothesis HC : forall t k, In k (keys d t) -> exists v, rc_codisp d k t = Ok v.
Hypothesis HF : forall t x, rc_leaves d t <> [] -> exists r, rc_find d x t = Ok r /\ (forall k, r = Some k -> In k (keys d t)).
Hypothesis HF0 : forall t x, rc_leaves d t = [] -> exists e, rc_find d x t = Raise e.
Lemma test_not_kept : forall xs t, leaves_are d T xs t -> forall dflt : X, ~ In KTest (keys d t).
Proof.
  intros xs t H dflt I. unfold keys in I. apply (Permutation_in _ (Permutation_map fst (H dflt))) in I. rewrite map_map in I. apply in_map_iff in I. destruct I as (j & Q & _). discriminate.
Qed.
Lemma leaves_are_nonempty : forall xs t, leaves_are d T xs t -> xs <> [] -> rc_leaves d t <> [].
Proof.
  intros xs t H N E. destruct xs as [|x xs]; [congruence|]. specialize (H x). rewrite E in H. apply Permutation_length in H. rewrite map_length in H. cbn [length] in H. unfold kept in H. cbn [seq filter Nat.eqb orb length] in H. lia.
Qed.
Lemma leaves_are_nil : forall t (x : X), leaves_are d T [] t -> rc_leaves d t = [].
Proof. intros t x H. specialize (H x). cbn in H. apply Permutation_nil. symmetry. auto. Qed.
Lemma score_tree_step : forall xs x t, leaves_are d T xs t -> xs <> [] -> exists v t', rrcf_score_tree d x t = (Ok v, t') /\ leaves_are d T xs t'.
Proof.
  intros xs x t H NE. unfold rrcf_score_tree, bind at 1. destruct (HF t x (leaves_are_nonempty xs t H NE)) as (r & EF & Hr). rewrite EF. destruct r as [k|].
  - destruct (HC t k (Hr k eq_refl)) as [v Ev]. rewrite Ev. eauto.
  - destruct (insert_new d HL t x KTest (test_not_kept xs t H x)) as (t1 & E1 & P1). unfold bind. rewrite E1.
    destruct (HC t1 KTest) as [v Ev]. { unfold keys. rewrite (Permutation_map fst P1). left. reflexivity. }
    rewrite Ev. destruct (forget_known d HL t1 KTest x (rc_leaves d t) P1 (test_not_kept xs t H x)) as (t2 & E2 & P2). rewrite E2. exists v, t2. split; [reflexivity|]. intros dflt. rewrite P2. apply H.
Qed.
Definition rrcf_inv (k : nat) (xs : list X) (s : list (rc_state d) * Z) : Prop := Forall (leaves_are d T xs) (fst s) /\ snd s = Z.of_nat (length xs) /\ length (fst s) = k.
Lemma rrcf_fit_step : forall k xs s x (y : option Y), rrcf_inv k xs s -> exists s', md_fit (RobustRandomCutForest d T) x y s = (Ok tt, s') /\ rrcf_inv k (xs ++ [x]) s'.
Proof.
  intros k xs [f i] x y (F & E & L). cbn [fst snd] in *. subst i. cbn [md_fit RobustRandomCutForest plain_model fst snd].
  destruct (each_tree_ok unit (rrcf_fit_tree d T (Z.of_nat (length xs)) x) (leaves_are d T xs) (leaves_are d T (xs ++ [x])) f) as (bs & f' & E' & F' & L'); auto.
  - intros t Ht. destruct (fit_tree_step xs x t Ht) as (t' & Q & Q'). eauto.
  - rewrite E'. eexists. split; [reflexivity|]. split; [auto|]. cbn [fst snd]. rewrite app_length. cbn. split; [lia|congruence].
Qed.
Lemma rrcf_score_step : forall k xs s x, rrcf_inv k xs s -> xs <> [] -> exists v s', md_score (RobustRandomCutForest (Y := Y) d T) x s = (Ok v, s') /\ rrcf_inv k xs s'.
Proof.
  intros k xs [f i] x (F & E & L) NE. cbn [fst snd] in *. subst i. cbn [md_score RobustRandomCutForest plain_model fst snd].
  destruct (each_tree_ok A (rrcf_score_tree d x) (leaves_are d T xs) (leaves_are d T xs) f) as (bs & f' & E' & F' & L'); auto.
  - intros t Ht. destruct (score_tree_step xs x t Ht NE) as (v & t' & Q & Q'). eauto.
  - rewrite E'. eexists. eexists. split; [reflexivity|]. split; [auto|]. cbn [fst snd]. split; [reflexivity|congruence].
Qed.
Lemma rrcf_score_cold : forall k s x, rrcf_inv k [] s -> exec (md_score (RobustRandomCutForest (Y := Y) d T) x) s = s /\ ((1 <= k)%nat -> exists e, eval (md_score (RobustRandomCutForest (Y := Y) d T) x) s = Raise e).
Proof.
  intros k [f i] x (F & E & L). cbn [fst snd] in *. subst i. unfold exec, eval. cbn [md_score RobustRandomCutForest plain_model fst snd].
  destruct f as [|t f]; cbn [each_tree].
  - split; [reflexivity|]. cbn in L. lia.
  - inversion F as [|? ? Ht Ff]; subst. destruct (HF0 t x (leaves_are_nil t x Ht)) as [e Ee]. unfold rrcf_score_tree, bind. rewrite Ee. split; [reflexivity|]. intros _. exists e. reflexivity.
Qed.
Lemma rrcf_run : forall empty k (h : list (mcall X Y)), (forall i, rc_leaves d (empty i) = []) ->
  rrcf_inv k (fitted_instances h) (model_run (RobustRandomCutForest d T) (RRCF_init d empty k) h).
Proof.
  intros empty k h HE. refine (plain_run_all _ _ _ _ _ _ (rrcf_inv k) _ _ h _ _).
  - intros xs s x y H. destruct (rrcf_fit_step k xs s x y H) as (s' & E & H'). cbn [md_fit RobustRandomCutForest plain_model] in E. unfold exec. rewrite E. auto.
  - intros xs s x H. destruct xs as [|x0 xs]; [change (rrcf_inv k [] (exec (md_score (RobustRandomCutForest (Y := Y) d T) x) s)); destruct (rrcf_score_cold k s x H) as [Q _]; rewrite Q; auto|].
    destruct (rrcf_score_step k (x0 :: xs) s x H) as (v & s' & E & H'); [congruence|]. cbn [md_score RobustRandomCutForest plain_model] in E. unfold exec. rewrite E. auto.
  - split; [|split; [reflexivity|cbn; rewrite map_length, seq_length; auto]]. cbn [fst RRCF_init]. apply Forall_forall. intros t Ht. apply in_map_iff in Ht. destruct Ht as (i & <- & _). intros dflt. rewrite HE. apply Permutation_refl.
Qed.
End RRCF.
(** What is assumed of the trees' queries: they answer on the leaves present, and a search for duplicates in an empty tree fails. *)
Record query_laws {X A} (d : RCTree X A) : Prop := {
  codisp_known : forall t k, In k (keys d t) -> exists v, rc_codisp d k t = Ok v;
  find_nonempty : forall t x, rc_leaves d t <> [] -> exists r, rc_find d x t = Ok r /\ (forall k, r = Some k -> In k (keys d t));
  find_empty : forall t x, rc_leaves d t = [] -> exists e, rc_find d x t = Raise e
}.
(** After every history of fits and scores every tree holds exactly the first instance and the last tree_size ones, whatever was scored;
    no fit fails; and scoring succeeds exactly if something was fitted. *)
Theorem C73_leaves : forall X Y A (NA : Num A) (d : RCTree X A) T empty k (h : list (mcall X Y)), tree_laws d -> query_laws d -> (1 <= T)%nat -> (1 <= k)%nat -> (forall i, rc_leaves d (empty i) = []) ->
  let m := RobustRandomCutForest d T in let s := model_run m (RRCF_init d empty k) h in let xs := fitted_instances h in
  length (fst s) = k /\
  (forall t dflt, In t (fst s) -> Permutation (rc_leaves d t) (map (fun j => (KIndex (Z.of_nat j), nth j xs dflt)) (filter (fun j => (j =? 0)%nat || (length xs <=? j + T)%nat) (seq 0 (length xs))))) /\
  (forall x y, eval (md_fit m x y) s = Ok tt) /\ (forall x, (exists v, eval (md_score m x) s = Ok v) <-> xs <> []).
Proof.
  intros X Y A NA d T empty k h HL [HC HF HF0] HT Hk HE. cbv zeta. pose proof (rrcf_run X Y A NA d T HL HT HC HF HF0 empty k h HE) as I. set (s := model_run _ _ h) in *. clearbody s. set (xs := fitted_instances h) in *. clearbody xs.
  split; [apply I|]. split; [|split].
  - intros t dflt Ht. destruct I as (F & _). rewrite Forall_forall in F. apply (F t Ht).
  - intros x y. destruct (rrcf_fit_step X Y A NA d T HL HT k _ s x y I) as (s' & E & _). unfold eval. rewrite E. reflexivity.
  - intros x. split.
    + intros [v Ev] ->. destruct (rrcf_score_cold X Y A NA d T HT HF0 k s x I) as [_ Q]. destruct (Q Hk) as [e Ee]. rewrite Ee in Ev. discriminate.
    + intros NE. destruct (rrcf_score_step X Y A NA d T HL HT HC HF k _ s x I NE) as (v & s' & E & _). exists v. unfold eval. rewrite E. reflexivity.
Qed.
Print Assumptions C73_leaves.
(** Hence the first instance is never forgotten, and a full tree holds tree_size + 1 instances. *)
Theorem C73_most_recent_only_refuted : forall X Y A (NA : Num A) (d : RCTree X A) T empty k (h : list (mcall X Y)) t x0 rest, tree_laws d -> query_laws d -> (1 <= T)%nat -> (1 <= k)%nat -> (forall i, rc_leaves d (empty i) = []) ->
  fitted_instances h = x0 :: rest -> In t (fst (model_run (RobustRandomCutForest d T) (RRCF_init d empty k) h)) ->
  In (KIndex 0, x0) (rc_leaves d t) /\ length (rc_leaves d t) = Nat.min (S T) (S (length rest)).
Proof.
  intros X Y A NA d T empty k h t x0 rest HL HQ HT Hk HE Ex Ht. destruct (C73_leaves X Y A NA d T empty k h HL HQ HT Hk HE) as (_ & P & _). cbv zeta in P. specialize (P t x0 Ht). rewrite Ex in P. fold (kept T (length (x0 :: rest))) in P. split.
  - eapply Permutation_in; [symmetry; exact P|]. apply in_map_iff. exists 0%nat. split; [reflexivity|]. unfold kept. apply filter_In. split; [apply in_seq; cbn; lia|reflexivity].
  - rewrite (Permutation_length P), map_length. cbn [length]. destruct (Nat.le_gt_cases (S (length rest)) (S T)).
    + rewrite kept_small, seq_length by lia. lia.
    + rewrite kept_large by lia. cbn [length]. rewrite seq_length. lia.
Qed.
Print Assumptions C73_most_recent_only_refuted.
(** tree_size = 0: the second fit fails. *)
Theorem C73_zero_tree_size_fails : forall X Y A (NA : Num A) (d : RCTree X A) empty k x1 x2 (y : option Y), tree_laws d -> (1 <= k)%nat -> (forall i, rc_leaves d (empty i) = []) ->
  let m := RobustRandomCutForest d 0 in eval (md_fit m x2 y) (model_run m (RRCF_init d empty k) [CFit x1 y]) = Raise KeyError.
Proof.
  intros X Y A NA d empty k x1 x2 y HL Hk HE. cbv zeta. destruct k as [|k]; [lia|].
  unfold model_run. cbn [fold_left]. unfold model_do, exec, model_call. cbn [md_fit RobustRandomCutForest plain_model RRCF_init fst snd seq map each_tree].
  assert (FT : forall i, exists t', rrcf_fit_tree d 0 0 x1 (empty i) = (Ok tt, t') /\ Permutation (rc_leaves d t') [(KIndex 0, x1)]).
  { intros i. unfold rrcf_fit_tree, bind, gets. rewrite HE. cbn [length Nat.ltb Nat.leb ret]. destruct (insert_new d HL (empty i) x1 (KIndex 0)) as (t' & E & P).
    - unfold keys. rewrite HE. intros [].
    - exists t'. split; auto. rewrite HE in P. auto. }
  destruct (FT 0%nat) as (t0 & E0 & P0). rewrite E0.
  assert (FA : forall l, exists bs l', each_tree (rrcf_fit_tree d 0 0 x1) (map empty l) = (Ok bs, l')).
  { induction l as [|i l IH]; cbn [map each_tree]; [eauto|]. destruct (FT i) as (t' & E & _). rewrite E. destruct IH as (bs & l' & IH). rewrite IH. cbn [rmap]. eauto. }
  destruct (FA (seq 1 k)) as (bs & l' & EA). rewrite EA. cbn [rmap snd fst]. unfold eval. cbn [md_fit RobustRandomCutForest plain_model fst snd each_tree].
  assert (E2 : rrcf_fit_tree d 0 (0 + 1) x2 t0 = (Raise KeyError, t0)).
  { unfold rrcf_fit_tree, bind, gets. rewrite (Permutation_length P0). cbn [length Nat.ltb Nat.leb]. rewrite (forget_unknown d HL); [reflexivity|]. unfold keys. rewrite (Permutation_map fst P0). cbn. intros [Q|[]]. discriminate. }
  rewrite E2. reflexivity.
Qed.
Print Assumptions C73_zero_tree_size_fails.
(** If codisp fails on the test point, the test point stays in the tree and further scores of new instances fail with KeyError. *)
Theorem C73_failed_score_leaves_test_point : forall X A (d : RCTree X A) t x x' e, tree_laws d -> rc_find d x t = Ok None -> ~ In KTest (keys d t) ->
  (forall t' l, Permutation (rc_leaves d t') ((KTest, x) :: l) -> rc_codisp d KTest t' = Raise e) ->
  exists t', rrcf_score_tree d x t = (Raise e, t') /\ Permutation (rc_leaves d t') ((KTest, x) :: rc_leaves d t) /\ (rc_find d x' t' = Ok None -> rrcf_score_tree d x' t' = (Raise KeyError, t')).
Proof.
  intros X A d t x x' e HL EF NT HC. destruct (insert_new d HL t x KTest NT) as (t1 & E1 & P1). exists t1. unfold rrcf_score_tree, bind, gets. rewrite EF, E1, (HC t1 _ P1). split; [reflexivity|]. split; [auto|].
  intros EF'. rewrite EF', (insert_old d HL); [reflexivity|]. unfold keys. rewrite (Permutation_map fst P1). left. reflexivity.
Qed.
Print Assumptions C73_failed_score_leaves_test_point.
(** A lawful tree: an association list. *)
Definition rkey_eqb (a b : rkey) : bool := match a, b with KIndex i, KIndex j => (i =? j)%Z | KTest, KTest => true | _, _ => false end.
Definition assoc_tree : RCTree Z R :=
  {| rc_state := list (rkey * Z); rc_leaves := fun t => t;
     rc_insert := fun x k t => if existsb (fun p => rkey_eqb (fst p) k) t then (Raise KeyError, t) else (Ok tt, t ++ [(k, x)]);
     rc_forget := fun k t => if existsb (fun p => rkey_eqb (fst p) k) t then (Ok tt, filter (fun p => negb (rkey_eqb (fst p) k)) t) else (Raise KeyError, t);
     rc_find := fun x t => match t, filter (fun p => Z.eqb (snd p) x) t with [], _ => Raise AttributeError | _, [] => Ok None | _, p :: _ => Ok (Some (fst p)) end;
     rc_codisp := fun k t => Ok (INR (length t)) |}.
Lemma rkey_eqb_eq : forall a b, rkey_eqb a b = true <-> a = b.
Proof. intros [i|] [j|]; cbn; split; intros H; try discriminate; auto. - apply Z.eqb_eq in H. congruence. - injection H as ->. apply Z.eqb_refl. Qed.
Lemma existsb_keys : forall (t : list (rkey * Z)) k, existsb (fun p => rkey_eqb (fst p) k) t = true <-> In k (map fst t).
Proof.
  intros t k. rewrite existsb_exists, in_map_iff. split.
  - intros (p & I & E). apply rkey_eqb_eq in E. eauto.
  - intros (p & E & I). exists p. split; auto. apply rkey_eqb_eq. auto.
Qed.
Lemma assoc_tree_laws : tree_laws assoc_tree.
Proof.
  constructor; cbn; unfold keys; cbn.
  - intros t x k H. destruct (existsb _ t) eqn:E; [apply existsb_keys in E; contradiction|]. eexists. split; [reflexivity|]. symmetry. apply Permutation_cons_append.
  - intros t x k H. apply existsb_keys in H. rewrite H. reflexivity.
  - intros t k x l P NI. assert (I : In k (map fst t)) by (rewrite (Permutation_map fst P); left; auto). apply existsb_keys in I. rewrite I. eexists. split; [reflexivity|].
    assert (PF : forall l1 l2 : list (rkey * Z), Permutation l1 l2 -> Permutation (filter (fun p => negb (rkey_eqb (fst p) k)) l1) (filter (fun p => negb (rkey_eqb (fst p) k)) l2)).
    { intros l1 l2 Q. induction Q; cbn; auto.
      - destruct (negb _); auto.
      - destruct (negb (rkey_eqb (fst y) k)), (negb (rkey_eqb (fst x0) k)); auto. apply perm_swap.
      - eapply perm_trans; eauto. }
    rewrite (PF _ _ P). cbn. replace (rkey_eqb k k) with true by (symmetry; apply rkey_eqb_eq; auto). cbn.
    assert (EF : filter (fun p => negb (rkey_eqb (fst p) k)) l = l).
    { clear - NI. induction l as [|p l IH]; auto. cbn in *. destruct (rkey_eqb (fst p) k) eqn:E; [apply rkey_eqb_eq in E; exfalso; apply NI; auto|]. cbn. f_equal. apply IH. intros Q. apply NI. auto. }
    rewrite EF. apply Permutation_refl.
  - intros t k H. destruct (existsb _ t) eqn:E; [apply existsb_keys in E; contradiction|]. reflexivity.
Qed.
Lemma assoc_query_laws : query_laws assoc_tree.
Proof.
  constructor; cbn; unfold keys; cbn.
  - eauto.
  - intros t x N. destruct t as [|p t]; [congruence|]. change (exists r : option rkey, match filter (fun p => (snd p =? x)%Z) (p :: t) with [] => Ok None | p :: _ => Ok (Some (fst p)) end = Ok r /\ (forall k, r = Some k -> In k (map fst (p :: t)))). set (u := p :: t). destruct (filter (fun p => (snd p =? x)%Z) u) as [|q l] eqn:E.
    + exists None. split; [reflexivity|]. discriminate.
    + exists (Some (fst q)). split; [reflexivity|]. intros k Q. injection Q as <-. apply in_map. assert (I : In q (filter (fun p => (snd p =? x)%Z) u)) by (rewrite E; left; auto). apply filter_In in I. tauto.
  - intros t x ->. eauto.
Qed.
Example C73_ex : let m := RobustRandomCutForest (Y := unit) assoc_tree 3 in
  map (fun n => map fst (concat (fst (model_run m (RRCF_init assoc_tree (fun _ => []) 1) (map (fun i => CFit (Z.of_nat i) None) (seq 10 n) ++ [CScore 5%Z])))))
      [2; 4; 6]%nat
  = [[KIndex 0; KIndex 1]; [KIndex 0; KIndex 1; KIndex 2; KIndex 3]; [KIndex 0; KIndex 3; KIndex 4; KIndex 5]].
Proof. reflexivity. Qed.
