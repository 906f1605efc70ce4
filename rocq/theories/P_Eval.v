(** * Lemmas about Model_Eval. *)
From Coq Require Import List ZArith Lia Bool Reals Lra Arith.
From Verif Require Import Base Num Spec Model_Stats Model_Eval P_Lists P_Stats P_Core.
Import ListNotations.
Open Scope R_scope.

(** What a metric object created with [kw] answers after seeing exactly [l]. *)
Definition metric_value {Y P B K} (m : Metric Y P B K) (kw : list K) (l : list (Y * P)) : res B :=
  match me_init m kw with
  | Raise e => Raise e
  | Ok s0 => match iterM (fun q => me_update m (fst q) (snd q)) l s0 with
             | (Ok _, s) => eval (me_get m) s
             | (Raise e, _) => Raise e
             end
  end.

Lemma sk_run : forall Y P B K (ev : list Y -> list P -> res B) l (s : skst Y P),
  iterM (fun q => me_update (SKMetric (K := K) ev) (fst q) (snd q)) l s =
  (Ok tt, mkSK (sk_true s ++ map fst l) (sk_pred s ++ map snd l)).
Proof.
  intros Y P B K ev l; induction l as [|[y p] l IH]; intros s; cbn [iterM map].
  - rewrite !app_nil_r. destruct s; reflexivity.
  - cbn [me_update SKMetric fst snd]. unfold bind at 1. unfold bind at 1. unfold modify. cbn [sk_true sk_pred].
    change (iterM _ l ?s1) with (iterM (fun q => me_update (SKMetric (K := K) ev) (fst q) (snd q)) l s1).
    rewrite IH. cbn [sk_true sk_pred]. rewrite <- !app_assoc. reflexivity.
Qed.
Lemma sk_value : forall Y P B K (ev : list Y -> list P -> res B) (l : list (Y * P)),
  metric_value (SKMetric (K := K) ev) [] l = ev (map fst l) (map snd l).
Proof. intros. unfold metric_value. cbn [me_init SKMetric]. rewrite sk_run. reflexivity. Qed.

Section WM.
Context {Y P K : Type} (m : Metric Y P R K).
Notation upd := (fun q : Y * P => WindowedMetric_update m (fst q) (snd q)).
Notation mupd := (fun q : Y * P => me_update m (fst q) (snd q)).
Definition total_updates : Prop := forall y p s, exists s', me_update m y p s = (Ok tt, s').
Definition pure_get : Prop := forall s, snd (me_get m s) = s.

Lemma total_iter : total_updates -> forall l s, exists s', iterM mupd l s = (Ok tt, s').
Proof.
  intros T l; induction l as [|q l IH]; intros s; simpl.
  - eexists; reflexivity.
  - destruct (T (fst q) (snd q) s) as [s1 E]. unfold bind. rewrite E. apply IH.
Qed.

(** One window: [l] fed to a state whose metric is fresh ([s0]) at a window boundary. *)
Record Inv (ig : bool) (w : nat) (kw : list K) (h : list (Y * P)) (vals : list R) (s : wmst (me_state m) R) : Prop := {
  inv_ig : wm_ignore s = ig;
  inv_size : wm_size s = Z.of_nat w;
  inv_step : wm_step s = Z.of_nat (length h);
  inv_num : wm_num s = (Z.of_nat (length vals) + 1)%Z;
  inv_vals : length vals = (length h / w)%nat;
  inv_meter : wm_meter s = mkSum (Rsum vals) (Z.of_nat (length vals));
  inv_metric : exists s0, me_init m (match vals with [] => kw | _ => [] end) = Ok s0 /\
    iterM mupd (skipn (length vals * w) h) s0 = (Ok tt, wm_metric s)
}.

Lemma wm_step_lemma : total_updates -> forall ig w kw h vals s y p (m1 : me_state m),
  (1 <= w)%nat -> me_init m [] = Ok m1 -> Inv ig w kw h vals s ->
  let h' := h ++ [(y, p)] in
  ((length h' mod w <> 0)%nat -> exists s', WindowedMetric_update m y p s = (Ok tt, s') /\ Inv ig w kw h' vals s') /\
  ((length h' mod w = 0)%nat -> forall v,
     metric_value m (match vals with [] => kw | _ => [] end) (skipn (length vals * w) h') = Ok v ->
     exists s', WindowedMetric_update m y p s = (Ok tt, s') /\ Inv ig w kw h' (vals ++ [v]) s').
Proof.
  intros T ig w kw h vals s y p m1 Hw Em I h'.
  destruct I as [I1 I2 I3 I4 I5 I6 (s0 & E0 & R0)].
  destruct (T y p (wm_metric s)) as [ms Ems].
  assert (L' : length h' = S (length h)) by (unfold h'; rewrite app_length; simpl; lia).
  assert (K1 : (length vals * w <= length h)%nat).
  { rewrite I5. rewrite Nat.mul_comm. apply Nat.mul_div_le. lia. }
  assert (Hsk : skipn (length vals * w) h' = skipn (length vals * w) h ++ [(y, p)]).
  { unfold h'. rewrite skipn_app. replace (length vals * w - length h)%nat with 0%nat by lia. reflexivity. }
  assert (HR : iterM mupd (skipn (length vals * w) h') s0 = (Ok tt, ms)).
  { rewrite Hsk, iterM_app. unfold bind at 1. rewrite R0. simpl. unfold bind. rewrite Ems. reflexivity. }
  assert (Hmod : ((wm_step s + 1) mod wm_size s)%Z = Z.of_nat (length h' mod w)).
  { rewrite I2, I3, L'. rewrite Nat2Z.inj_mod. f_equal. lia. }
  assert (Hsz : (wm_size s =? 0)%Z = false) by (apply Z.eqb_neq; lia).
  pose proof (Nat.div_mod (length h') w ltac:(lia)) as D'.
  pose proof (Nat.div_mod (length h) w ltac:(lia)) as D.
  pose proof (Nat.mod_upper_bound (length h') w ltac:(lia)) as U'.
  pose proof (Nat.mod_upper_bound (length h) w ltac:(lia)) as U.
  unfold WindowedMetric_update, bind, modify, zoom, gets, lift, set_wm_step, set_wm_metric, pymod.
  cbn [wm_metric wm_step wm_size wm_ignore wm_num wm_meter]. rewrite Ems.
  cbn [wm_metric wm_step wm_size wm_ignore wm_num wm_meter]. rewrite Hsz, Hmod.
  split; intros HM.
  - destruct (Z.eqb_spec (Z.of_nat (length h' mod w)) 0); [lia|].
    eexists. split; [reflexivity|]. constructor; cbn [wm_metric wm_step wm_size wm_ignore wm_num wm_meter]; auto.
    + rewrite I3. lia.
    + rewrite I5. apply Nat.div_unique with (r := S (length h mod w)).
      * assert (length h mod w <> w - 1)%nat; [|lia]. intros Q. apply HM.
        symmetry. apply (Nat.mod_unique _ _ (S (length h / w)) 0); try lia.
      * lia.
    + exists s0. auto.
  - intros v Hv. rewrite HM. cbn [Z.eqb Z.of_nat].
    cbn [wm_metric wm_step wm_size wm_ignore wm_num wm_meter set_wm_num].
    unfold metric_value in Hv. rewrite E0, HR in Hv. unfold eval in Hv.
    destruct (me_get m ms) as [[v'|e] ms2] eqn:Eg; [|discriminate]. inversion Hv; subst v'.
    unfold set_wm_meter. cbn [mt_update AverageMeter]. unfold modify.
    cbn [wm_metric wm_step wm_size wm_ignore wm_num wm_meter]. rewrite Em.
    cbn [wm_metric wm_step wm_size wm_ignore wm_num wm_meter].
    assert (NE : exists k, (length h' = k * w)%nat) by (exists (length h' / w)%nat; lia). destruct NE as [k Hk].
    assert (Hkv : (length h / w = k - 1)%nat).
    { symmetry. apply (Nat.div_unique _ _ _ (w - 1)); [lia|]. destruct k; nia. }
    assert (Hk0 : (0 < k)%nat) by (destruct k; simpl in *; lia).
    eexists. split; [reflexivity|].
    constructor; cbn [wm_metric wm_step wm_size wm_ignore wm_num wm_meter]; auto.
    + rewrite I3. lia.
    + rewrite app_length. simpl. rewrite I4. lia.
    + rewrite app_length. simpl. rewrite I5, Hkv, Hk, Nat.div_mul by lia. lia.
    + rewrite I6. cbn [ss_sum ss_n]. rewrite Rsum_app, app_length. simpl. f_equal; [lra|lia].
    + exists m1. split.
      * destruct vals; simpl; auto.
      * rewrite app_length, I5, Hkv. simpl length. replace (k - 1 + 1)%nat with k by lia. rewrite <- Hk, skipn_all. reflexivity.
Qed.

Lemma block_of_prefix : forall A (w k : nat) (h : list A) n, (S k * w <= n)%nat -> block w k (firstn n h) = block w k h.
Proof.
  intros. unfold block. rewrite skipn_firstn_comm, firstn_firstn. f_equal. simpl in *. lia.
Qed.

Lemma wm_run : total_updates -> forall ig w kw (m1 : me_state m) s0, (1 <= w)%nat -> me_init m [] = Ok m1 ->
  WindowedMetric_init m (Z.of_nat w) ig kw = Ok s0 ->
  forall h vals, length vals = (length h / w)%nat ->
  (forall i v, nth_error vals i = Some v -> metric_value m (if (i =? 0)%nat then kw else []) (block w i h) = Ok v) ->
  exists s, iterM upd h s0 = (Ok tt, s) /\ Inv ig w kw h vals s.
Proof.
  intros T ig w kw m1 s0 Hw Em E0 h.
  induction h as [|[y p] h IH] using rev_ind; intros vals Lv Hv.
  - destruct vals; [|rewrite Nat.div_small in Lv by (simpl; lia); discriminate].
    exists s0. split; [reflexivity|]. unfold WindowedMetric_init in E0.
    destruct (me_init m kw) as [mk|e] eqn:Ek; [|discriminate]. inversion E0; subst.
    constructor; simpl; auto. eexists; split; eauto.
  - set (h' := h ++ [(y, p)]) in *.
    assert (L' : length h' = S (length h)) by (unfold h'; rewrite app_length; simpl; lia).
    pose proof (Nat.div_mod (length h') w ltac:(lia)) as D'.
    pose proof (Nat.div_mod (length h) w ltac:(lia)) as D.
    pose proof (Nat.mod_upper_bound (length h') w ltac:(lia)) as U'.
    pose proof (Nat.mod_upper_bound (length h) w ltac:(lia)) as U.
    assert (BP : forall i, (S i * w <= length h)%nat -> block w i h' = block w i h).
    { intros i Hi. rewrite <- (block_of_prefix _ w i h' (length h)) by auto.
      f_equal. unfold h'. rewrite firstn_app, Nat.sub_diag, firstn_all. simpl. apply app_nil_r. }
    assert (BI : forall i, (i < length h / w)%nat -> (S i * w <= length h)%nat).
    { intros i Hi. assert (S i <= length h / w)%nat by lia. nia. }
    destruct (Nat.eq_dec (length h' mod w) 0) as [HM|HM].
    + assert (exists k, (length h' = S k * w)%nat) as [k Hk].
      { exists (length h' / w - 1)%nat. destruct (length h' / w)%nat eqn:Q; simpl in *; nia. }
      assert (Hkv : (length h / w = k)%nat).
      { symmetry. apply (Nat.div_unique _ _ _ (w - 1)); [lia|]. simpl in Hk. nia. }
      assert (Hd : (length h' / w = S k)%nat) by (rewrite Hk, Nat.div_mul; lia).
      rewrite Hd in Lv.
      destruct (rev vals) as [|v rv] eqn:RV.
      { apply (f_equal (@length R)) in RV. rewrite rev_length in RV. simpl in RV. lia. }
      assert (vals = rev rv ++ [v]) as -> by (rewrite <- (rev_involutive vals), RV; reflexivity).
      set (vs := rev rv) in *. rewrite app_length in Lv. simpl in Lv.
      destruct (IH vs) as (s & Es & I).
      * lia.
      * intros i u Hu. assert (i < length vs)%nat by (apply nth_error_Some; congruence).
        rewrite <- BP by (apply BI; lia). apply Hv. rewrite nth_error_app1; auto.
      * destruct (wm_step_lemma T ig w kw h vs s y p m1 Hw Em I) as [_ S2].
        destruct (S2 HM v) as (s' & Es' & I').
        { fold h'. specialize (Hv (length vs) v). rewrite nth_error_app2, Nat.sub_diag in Hv by lia.
          specialize (Hv eq_refl). unfold block in Hv. 
          rewrite firstn_all2 in Hv by (rewrite skipn_length; nia).
          destruct vs; simpl in *; auto. }
        exists s'. split; auto. unfold h'. rewrite iterM_app. unfold bind at 1. rewrite Es.
        simpl. unfold bind. rewrite Es'. reflexivity.
    + assert (Hd : (length h' / w = length h / w)%nat).
      { symmetry. apply (Nat.div_unique _ _ _ (S (length h mod w))); [|lia].
        assert (length h mod w <> w - 1)%nat; [|lia]. intros Q. apply HM.
        symmetry. apply (Nat.mod_unique _ _ (S (length h / w)) 0); try lia. }
      destruct (IH vals) as (s & Es & I).
      * lia.
      * intros i u Hu. assert (i < length vals)%nat by (apply nth_error_Some; congruence).
        rewrite <- BP by (apply BI; lia). apply Hv; auto.
      * destruct (wm_step_lemma T ig w kw h vals s y p m1 Hw Em I) as [S1 _].
        destruct (S1 HM) as (s' & Es' & I'). exists s'. split; auto.
        unfold h'. rewrite iterM_app. unfold bind at 1. rewrite Es. simpl. unfold bind. rewrite Es'. reflexivity.
Qed.

(** The answer in a state described by [Inv]. *)
Lemma wm_get_inv : forall ig w kw h vals s, (1 <= w)%nat -> Inv ig w kw h vals s ->
  eval (WindowedMetric_get m) s =
  match vals with
  | [] => metric_value m kw h
  | _ => if negb ig && negb (length h mod w =? 0)%nat
         then rmap (fun v => mean (vals ++ [v])) (metric_value m [] (skipn (length vals * w) h))
         else Ok (mean vals)
  end.
Proof.
  intros ig w kw h vals s Hw [I1 I2 I3 I4 I5 I6 (s0 & E0 & R0)].
  unfold eval, WindowedMetric_get, bind, gets, zoom, lift, ret, pymod. rewrite I4.
  destruct vals as [|v0 vals].
  - simpl. simpl in R0. unfold metric_value. rewrite E0, R0. unfold eval.
    destruct (me_get m (wm_metric s)) as [r s']; reflexivity.
  - destruct (Z.eqb_spec (Z.of_nat (length (v0 :: vals)) + 1) 1) as [Q|_]; [simpl in Q; lia|].
    rewrite I1. set (vs := v0 :: vals) in *.
    assert (Hn0 : (Z.of_nat (length vs) =? 0)%Z = false) by (apply Z.eqb_neq; subst vs; simpl; lia).
    assert (HA : mt_get AverageMeter (wm_meter s) = (Ok (mean vs), wm_meter s)).
    { rewrite I6. cbn [mt_get AverageMeter]. unfold bind, gets, lift, div_int. cbn [ss_sum ss_n].
      rewrite Hn0. unfold mean, Rlen. rewrite <- INR_IZR_INZ. reflexivity. }
    destruct ig; simpl negb; cbn [andb].
    + rewrite HA. reflexivity.
    + rewrite I2, I3. destruct (Z.eqb_spec (Z.of_nat w) 0); [lia|]. rewrite <- Nat2Z.inj_mod.
      destruct (Nat.eqb_spec (length h mod w) 0) as [Q|Q].
      * rewrite Q. change (Z.of_nat 0 =? 0)%Z with true. cbn [negb]. rewrite HA. reflexivity.
      * destruct (Z.eqb_spec (Z.of_nat (length h mod w)) 0); [lia|]. cbn [negb].
        unfold metric_value. rewrite E0, R0. unfold eval.
        destruct (me_get m (wm_metric s)) as [[v|e] ms] eqn:Eg; [|reflexivity].
        cbn [set_wm_metric wm_meter]. rewrite HA. cbn [rmap fst].
        unfold div_int. destruct (Z.eqb_spec (Z.of_nat (length vs) + 1) 0); [lia|]. cbn [fst].
        f_equal. assert (NEv : vs <> []) by (subst vs; discriminate). clearbody vs.
        unfold mean, Rlen. rewrite app_length, Rsum_app, plus_INR. simpl (INR (length [v])). simpl (Rsum [v]).
        cbn [nadd nmul ndiv nofZ NumR].
        replace (Z.of_nat (length vs) + 1 - 1)%Z with (Z.of_nat (length vs)) by lia.
        rewrite plus_IZR, <- INR_IZR_INZ.
        assert (0 < INR (length vs)) by (apply INR_length_pos; auto).
        field. lra.
Qed.
Lemma wm_get_pure : pure_get -> forall s, snd (WindowedMetric_get m s) = s.
Proof.
  intros Pg s. unfold WindowedMetric_get, bind, gets, zoom, lift, ret, pymod.
  assert (Z1 : forall s, set_wm_metric m (wm_metric s) s = s) by (intros []; reflexivity).
  destruct (wm_num s =? 1)%Z.
  - specialize (Pg (wm_metric s)). destruct (me_get m (wm_metric s)) as [r ms]; simpl in *; subst. apply Z1.
  - assert (HA : forall st : sumst R, mt_get AverageMeter st = (div_int (ss_sum st) (ss_n st), st)).
    { intros. reflexivity. }
    assert (Z2 : forall s, set_wm_meter m (wm_meter s) s = s) by (intros []; reflexivity).
    destruct (wm_ignore s).
    + rewrite HA. cbn [snd]. apply Z2.
    + destruct (wm_size s =? 0)%Z; [reflexivity|].
      destruct (negb _).
      * specialize (Pg (wm_metric s)). destruct (me_get m (wm_metric s)) as [[v|e] ms]; simpl in Pg; subst ms.
        -- rewrite Z1, HA, Z2. destruct (div_int (ss_sum (wm_meter s)) (ss_n (wm_meter s))); reflexivity.
        -- apply Z1.
      * rewrite HA. apply Z2.
Qed.
End WM.
