(** * C142 for RelativeEntropy: window sizes that are 0 or negative *)
From Coq Require Import List ZArith Lia Bool Arith Reals Lra.
From Verif Require Import Base Num Spec Model_Stats Model_Utils Model_Core Model_Trans Model_Simple Model_Sketch Model_Eval Model_Period P_Lists P_Stats P_Utils P_Models Prop_Window Prop_Sketch Prop_Sketch2 Prop_Quant.
Import ListNotations.
Local Open Scope nat_scope.

(** ** Specification *)
(** The bin of a value as np.histogram counts it: None if it is not counted. *)
Definition bin_of (ceil : R -> Z) (min_val step : R) (N : nat) (v : R) : option Z :=
  let b := ceil ((v - min_val) / step)%R in if in_range N b then Some (Z.min b (Z.of_nat N - 1)) else None.

(** ** With a natural number the model is the one of the other properties *)
Lemma agreement_natural : forall A (NA : Num A) log thr W p ps i best index,
  agreementZ (A := A) log thr (Z.of_nat W) p ps i (option_map Some best) index = agreement log thr (nofZ (2 * Z.of_nat W)) p ps i best index.
Proof.
  intros A NA log thr W p ps. induction ps as [|q ps IH]; intros i best index; [reflexivity|]. cbn [agreementZ agreement]. destruct (scipy_entropy log p q) as [e| |].
  - destruct best as [b|]; cbn [option_map]; destruct (_ && _)%bool; try apply (IH (S i) (Some _)); try apply (IH (S i) (Some b)); apply (IH (S i) None).
  - destruct (Z.ltb_spec (Z.of_nat W) 0); [lia|]. cbn [andb]. apply IH.
  - apply IH.
Qed.
Theorem C142_relative_entropy_natural : forall Y A (NA : Num A) log ceil thr min_val step N W,
  same_calls (md_fit (RelativeEntropyZ (Y := Y) (A := A) log ceil thr min_val step N (Z.of_nat W))) (md_fit (RelativeEntropy (Y := Y) (A := A) log ceil thr min_val step N W))
    (md_score (RelativeEntropyZ (Y := Y) (A := A) log ceil thr min_val step N (Z.of_nat W))) (md_score (RelativeEntropy (Y := Y) (A := A) log ceil thr min_val step N W)).
Proof.
  intros Y A NA log ceil thr min_val step N W.
  assert (L : forall n, (Z.of_nat W <=? Z.of_nat n)%Z = (W <=? n)) by (intros n; destruct (Z.leb_spec (Z.of_nat W) (Z.of_nat n)), (Nat.leb_spec W n); auto; lia).
  assert (P : forall l : list (list A), py_lastZ (Z.of_nat W) l = py_last W l).
  { intros l. unfold py_lastZ, py_last. destruct (Nat.eqb_spec W 0) as [->|]; [reflexivity|]. destruct (Z.leb_spec (Z.of_nat W) 0); [lia|]. rewrite Nat2Z.id. reflexivity. }
  apply calls_eq; intros x; [intros y s|intros s].
  - cbn [md_fit RelativeEntropyZ RelativeEntropy plain_model]. unfold bind, modify, gets. rewrite L, P. reflexivity.
  - cbn [md_score RelativeEntropyZ RelativeEntropy plain_model]. unfold bind, gets. rewrite L. destruct (re_hat s); [|reflexivity]. rewrite (agreement_natural A NA log thr W _ _ 0 None). reflexivity.
Qed.
Print Assumptions C142_relative_entropy_natural.

(** ** Negative window sizes: -1 from the first fit on, whatever is fitted *)
Section Negative.
Variables (Y : Type) (log : R -> R) (ceil : R -> Z) (thr min_val step : R) (N : nat) (W : Z).
Hypotheses (HN : 1 <= N) (HW : (W < 0)%Z).
Notation m := (RelativeEntropyZ (Y := Y) log ceil thr min_val step N W).
Definition neg_inv (l : list (list R)) (s : rest R) : Prop :=
  (l = [] -> re_hat s = None /\ re_m s = 0 /\ re_util s = [] /\ re_P s = []) /\ (l <> [] -> re_m s = 1 /\ re_P s = [repeat NonFin N] /\ re_hat s <> None).
Lemma no_density : np_density (np_histogram N []) = repeat (@NonFin R) N.
Proof. rewrite density_spec by auto. reflexivity. Qed.
Lemma neg_run : forall h : list (mcall (list R) Y), neg_inv (fitted_instances h) (model_run m RE_init h).
Proof.
  intros h. refine (plain_run_all _ _ _ _ _ _ neg_inv _ _ h _ _).
  - intros l s x y (I1 & I2). split; [intros Q; destruct l; discriminate|]. intros _. unfold exec, bind, modify, gets, lift. cbn [re_util re_m re_P re_c re_hat]. destruct (Z.leb_spec W (Z.of_nat (length (re_util s ++ [x])))); [|lia].
    destruct l as [|a l].
    + destruct (I1 eq_refl) as (E1 & E2 & E3 & E4). rewrite E3, E2. cbn [app]. unfold py_lastZ. destruct (Z.leb_spec W 0); [|lia]. rewrite skipn_all2 by (cbn; lia). cbn [res_map]. rewrite no_density. cbn [Nat.eqb snd re_m re_P re_hat]. rewrite E4. repeat split; auto; discriminate.
    + destruct (I2 ltac:(discriminate)) as (E1 & E2 & E3). rewrite E1. cbn [Nat.eqb]. destruct (res_map _ _); cbn [snd re_m re_P re_hat ret]; repeat split; auto; discriminate.
  - intros l s x I. unfold exec, bind, gets, ret. destruct (re_hat s) eqn:E; [destruct (_ && _)%bool|]; exact I.
  - split; [repeat split|congruence].
Qed.
Theorem C142_relative_entropy_negative : forall (h : list (mcall (list R) Y)) x,
  eval (md_score m x) (model_run m RE_init h) = Ok (VScalar (match fitted_instances h with [] => 0 | _ => -1 end)%R).
Proof.
  intros h x. pose proof (neg_run h) as (I1 & I2). set (s := model_run m RE_init h) in *. clearbody s. unfold eval. cbn [md_score RelativeEntropyZ plain_model]. unfold bind, gets, ret. destruct (fitted_instances h) as [|a l].
  - destruct (I1 eq_refl) as (E & _). rewrite E. reflexivity.
  - destruct (I2 ltac:(discriminate)) as (E1 & E2 & E3). destruct (re_hat s) as [hat|]; [|congruence]. rewrite E1, E2. destruct (Z.leb_spec W (Z.of_nat (length (re_util s)))); [|lia]. cbn [Nat.ltb Nat.leb andb firstn agreementZ].
    replace (scipy_entropy log hat (repeat NonFin N)) with (@ENaN R); [reflexivity|]. unfold scipy_entropy. destruct N as [|N']; [lia|]. cbn [repeat all_fin]. destruct (all_fin hat); reflexivity.
Qed.
End Negative.
Print Assumptions C142_relative_entropy_negative.

(** ** Window size 0: the window is the whole history, and is compared with the very first value *)
Section Zero.
Variables (Y : Type) (ceil : R -> Z) (thr min_val step : R) (N : nat).
Hypotheses (HN : 1 <= N) (Hthr : (0 < thr)%R) (Hstep : step <> 0%R).
Notation m := (RelativeEntropyZ (Y := Y) ln ceil thr min_val step N 0).
Notation dens := (re_dens ceil min_val step N).
Notation singles vs := (map (fun v : R => [v]) vs).
Definition zero_inv (l : list (list R)) (s : rest R) : Prop := forall vs, l = singles vs -> re_util s = singles vs /\
  match vs with [] => re_m s = 0 /\ re_P s = [] /\ re_hat s = None | v :: _ => re_m s = 1 /\ re_P s = [dens [v]] /\ re_hat s = Some (dens vs) end.
Lemma zero_run : forall h : list (mcall (list R) Y), zero_inv (fitted_instances h) (model_run m RE_init h).
Proof.
  intros h. refine (plain_run_all _ _ _ _ _ _ zero_inv _ _ h _ _).
  - intros l s x y I vs E. destruct vs as [|v vs _] using rev_ind; [destruct l; discriminate|]. rewrite map_app in E. cbn [map] in E. apply app_inj_tail in E. destruct E as [E ->]. destruct (I vs E) as (I1 & I2).
    unfold exec, bind, modify, gets, lift. cbn [re_util re_m re_P re_c re_hat]. destruct (Z.leb_spec 0 (Z.of_nat (length (re_util s ++ [[v]])))); [|lia]. unfold py_lastZ. cbn [Z.leb Z.compare]. change (Z.to_nat (- 0)) with 0. cbn [skipn].
    rewrite I1. replace (singles vs ++ [[v]]) with (singles (vs ++ [v])) by (rewrite map_app; reflexivity). rewrite (quantize_ok ceil min_val step Hstep). fold (dens (vs ++ [v])). destruct vs as [|v0 vs]; cbn [app]; destruct I2 as (E1 & E2 & E3); rewrite E1, ?E2; cbn [Nat.eqb snd re_util re_m re_P re_c re_hat app ret]; repeat split; auto.
  - intros l s x I. unfold exec, bind, gets, ret. destruct (re_hat s) eqn:E; [destruct (_ && _)%bool|]; exact I.
  - intros [|v vs] E; [repeat split|discriminate].
Qed.
Notation bin := (bin_of ceil min_val step N).
Notation cell v := (ceil ((v - min_val) / step)%R).
Lemma fraction_pos : forall B (f : B -> bool) l, (0 < fraction f l)%R <-> exists b, In b l /\ f b = true.
Proof.
  intros B f l. unfold fraction, Rlen. split.
  - intros H. destruct (filter f l) as [|b k] eqn:E; [cbn in H; lra|]. exists b. apply filter_In. rewrite E. left. reflexivity.
  - intros (b & I & F). assert (G : In b (filter f l)) by (apply filter_In; auto). apply Rdiv_lt_0_compat; apply lt_0_INR; [destruct (filter f l); [destruct G|cbn; lia]|destruct l; [destruct I|cbn; lia]].
Qed.
Lemma fraction_nonneg : forall B (f : B -> bool) l, (0 < fraction f l)%R \/ (fraction f l <= 0)%R.
Proof. intros. destruct (Rlt_le_dec 0 (fraction f l)); auto. Qed.
Lemma combine_maps : forall B (f g : B -> R) l, combine (map f l) (map g l) = map (fun b => (f b, g b)) l.
Proof. intros B f g l. induction l as [|b l IH]; auto. cbn. rewrite IH. reflexivity. Qed.
Lemma bin_some : forall u k, bin u = Some k <-> in_range N (cell u) = true /\ k = Z.min (cell u) (Z.of_nat N - 1).
Proof. intros u k. unfold bin_of. cbv zeta. destruct (in_range N (cell u)); split; [intros Q; injection Q; auto|intros [_ ->]; reflexivity|discriminate|intros [Q _]; discriminate]. Qed.
Lemma bin_range : forall u k, bin u = Some k -> (0 <= k < Z.of_nat N)%Z.
Proof. intros u k H. apply bin_some in H. destruct H as [H ->]. unfold in_range in H. apply andb_prop in H. rewrite !Z.leb_le in H. lia. Qed.
Lemma zero_agrees : forall v vs, agrees thr 0 (distribution N (map (fun v => cell v) (v :: vs))) (distribution N (map (fun v => cell v) [v])) <-> (bin v <> None /\ forall u, In u vs -> bin u = None \/ bin u = bin v).
Proof.
  intros v vs. set (l := filter (in_range N) (map (fun v => cell v) (v :: vs))).
  assert (DP : distribution N (map (fun v => cell v) (v :: vs)) = match l with [] => None | _ => Some (map (fun i => fraction (fun b => Z.min b (Z.of_nat N - 1) =? Z.of_nat i)%Z l) (seq 0 N)) end) by (unfold distribution; fold l; destruct l; reflexivity).
  assert (Hl : forall b, In b l <-> in_range N b = true /\ exists u, In u (v :: vs) /\ b = cell u). { intros b. unfold l. rewrite filter_In, in_map_iff. split; [intros ((u & <- & I) & Q); split; eauto|intros (Q & u & I & ->); split; eauto]. }
  rewrite DP. unfold distribution at 1. cbn [map filter]. destruct (in_range N (cell v)) eqn:Ev.
  - destruct (bin v) as [k|] eqn:Bv; [|unfold bin_of in Bv; cbv zeta in Bv; rewrite Ev in Bv; discriminate].
    assert (Lv : In (cell v) l) by (apply Hl; split; [exact Ev|exists v; split; [left|]; reflexivity]). destruct l as [|b0 l0] eqn:El; [destruct Lv|]. rewrite <- El in *. clear El DP b0 l0. clearbody l.
    unfold agrees. split.
    + intros (p & q & D & Ep & Eq & ED & _). injection Ep as <-. injection Eq as <-. split; [discriminate|]. intros u Iu. destruct (bin u) as [j|] eqn:Bu; [right|left; reflexivity].
      unfold divergence in ED. rewrite combine_maps in ED. destruct (forallb _ _) eqn:F in ED; [|discriminate]. clear ED. rewrite forallb_forall in F.
      pose proof (bin_range u j Bu) as Rj. apply bin_some in Bu. destruct Bu as [Bu Ej].
      specialize (F (fraction (fun b => Z.min b (Z.of_nat N - 1) =? Z.of_nat (Z.to_nat j))%Z l, fraction (fun b => Z.min b (Z.of_nat N - 1) =? Z.of_nat (Z.to_nat j))%Z [cell v])).
      assert (G : In (fraction (fun b => Z.min b (Z.of_nat N - 1) =? Z.of_nat (Z.to_nat j))%Z l, fraction (fun b => Z.min b (Z.of_nat N - 1) =? Z.of_nat (Z.to_nat j))%Z [cell v]) (map (fun i => (fraction (fun b => Z.min b (Z.of_nat N - 1) =? Z.of_nat i)%Z l, fraction (fun b => Z.min b (Z.of_nat N - 1) =? Z.of_nat i)%Z [cell v])) (seq 0 N))).
      { apply in_map_iff. exists (Z.to_nat j). split; [reflexivity|]. apply in_seq. lia. }
      apply F in G. cbn [fst snd] in G. apply orb_prop in G. rewrite Z2Nat.id in G by lia. destruct G as [G|G].
      * exfalso. apply Rleb_le in G. assert (0 < fraction (fun b => Z.min b (Z.of_nat N - 1) =? j)%Z l)%R; [|lra]. apply fraction_pos. exists (cell u). split; [|apply Z.eqb_eq; auto]. apply Hl. split; [exact Bu|]. exists u. split; [right; exact Iu|reflexivity].
      * apply Rltb_lt in G. apply fraction_pos in G. destruct G as (b & [<-|[]] & Q). apply Z.eqb_eq in Q. apply bin_some in Bv. destruct Bv as [_ ->]. congruence.
    + intros [_ H]. do 2 eexists. unfold divergence. rewrite combine_maps.
      assert (F : forallb (fun u => (Rleb (fst u) 0 || Rltb 0 (snd u))%bool) (map (fun i => (fraction (fun b => Z.min b (Z.of_nat N - 1) =? Z.of_nat i)%Z l, fraction (fun b => Z.min b (Z.of_nat N - 1) =? Z.of_nat i)%Z [cell v])) (seq 0 N)) = true).
      { apply forallb_forall. intros w Iw. apply in_map_iff in Iw. destruct Iw as (i & <- & Ii). cbn [fst snd]. apply orb_true_iff. destruct (fraction_nonneg _ (fun b => Z.min b (Z.of_nat N - 1) =? Z.of_nat i)%Z l) as [Q|Q]; [right|left; apply Rleb_le; exact Q].
        apply Rltb_lt. apply fraction_pos in Q. destruct Q as (b & Ib & Qb). apply fraction_pos. exists (cell v). split; [left; reflexivity|]. apply Hl in Ib. destruct Ib as (Rb & u & Iu & ->). apply Z.eqb_eq in Qb. apply Z.eqb_eq.
        destruct Iu as [<-|Iu]; [exact Qb|]. assert (Bu : bin u = Some (Z.of_nat i)) by (apply bin_some; auto). destruct (H u Iu) as [Q|Q]; [congruence|]. rewrite Bu in Q. apply (eq_trans (y := k)); [|congruence]. apply bin_some in Bv. symmetry. apply Bv. }
      eexists. split; [reflexivity|]. split; [reflexivity|]. split; [rewrite F; reflexivity|]. cbn [INR]. rewrite Rmult_0_r, Rmult_0_l. exact Hthr.
  - split; [intros (p & q & D & _ & Q & _); discriminate|]. intros [Q _]. exfalso. apply Q. unfold bin_of. cbv zeta. rewrite Ev. reflexivity.
Qed.
(** 0 as long as all values that count fall in the bin of the first one, -1 for ever after another one has been seen, or if the first is out of range. *)
Theorem C142_relative_entropy_zero : forall (h : list (mcall (list R) Y)) v vs x, fitted_instances h = singles (v :: vs) ->
  let a := eval (md_score m x) (model_run m RE_init h) in
  ((bin v <> None /\ forall u, In u vs -> bin u = None \/ bin u = bin v) -> a = Ok (VScalar 0%R)) /\
  (~ (bin v <> None /\ forall u, In u vs -> bin u = None \/ bin u = bin v) -> a = Ok (VScalar (-1)%R)).
Proof.
  intros h v vs x E a. destruct (zero_run h (v :: vs) E) as (I1 & I2 & I3 & I4).
  assert (Ea : a = Ok (VScalar (IZR (agreement ln thr (IZR (2 * Z.of_nat 0)) (dens (v :: vs)) [dens [v]] 0 None (-1))))).
  { unfold a. set (s := model_run m RE_init h) in *. clearbody s. unfold eval. cbn [md_score RelativeEntropyZ plain_model]. unfold bind, gets, ret. rewrite I4, I2, I3, I1. destruct (Z.leb_spec 0 (Z.of_nat (length (singles (v :: vs))))); [|lia]. cbn [Nat.ltb Nat.leb andb firstn fst].
    rewrite <- (agreement_natural R NumR ln thr 0 _ _ 0 None (-1)). reflexivity. }
  rewrite <- zero_agrees. change (map (fun v => cell v) (v :: vs)) with (quantized ceil min_val step (v :: vs)). change (map (fun v => cell v) [v]) with (quantized ceil min_val step [v]).
  rewrite <- (agreement_one' ceil thr min_val step N 0 (v :: vs) [v] HN), Ea. destruct (agreement_range thr 0 (dens (v :: vs)) (dens [v])) as [Q|Q]; rewrite Q; split; intros H0; try reflexivity; congruence.
Qed.
End Zero.
Print Assumptions C142_relative_entropy_zero.
(** Window size 0, ten bins over [0, 10]: 3.5, 3.2, 50 (not counted) and then 7. *)
Example C142_ex_relative_entropy : forall thr x, (0 < thr)%R -> let m := RelativeEntropyZ (Y := unit) ln Rceil thr 0%R 1%R 10 0 in let f v := CFit [v] None in
  (forall h, h = [f (7 / 2); f (16 / 5); f 50]%R -> eval (md_score m x) (model_run m RE_init h) = Ok (VScalar 0%R) /\ eval (md_score m x) (model_run m RE_init (h ++ [f 7%R])) = Ok (VScalar (-1)%R)).
Proof.
  intros thr x Ht m f h ->. assert (B : forall v z, Rceil ((v - 0) / 1) = z <-> (IZR z - 1 < v <= IZR z)%R) by (intros v z; rewrite Rceil_spec; replace ((v - 0) / 1)%R with v by field; reflexivity).
  assert (B1 : bin_of Rceil 0 1 10 (7 / 2)%R = Some 4%Z) by (unfold bin_of; rewrite (proj2 (B (7 / 2)%R 4%Z)) by lra; reflexivity).
  assert (B2 : bin_of Rceil 0 1 10 (16 / 5)%R = Some 4%Z) by (unfold bin_of; rewrite (proj2 (B (16 / 5)%R 4%Z)) by lra; reflexivity).
  assert (B3 : bin_of Rceil 0 1 10 50%R = None) by (unfold bin_of; rewrite (proj2 (B 50%R 50%Z)) by lra; reflexivity).
  assert (B4 : bin_of Rceil 0 1 10 7%R = Some 7%Z) by (unfold bin_of; rewrite (proj2 (B 7%R 7%Z)) by lra; reflexivity). split.
  - apply (C142_relative_entropy_zero unit Rceil thr 0%R 1%R 10 ltac:(lia) Ht ltac:(lra) [f (7 / 2); f (16 / 5); f 50]%R (7 / 2)%R [16 / 5; 50]%R x eq_refl). rewrite B1. split; [discriminate|]. intros u [<-|[<-|[]]]; auto.
  - apply (C142_relative_entropy_zero unit Rceil thr 0%R 1%R 10 ltac:(lia) Ht ltac:(lra) ([f (7 / 2); f (16 / 5); f 50]%R ++ [f 7%R]) (7 / 2)%R [16 / 5; 50; 7]%R x eq_refl). rewrite B1. intros [_ H]. destruct (H 7%R) as [Q|Q]; [right; right; left; reflexivity| |]; rewrite B4 in Q; discriminate.
Qed.
