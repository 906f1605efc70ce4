(** * Properties of the seasonal preprocessors (C46-C48) and of the fit_transform_partial default (C13). *)
From Coq Require Import String.
From Coq Require Import List ZArith Lia Bool Reals Lra Permutation Arith.
From Verif Require Import Base Num Spec Model_Stats Model_Utils Model_Core Model_Post Model_Trans P_Lists P_Stats P_Utils P_Core P_Post P_Trans Prop_Trans.
Import ListNotations.
Open Scope R_scope.

(** ** C46: specification.  A stream is a list of rows; [at_ xs t j] is feature j at instant t. *)
Definition col (j : nat) (xs : list (list R)) : list R := map (fun r => nth j r 0) xs.
Definition average (l : list R) : R := match l with [] => 0 | _ => mean l end.
(** rolling mean of feature j over the last W rows *)
Definition trend_of (W : nat) (xs : list (list R)) (j : nat) : R := average (col j (lastn W xs)).
(** the past instants of phase p at which the window was full *)
Definition hits (L W p T : nat) : list nat := filter (fun t => (t mod L =? p)%nat && (W <=? S t)%nat) (seq 0 T).
(** value minus the trend at its own instant *)
Definition detrended (W : nat) (xs : list (list R)) (j t : nat) : R := nth j (nth t xs []) 0 - trend_of W (firstn (S t) xs) j.
Definition seasonal_of (L W : nat) (xs : list (list R)) (p j : nat) : R :=
  average (map (detrended W xs j) (hits L W p (length xs))).

Section Season.
Variables (L W n : nat).
Hypothesis (HL : (1 <= L)%nat) (HW : (1 <= W)%nat).
Definition wide (x : list R) : Prop := length x = n.
Record STDRel (xs : list (list R)) (s : stdst R) : Prop := {
  sr_season : st_season s = Z.of_nat L;
  sr_trendw : st_trendw s = Z.of_nat W;
  sr_window : st_window s = lastn W xs;
  sr_seen : st_seen s = Z.of_nat (length xs);
  sr_wide : Forall wide xs;
  sr_some : st_sums s = None -> xs = [];
  sr_sums : forall m, st_sums s = Some m -> length m = L /\ length (st_counts s) = L /\
    forall p, (p < L)%nat -> nth p (st_counts s) 0%Z = Z.of_nat (length (hits L W p (length xs))) /\
      nth p m [] = map (fun j => Rsum (map (detrended W xs j) (hits L W p (length xs)))) (seq 0 n) }.

Lemma deque_append_lastn : forall (x : list R) xs, deque_append (Z.of_nat W) x (lastn W xs) = lastn W (xs ++ [x]).
Proof.
  intros. unfold deque_append. rewrite lastn_length.
  rewrite (lastn_step _ W xs x), app_length, lastn_length. cbn [length].
  destruct (Z.ltb_spec (Z.of_nat (Nat.min W (length xs))) (Z.of_nat W)).
  - destruct (Nat.ltb_spec W (Nat.min W (length xs) + 1)); [lia|reflexivity].
  - destruct (Nat.ltb_spec W (Nat.min W (length xs) + 1)); [|lia].
    destruct (lastn W xs) as [|y l] eqn:E; [|reflexivity].
    apply (f_equal (@length _)) in E. rewrite lastn_length in E. simpl in E. lia.
Qed.
Lemma column_col : forall rows j, Forall wide rows -> (j < n)%nat -> column j rows = Ok (col j rows).
Proof.
  intros rows j F Hj. induction F as [|r rows Hr F IH]; auto. cbn [column col map]. cbn in IH.
  rewrite (py_index_nth _ r j 0) by (rewrite Hr; auto). cbn. change ((fix go rs := match rs with [] => Ok [] | r0 :: rs' => rbind (py_index r0 j) (fun x => rmap (cons x) (go rs')) end) rows) with (column j rows). rewrite IH. reflexivity.
Qed.
Lemma res_map_seq : forall (f : nat -> res (list R)) g m a, (forall j, (a <= j < a + m)%nat -> f j = Ok (g j)) -> res_map f (seq a m) = Ok (map g (seq a m)).
Proof.
  intros f g m. induction m as [|m IH]; intros a H; auto. cbn [seq res_map map]. rewrite H by lia. cbn. rewrite IH; auto. intros; apply H; lia.
Qed.
Lemma std_trend_R : forall rows, Forall wide rows -> rows <> [] ->
  std_trend rows = Ok (Some (map (fun j => mean (col j rows)) (seq 0 n))).
Proof.
  intros rows F NE. destruct rows as [|r rows]; [congruence|]. unfold std_trend.
  assert (E : forallb (fun r0 => (length r0 =? length r)%nat) rows = true).
  { apply forallb_forall. intros r0 H0. apply Nat.eqb_eq. pose proof (Forall_inv F) as F1. pose proof (Forall_inv_tail F) as F2. rewrite Forall_forall in F2. rewrite (F2 r0 H0). symmetry. auto. }
  rewrite E. replace (length r) with n by (symmetry; exact (Forall_inv F)).
  rewrite (res_map_seq _ (fun j => col j (r :: rows))) by (intros; apply column_col; auto; lia).
  cbn [rbind]. rewrite map_map. do 2 f_equal. apply map_ext. intros. apply vec_mean_R.
Qed.
Lemma hits_S : forall p T, hits L W p (S T) = hits L W p T ++ (if (T mod L =? p)%nat && (W <=? S T)%nat then [T] else []).
Proof.
  intros. unfold hits. replace (S T) with (T + 1)%nat by lia. rewrite seq_app, filter_app. cbn [seq filter].
  replace (T + 1)%nat with (S T) by lia. cbn [plus].  destruct ((T mod L =? p)%nat && (W <=? S T)%nat); reflexivity.
Qed.
Lemma hits_lt : forall p T t, In t (hits L W p T) -> (t < T)%nat.
Proof. intros p T t H. apply filter_In in H. destruct H as [H _]. apply in_seq in H. lia. Qed.
Lemma detrended_snoc : forall xs x j t, (t < length xs)%nat -> detrended W (xs ++ [x]) j t = detrended W xs j t.
Proof.
  intros. unfold detrended. rewrite app_nth1 by auto. rewrite firstn_app. replace (S t - length xs)%nat with 0%nat by lia.
  cbn [firstn]. rewrite app_nil_r. reflexivity.
Qed.
Lemma detrended_old : forall xs x j p, map (detrended W (xs ++ [x]) j) (hits L W p (length xs)) = map (detrended W xs j) (hits L W p (length xs)).
Proof. intros. apply map_ext_in. intros t Ht. apply detrended_snoc. eapply hits_lt; eauto. Qed.
Lemma detrended_new : forall xs x j, detrended W (xs ++ [x]) j (length xs) = nth j x 0 - trend_of W (xs ++ [x]) j.
Proof. intros. unfold detrended. rewrite nth_middle, firstn_all2; [reflexivity|]. rewrite app_length. simpl. lia. Qed.
Lemma std_phase_R : forall xs s, STDRel xs s -> std_phase s = (length xs mod L)%nat.
Proof. intros xs s [ES ET EW EN _ _ _]. unfold std_phase. rewrite ES, EN. rewrite <- Nat2Z.inj_mod. apply Nat2Z.id. Qed.
Lemma STD_init_rel : STDRel [] (mkSTD (Z.of_nat L) (Z.of_nat W) [] None [] 0).
Proof. constructor; cbn; auto. intros m Q; discriminate. Qed.
Lemma ensure_rel : forall xs s x, STDRel xs s -> wide x -> exists s', std_ensure x s = (Ok tt, s') /\ STDRel xs s' /\ st_sums s' <> None.
Proof.
  intros xs s x [ES ET EW EN EF E0 E1] Hx. unfold std_ensure, modify. destruct (st_sums s) as [m|] eqn:Q.
  - exists s. split; [reflexivity|]. split; [constructor; auto; rewrite Q; auto|congruence].
  - eexists. split; [reflexivity|]. split; [|cbn; discriminate]. rewrite (E0 eq_refl) in *. constructor; cbn; auto.
    intros m H. injection H as <-. rewrite ES, Nat2Z.id, !repeat_length. split; auto. split; auto. intros p Hp. split.
    + apply nth_repeat.
    + rewrite (nth_indep _ [] (repeat 0 (length x))) by (rewrite repeat_length; auto). rewrite nth_repeat, Hx.
      clear. generalize 0%nat. induction n as [|k IH]; intros a; auto. cbn [repeat seq map]. f_equal. apply IH.
Qed.
Lemma trend_rel : forall xs, Forall wide xs -> std_trend (lastn W xs) =
  Ok (match xs with [] => None | _ => Some (map (fun j => trend_of W xs j) (seq 0 n)) end).
Proof.
  intros xs F. destruct xs as [|x xs]; [rewrite lastn_nil; reflexivity|].
  assert (NE : lastn W (x :: xs) <> []) by (apply lastn_nonempty; auto; discriminate).
  rewrite std_trend_R; auto.
  - do 2 f_equal. apply map_ext. intros j. unfold trend_of, average. destruct (lastn W (x :: xs)); [congruence|reflexivity].
  - apply Forall_forall. intros r Hr. apply In_lastn in Hr. rewrite Forall_forall in F. auto.
Qed.
Lemma sub_vec : forall x (f : nat -> R), wide x -> sub_opt x (Some (map f (seq 0 n))) = Ok (map (fun j => nth j x 0 - f j) (seq 0 n)).
Proof. intros x f Hx. unfold sub_opt. rewrite (list_as_map x n Hx) at 1. apply np_zip_map. Qed.
Lemma absorb_rel : forall xs s x, STDRel xs s -> wide x -> st_sums s <> None ->
  exists s', std_absorb (length xs mod L) x s = (Ok (Some (map (fun j => trend_of W (xs ++ [x]) j) (seq 0 n))), s') /\
    st_sums s' <> None /\ exec std_tick s' = mkSTD (st_season s') (st_trendw s') (st_window s') (st_sums s') (st_counts s') (st_seen s' + 1) /\
    STDRel (xs ++ [x]) (exec std_tick s').
Proof.
  intros xs s x [ES ET EW EN EF E0 E1] Hx NS. destruct (st_sums s) as [m|] eqn:EM; [|congruence]. clear NS E0.
  destruct (E1 m eq_refl) as (Lm & Lc & HP). clear E1.
  assert (Hp : (length xs mod L < L)%nat) by (apply Nat.mod_upper_bound; lia).
  set (p := (length xs mod L)%nat) in *.
  assert (F' : Forall wide (xs ++ [x])) by (apply Forall_app; auto).
  unfold std_absorb, bind, modify, gets, lift. cbn [st_window st_trendw st_season st_sums st_counts st_seen].
  rewrite ET, EW, deque_append_lastn, trend_rel by auto.
  destruct (xs ++ [x]) as [|y ys] eqn:EXS; [destruct xs; discriminate|]. rewrite <- EXS in *. clear y ys EXS.
  rewrite lastn_length, app_length. cbn [length].
  assert (HN : (Z.of_nat (length xs) + 1 = Z.of_nat (length (xs ++ [x])))%Z) by (rewrite app_length; simpl; lia).
  assert (LX : length (xs ++ [x]) = S (length xs)) by (rewrite app_length; simpl; lia).
  destruct (Z.eqb_spec (Z.of_nat (Nat.min W (length xs + 1))) (Z.of_nat W)) as [Q|Q].
  - assert (HF : (W <= S (length xs))%nat) by lia. rewrite EM.
    rewrite (py_index_nth _ m p []) by lia. cbn [rbind]. rewrite sub_vec by auto. destruct (HP p Hp) as [HC HM]. rewrite HM, np_zip_map. cbn [rbind].
    rewrite !map_length, seq_length, Nat.eqb_refl. rewrite (py_index_nth _ (st_counts s) p 0%Z) by lia. cbn [ret].
    eexists. split; [reflexivity|]. split; [cbn; discriminate|]. split; [reflexivity|]. cbn. constructor; cbn; auto; try discriminate.
    + rewrite EN. auto.
    + intros m' H. injection H as <-. rewrite !set_nth_length. split; auto. split; auto. intros q Hq.
      rewrite LX, hits_S. fold p. destruct (Nat.eqb_spec p q) as [E|E].
      * subst q. replace (W <=? S (length xs))%nat with true by (symmetry; apply Nat.leb_le; auto). cbn [andb].
        rewrite !nth_set_nth_eq by lia. rewrite HC, app_length. cbn [length]. split; [lia|].
        apply map_ext. intros j. rewrite map_app, detrended_old, Rsum_app. cbn [map]. rewrite detrended_new. simpl. ring.
      * cbn [andb]. rewrite app_nil_r. rewrite !nth_set_nth_neq by auto. destruct (HP q Hq) as [HC' HM']. split; auto.
        rewrite HM'. apply map_ext. intros j. rewrite detrended_old. reflexivity.
  - assert (HF : (S (length xs) < W)%nat) by lia. cbn [ret]. eexists. split; [reflexivity|]. split; [cbn; congruence|]. split; [reflexivity|].
    cbn. constructor; cbn; auto; try congruence.
    + intros m' H. rewrite EM in H. injection H as <-. split; auto. split; auto. intros q Hq. rewrite LX, hits_S.
      replace (W <=? S (length xs))%nat with false by (symmetry; apply Nat.leb_gt; auto). rewrite andb_false_r, app_nil_r.
      destruct (HP q Hq) as [HC HM]. split; auto. rewrite HM. apply map_ext. intros j. rewrite detrended_old. reflexivity.
Qed.
Lemma seasonal_rel : forall xs s p, STDRel xs s -> st_sums s <> None -> (p < L)%nat ->
  exists q, std_seasonal s p = Ok q /\ forall x, wide x -> sub_opt x q = Ok (map (fun j => nth j x 0 - seasonal_of L W xs p j) (seq 0 n)).
Proof.
  intros xs s p [ES ET EW EN EF E0 E1] NS Hp. destruct (st_sums s) as [m|] eqn:EM; [|congruence].
  destruct (E1 m eq_refl) as (Lm & Lc & HP). destruct (HP p Hp) as [HC HM]. unfold std_seasonal.
  rewrite (py_index_nth _ _ p 0%Z) by lia. cbn [rbind]. rewrite HC, EM, (py_index_nth _ m p []) by lia. cbn [rbind]. rewrite HM, map_map.
  destruct (Z.eqb_spec (Z.of_nat (length (hits L W p (length xs)))) 0) as [Q|Q].
  - exists None. split; auto. intros x Hx. cbn [sub_opt]. f_equal. rewrite (list_as_map x n Hx) at 1. apply map_ext. intros j.
    unfold seasonal_of. destruct (hits L W p (length xs)); [simpl; lra|simpl in Q; lia].
  - eexists. split; [reflexivity|]. intros x Hx. rewrite sub_vec by auto. f_equal. apply map_ext. intros j. unfold seasonal_of.
    cbn [ndiv nofZ NumR]. rewrite INR_Zof_nat. destruct (hits L W p (length xs)) as [|h hs]; [simpl in Q; lia|].
    unfold average, mean, Rlen. cbn [map length]. rewrite map_length. reflexivity.
Qed.
Lemma transform_rel : forall xs s a, STDRel xs s -> wide (as_array a) ->
  exists s', std_transform a s = (Ok (VArray (map (fun j => nth j (as_array a) 0 - trend_of W xs j - seasonal_of L W xs (length xs mod L) j) (seq 0 n))), s') /\ STDRel xs s'.
Proof.
  intros xs s a H Hx. unfold std_transform. destruct (ensure_rel xs s _ H Hx) as (s1 & E1 & R1 & N1).
  exists s1. split; auto. unfold bind at 1. rewrite E1. unfold bind, gets, lift. rewrite (std_phase_R xs s1 R1), (sr_window _ _ R1), trend_rel by (apply (sr_wide _ _ R1)).
  destruct (seasonal_rel xs s1 (length xs mod L) R1 N1) as (q & EQ & HQ). { apply Nat.mod_upper_bound; lia. }
  rewrite EQ. destruct xs as [|y ys].
  - cbn [sub_opt]. rewrite HQ by auto. unfold ret. do 3 f_equal. apply map_ext. intros. unfold trend_of. rewrite lastn_nil. simpl. ring.
  - rewrite sub_vec by auto. rewrite HQ by (unfold wide; rewrite map_length, seq_length; auto). unfold ret. do 3 f_equal. apply map_ext_in. intros j Hj. apply in_seq in Hj.
    set (f := fun j => nth j (as_array a) 0 - trend_of W (y :: ys) j). rewrite (nth_indep _ 0 (f 0%nat)) by (rewrite map_length, seq_length; lia).
    rewrite map_nth, seq_nth by lia. reflexivity.
Qed.
Lemma fit_rel : forall xs s a, STDRel xs s -> wide (as_array a) ->
  exists s', std_fit a s = (Ok tt, s') /\ STDRel (xs ++ [as_array a]) s'.
Proof.
  intros xs s a H Hx. unfold std_fit. destruct (ensure_rel xs s _ H Hx) as (s1 & E1 & R1 & N1).
  unfold bind at 1. rewrite E1. unfold bind at 1, gets. rewrite (std_phase_R xs s1 R1).
  destruct (absorb_rel xs s1 _ R1 Hx N1) as (s2 & E2 & N2 & T2 & R2). exists (exec std_tick s2). split; auto.
  unfold bind. rewrite E2. reflexivity.
Qed.
Lemma fit_transform_rel : forall xs s a, STDRel xs s -> wide (as_array a) ->
  exists s', std_fit_transform a s = (Ok (VArray (map (fun j => nth j (as_array a) 0 - trend_of W (xs ++ [as_array a]) j
      - seasonal_of L W (xs ++ [as_array a]) (length xs mod L) j) (seq 0 n))), s') /\ s' = exec (std_fit a) s.
Proof.
  intros xs s a H Hx. unfold std_fit_transform. destruct (ensure_rel xs s _ H Hx) as (s1 & E1 & R1 & N1).
  destruct (absorb_rel xs s1 _ R1 Hx N1) as (s2 & E2 & N2 & T2 & R2).
  assert (EF : std_fit a s = (Ok tt, exec std_tick s2)).
  { unfold std_fit. unfold bind at 1. rewrite E1. unfold bind at 1, gets. rewrite (std_phase_R xs s1 R1). unfold bind. rewrite E2. reflexivity. }
  exists (exec std_tick s2). split; [|unfold exec at 2; rewrite EF; reflexivity].
  unfold bind at 1. rewrite E1. unfold bind at 1, gets at 1. rewrite (std_phase_R xs s1 R1).
  unfold bind, gets, lift. rewrite E2.
  destruct (seasonal_rel _ _ (length xs mod L) R2) as (q & EQ & HQ). { rewrite T2. auto. } { apply Nat.mod_upper_bound; lia. }
  assert (EQ' : std_seasonal s2 (length xs mod L) = Ok q) by (rewrite <- EQ; rewrite T2; reflexivity).
  rewrite EQ'. unfold std_tick, modify, exec. rewrite sub_vec by auto. rewrite HQ by (unfold wide; rewrite map_length, seq_length; auto). unfold ret. cbn [snd].
  do 3 f_equal. apply map_ext_in. intros j Hj. apply in_seq in Hj.
  set (f := fun j => nth j (as_array a) 0 - trend_of W (xs ++ [as_array a]) j). rewrite (nth_indep _ 0 (f 0%nat)) by (rewrite map_length, seq_length; lia).
  rewrite map_nth, seq_nth by lia. reflexivity.
Qed.
Lemma run_rel : forall h xs s, STDRel xs s -> Forall (fun o => wide (op_arg o)) h -> STDRel (xs ++ learned h) (trans_run SeasonalTrendDecomposer s h).
Proof.
  induction h as [|o h IH]; intros xs s H F; [cbn; rewrite app_nil_r; auto|]. inversion F; subst. unfold trans_run. cbn [fold_left learned flat_map].
  rewrite app_assoc. apply IH; auto. destruct o as [a|a|a]; cbn [trans_do op_arg] in *.
  - destruct (fit_rel xs s a H H2) as (s' & E & R'). unfold exec. cbn [tr_fit SeasonalTrendDecomposer]. rewrite E. auto.
  - destruct (transform_rel xs s a H H2) as (s' & E & R'). rewrite app_nil_r. unfold exec. cbn [tr_transform SeasonalTrendDecomposer]. rewrite E. auto.
  - destruct (fit_transform_rel xs s a H H2) as (s' & E & ->). destruct (fit_rel xs s a H H2) as (s1 & E1 & R1).
    unfold exec in *. cbn [tr_fit_transform SeasonalTrendDecomposer]. rewrite E. cbn [snd]. rewrite E1. auto.
Qed.
End Season.

(** ** C46 *)
Notation STD := (SeasonalTrendDecomposer (A := R)).
Notation all_wide n h := (Forall (fun o : top (list R) => length (op_arg o) = n) h).
Definition std_start (L W : nat) (s0 : stdst R) : Prop := STD_init (Z.of_nat L) (Some (Z.of_nat W)) = Ok s0.
Lemma std_start_inv : forall L W n s0, std_start L W s0 -> (1 <= L)%nat /\ (1 <= W)%nat /\ STDRel L W n [] s0.
Proof.
  intros L W n s0 H. unfold std_start, STD_init in H. destruct (Z.ltb_spec (Z.of_nat L) 1); [discriminate|].
  destruct (Z.ltb_spec (Z.of_nat W) 1); [discriminate|]. injection H as <-. split; [lia|]. split; [lia|]. apply STD_init_rel.
Qed.
Theorem C46_transform_closed_form : forall L W n s0 h a, std_start L W s0 -> all_wide n h -> length (as_array a) = n ->
  let xs := learned h in
  eval (tr_transform STD a) (trans_run STD s0 h) =
  Ok (VArray (map (fun j => nth j (as_array a) 0 - trend_of W xs j - seasonal_of L W xs (length xs mod L) j) (seq 0 n))).
Proof.
  intros L W n s0 h a H F Ha xs. destruct (std_start_inv L W n s0 H) as (HL & HW & R0).
  pose proof (run_rel L W n HL HW h [] s0 R0 F) as R1. destruct (transform_rel L W n HL HW _ _ a R1 Ha) as (s' & E & _).
  unfold eval. cbn [tr_transform SeasonalTrendDecomposer]. rewrite E. reflexivity.
Qed.
Print Assumptions C46_transform_closed_form.
Theorem C46_fit_transform_closed_form : forall L W n s0 h a, std_start L W s0 -> all_wide n h -> length (as_array a) = n ->
  let xs := learned h ++ [as_array a] in
  eval (tr_fit_transform STD a) (trans_run STD s0 h) =
  Ok (VArray (map (fun j => nth j (as_array a) 0 - trend_of W xs j - seasonal_of L W xs (length (learned h) mod L) j) (seq 0 n))).
Proof.
  intros L W n s0 h a H F Ha xs. destruct (std_start_inv L W n s0 H) as (HL & HW & R0).
  pose proof (run_rel L W n HL HW h [] s0 R0 F) as R1. destruct (fit_transform_rel L W n HL HW _ _ a R1 Ha) as (s' & E & _).
  unfold eval. cbn [tr_fit_transform SeasonalTrendDecomposer]. rewrite E. reflexivity.
Qed.
Print Assumptions C46_fit_transform_closed_form.
Theorem C46_fit_succeeds : forall L W n s0 h a, std_start L W s0 -> all_wide n h -> length (as_array a) = n ->
  eval (tr_fit STD a) (trans_run STD s0 h) = Ok tt.
Proof.
  intros L W n s0 h a H F Ha. destruct (std_start_inv L W n s0 H) as (HL & HW & R0).
  pose proof (run_rel L W n HL HW h [] s0 R0 F) as R1. destruct (fit_rel L W n HL HW _ _ a R1 Ha) as (s' & E & _).
  unfold eval. cbn [tr_fit SeasonalTrendDecomposer]. rewrite E. reflexivity.
Qed.
Print Assumptions C46_fit_succeeds.
(** What an operation returns to the client. *)
Definition std_outcome (s : stdst R) (o : top (list R)) : res (pyval R) :=
  match o with
  | TFit a => rmap (fun _ => VNone) (eval (tr_fit STD a) s)
  | TTransform a => eval (tr_transform STD a) s
  | TFitTransform a => eval (tr_fit_transform STD a) s
  end.
Theorem C46_transform_never_changes_later_results : forall L W n s0 h1 h2 a o, std_start L W s0 ->
  all_wide n h1 -> all_wide n h2 -> length (as_array a) = n -> length (op_arg o) = n ->
  std_outcome (trans_run STD s0 (h1 ++ TTransform a :: h2)) o = std_outcome (trans_run STD s0 (h1 ++ h2)) o.
Proof.
  intros L W n s0 h1 h2 a o H F1 F2 Ha Ho.
  assert (FA : all_wide n (h1 ++ TTransform a :: h2)) by (apply Forall_app; split; auto).
  assert (FB : all_wide n (h1 ++ h2)) by (apply Forall_app; split; auto).
  assert (EL : learned (h1 ++ TTransform a :: h2) = learned (h1 ++ h2)) by (unfold learned; rewrite !flat_map_app; reflexivity).
  destruct o as [b|b|b]; cbn [std_outcome op_arg] in *.
  - rewrite (C46_fit_succeeds L W n s0 _ b H FA Ho), (C46_fit_succeeds L W n s0 _ b H FB Ho). reflexivity.
  - rewrite (C46_transform_closed_form L W n s0 _ b H FA Ho), (C46_transform_closed_form L W n s0 _ b H FB Ho), EL. reflexivity.
  - rewrite (C46_fit_transform_closed_form L W n s0 _ b H FA Ho), (C46_fit_transform_closed_form L W n s0 _ b H FB Ho), EL. reflexivity.
Qed.
Print Assumptions C46_transform_never_changes_later_results.
Theorem C46_fit_transform_trains_like_fit : forall L W n s0 h a, std_start L W s0 -> all_wide n h -> length (as_array a) = n ->
  exec (tr_fit_transform STD a) (trans_run STD s0 h) = exec (tr_fit STD a) (trans_run STD s0 h).
Proof.
  intros L W n s0 h a H F Ha. destruct (std_start_inv L W n s0 H) as (HL & HW & R0).
  pose proof (run_rel L W n HL HW h [] s0 R0 F) as R1. destruct (fit_transform_rel L W n HL HW _ _ a R1 Ha) as (s' & E & E').
  unfold exec at 1. cbn [tr_fit_transform SeasonalTrendDecomposer]. rewrite E. exact E'.
Qed.
Print Assumptions C46_fit_transform_trains_like_fit.
Theorem C46_constructor : forall L w, (exists s, STD_init (A := R) L w = Ok s) <-> (1 <= L)%Z /\ (forall k, w = Some k -> (1 <= k)%Z).
Proof.
  intros L w. unfold STD_init. destruct (Z.ltb_spec L 1); [|destruct w as [k|]; [destruct (Z.ltb_spec k 1)|]]; split; intros Q0.
  - destruct Q0; discriminate.
  - lia.
  - destruct Q0; discriminate.
  - destruct Q0 as [_ Q0]. specialize (Q0 k eq_refl). lia.
  - split; auto. intros k0 Q. injection Q as <-. auto.
  - eexists; reflexivity.
  - split; auto. intros k0 Q. discriminate.
  - eexists; reflexivity.
Qed.
Print Assumptions C46_constructor.
Theorem C46_default_window : forall L, (1 <= L)%Z -> STD_init (A := R) L None = STD_init L (Some L).
Proof. intros L H. unfold STD_init. destruct (Z.ltb_spec L 1); [lia|]. destruct (Z.ltb_spec L 1); [lia|reflexivity]. Qed.
Print Assumptions C46_default_window.

(** ** C47 *)
Lemma period_mult : forall (A : Type) (f : nat -> A) L, (forall t, f (t + L)%nat = f t) -> forall k t, f (t + k * L)%nat = f t.
Proof. intros A f L H k. induction k as [|k IH]; intros t; [f_equal; lia|]. replace (t + S k * L)%nat with ((t + k * L) + L)%nat by lia. rewrite H. apply IH. Qed.
Lemma period_mod : forall (A : Type) (f : nat -> A) L, (1 <= L)%nat -> (forall t, f (t + L)%nat = f t) -> forall t, f t = f (t mod L)%nat.
Proof. intros A f L HL H t. rewrite (Nat.div_mod t L) at 1 by lia. rewrite <- (period_mult A f L H (t / L) (t mod L)). f_equal. lia. Qed.
Lemma period_sum : forall (g : nat -> R) L, (forall t, g (t + L)%nat = g t) -> forall a, Rsum (map g (seq a L)) = Rsum (map g (seq 0 L)).
Proof.
  intros g L H a. induction a as [|a IH]; auto. rewrite <- IH. clear IH. destruct L as [|L]; auto.
  replace (S L) with (L + 1)%nat at 1 by lia. rewrite seq_app, map_app, Rsum_app. cbn [seq map].
  change (Rsum (g a :: map g (seq (S a) L))) with (g a + Rsum (map g (seq (S a) L))).
  change (Rsum [g (S a + L)%nat]) with (g (S a + L)%nat + 0). replace (S a + L)%nat with (a + S L)%nat by lia. rewrite H. ring.
Qed.
Lemma period_sum_mult : forall (g : nat -> R) L, (forall t, g (t + L)%nat = g t) -> forall m a, Rsum (map g (seq a (m * L))) = INR m * Rsum (map g (seq 0 L)).
Proof.
  intros g L H m. induction m as [|m IH]; intros a; [simpl; ring|]. replace (S m * L)%nat with (L + m * L)%nat by lia.
  rewrite seq_app, map_app, Rsum_app, IH, period_sum, S_INR by auto. ring.
Qed.
Lemma average_const : forall A (l : list A) (g : A -> R) c, l <> [] -> (forall t, In t l -> g t = c) -> average (map g l) = c.
Proof.
  intros A l g c NE H. rewrite (map_ext_in g (fun _ => c)) by auto. pose proof (INR_length_pos _ l NE) as P.
  unfold average. destruct l as [|a l]; [congruence|]. unfold mean, Rlen. rewrite map_length, Rsum_map_const. cbn [map]. field. lra.
Qed.
Lemma skipn_seq : forall k a m, skipn k (seq a m) = seq (a + k) (m - k).
Proof.
  intros k. induction k as [|k IH]; intros a m; [rewrite Nat.add_0_r, Nat.sub_0_r; reflexivity|].
  destruct m as [|m]; [reflexivity|]. cbn [seq skipn]. rewrite IH. f_equal; lia.
Qed.
Lemma firstn_seq : forall k a m, firstn k (seq a m) = seq a (Nat.min k m).
Proof.
  intros k. induction k as [|k IH]; intros a m; [reflexivity|]. destruct m as [|m]; [reflexivity|]. cbn [seq firstn Nat.min]. rewrite IH. reflexivity.
Qed.
Section Periodic.
Variables (f : nat -> list R) (L m n : nat).
Hypothesis (HL : (1 <= L)%nat) (Hm : (1 <= m)%nat) (HP : forall t, f (t + L)%nat = f t).
Let W := (m * L)%nat.
Let C (j : nat) := Rsum (map (fun t => nth j (f t) 0) (seq 0 L)) / INR L.
Lemma trend_const : forall T j, (W <= T)%nat -> trend_of W (map f (seq 0 T)) j = C j.
Proof.
  intros T j HT. unfold trend_of. rewrite lastn_map. unfold lastn. rewrite seq_length, skipn_seq. cbn [plus].
  replace (T - (T - W))%nat with W by lia. unfold col. rewrite map_map. set (g := fun t => nth j (f t) 0).
  assert (HG : forall t, g (t + L)%nat = g t) by (intros; unfold g; rewrite HP; auto).
  assert (E : average (map g (seq (T - W) W)) = mean (map g (seq (T - W) W))).
  { unfold average. destruct (seq (T - W) W) eqn:Q; [|reflexivity]. apply (f_equal (@length _)) in Q. rewrite seq_length in Q. simpl in Q. unfold W in Q. nia. }
  rewrite E. unfold mean, Rlen. rewrite map_length, seq_length. unfold W at 2 3. rewrite period_sum_mult by auto. unfold C, g. rewrite mult_INR.
  assert (0 < INR m) by (apply lt_0_INR; lia). assert (0 < INR L) by (apply lt_0_INR; lia). field. lra.
Qed.
Lemma detrended_const : forall T j t, (t < T)%nat -> (W <= S t)%nat -> detrended W (map f (seq 0 T)) j t = nth j (f t) 0 - C j.
Proof.
  intros T j t Ht HW. unfold detrended. rewrite firstn_map, firstn_seq, Nat.min_l by lia. rewrite trend_const by auto.
  rewrite (nth_indep _ [] (f 0%nat)) by (rewrite map_length, seq_length; auto). rewrite map_nth, seq_nth by auto. reflexivity.
Qed.
Lemma seasonal_const : forall T j p t0, In t0 (hits L W (p mod L) T) -> seasonal_of L W (map f (seq 0 T)) (p mod L) j = nth j (f p) 0 - C j.
Proof.
  intros T j p t0 Ht0. unfold seasonal_of. rewrite map_length, seq_length. apply average_const; [intros Q; rewrite Q in Ht0; contradiction|].
  intros t Ht. apply filter_In in Ht. destruct Ht as [H1 H2]. apply in_seq in H1. apply andb_prop in H2. destruct H2 as [H2 H3].
  apply Nat.eqb_eq in H2. apply Nat.leb_le in H3. rewrite detrended_const by lia. rewrite (period_mod _ f L HL HP t), H2, <- (period_mod _ f L HL HP p). reflexivity.
Qed.
End Periodic.
Lemma map_zero_repeat : forall n a (g : nat -> R), (forall j, g j = 0) -> map g (seq a n) = repeat 0 n.
Proof. induction n as [|n IH]; intros a g H; auto. cbn [seq map repeat]. rewrite H, IH; auto. Qed.
Theorem C47_periodic_signal_removed_while_training : forall L m n f s0 h T, std_start L (m * L) s0 ->
  (forall t, length (f t) = n) -> (forall t, f (t + L)%nat = f t) ->
  all_wide n h -> learned h = map f (seq 0 T) -> (m * L <= S T)%nat ->
  eval (tr_fit_transform STD (AInst (f T))) (trans_run STD s0 h) = Ok (VArray (repeat 0 n)).
Proof.
  intros L m n f s0 h T H Hn HP F EL HT. destruct (std_start_inv L (m * L) n s0 H) as (HL & HW & _). assert (Hm : (1 <= m)%nat) by nia.
  rewrite (C46_fit_transform_closed_form L (m * L) n s0 h (AInst (f T)) H F (Hn T)). cbn [as_array]. do 2 f_equal.
  apply map_zero_repeat. intros j. rewrite EL, map_length, seq_length.
  replace (map f (seq 0 T) ++ [f T]) with (map f (seq 0 (S T))) by (replace (S T) with (T + 1)%nat by lia; rewrite seq_app, map_app; reflexivity).
  rewrite (trend_const f L m HL Hm HP) by auto. rewrite (seasonal_const f L m HL Hm HP (S T) j T T).
  - ring.
  - apply filter_In. split; [apply in_seq; lia|]. rewrite Nat.eqb_refl. cbn [andb]. apply Nat.leb_le. auto.
Qed.
Print Assumptions C47_periodic_signal_removed_while_training.
Theorem C47_periodic_signal_removed_by_transform : forall L m n f s0 h T, std_start L (m * L) s0 ->
  (forall t, length (f t) = n) -> (forall t, f (t + L)%nat = f t) ->
  all_wide n h -> learned h = map f (seq 0 T) -> (m * L + L <= S T)%nat ->
  eval (tr_transform STD (AInst (f T))) (trans_run STD s0 h) = Ok (VArray (repeat 0 n)).
Proof.
  intros L m n f s0 h T H Hn HP F EL HT. destruct (std_start_inv L (m * L) n s0 H) as (HL & HW & _). assert (Hm : (1 <= m)%nat) by nia.
  rewrite (C46_transform_closed_form L (m * L) n s0 h (AInst (f T)) H F (Hn T)). cbn [as_array]. do 2 f_equal.
  apply map_zero_repeat. intros j. rewrite EL, map_length, seq_length.
  rewrite (trend_const f L m HL Hm HP) by lia. rewrite (seasonal_const f L m HL Hm HP T j T (T - L)).
  - ring.
  - apply filter_In. split; [apply in_seq; lia|]. apply andb_true_intro. split; [|apply Nat.leb_le; lia]. apply Nat.eqb_eq.
    replace T with ((T - L) + 1 * L)%nat at 2 by lia. symmetry. apply Nat.mod_add. lia.
Qed.
Print Assumptions C47_periodic_signal_removed_by_transform.
(** One season earlier the phase has no estimate yet and the residual is the plain deviation from the trend. *)
Theorem C47_transform_before_first_estimate : forall L m n f s0 h T, std_start L (m * L) s0 ->
  (forall t, length (f t) = n) -> (forall t, f (t + L)%nat = f t) ->
  all_wide n h -> learned h = map f (seq 0 T) -> (m * L <= T)%nat -> (S T < m * L + L)%nat ->
  eval (tr_transform STD (AInst (f T))) (trans_run STD s0 h) = Ok (VArray (map (fun j => nth j (f T) 0 - mean (col j (map f (seq 0 L)))) (seq 0 n))).
Proof.
  intros L m n f s0 h T H Hn HP F EL HT HT'. destruct (std_start_inv L (m * L) n s0 H) as (HL & HW & _). assert (Hm : (1 <= m)%nat) by nia.
  rewrite (C46_transform_closed_form L (m * L) n s0 h (AInst (f T)) H F (Hn T)). cbn [as_array]. do 2 f_equal.
  apply map_ext. intros j. rewrite EL, map_length, seq_length. rewrite (trend_const f L m HL Hm HP) by lia.
  unfold seasonal_of. rewrite map_length, seq_length.
  assert (E : hits L (m * L) (T mod L) T = []).
  { destruct (hits L (m * L) (T mod L) T) as [|t l] eqn:Q; auto. exfalso. assert (I : In t (hits L (m * L) (T mod L) T)) by (rewrite Q; left; auto).
    apply filter_In in I. destruct I as [I1 I2]. apply in_seq in I1. apply andb_prop in I2. destruct I2 as [I2 I3]. apply Nat.eqb_eq in I2. apply Nat.leb_le in I3.
    pose proof (Nat.div_mod t L ltac:(lia)). pose proof (Nat.div_mod T L ltac:(lia)). rewrite I2 in *.
    destruct (Nat.le_gt_cases (T / L) (t / L)) as [Q'|Q']; nia. }
  rewrite E. unfold mean, Rlen, col. rewrite !map_length, seq_length, map_map. cbn [map average]. ring.
Qed.
Print Assumptions C47_transform_before_first_estimate.
Example C47_ex : exists s0, std_start 2 2 s0 /\
  eval (tr_fit_transform STD (AInst [5])) (trans_run STD s0 [TFit (AInst [1]); TFit (AInst [5]); TFit (AInst [1])]) = Ok (VArray [0]).
Proof.
  eexists. split; [reflexivity|].
  apply (C47_periodic_signal_removed_while_training 2 1 1 (fun t => if Nat.even t then [1] else [5]) _ _ 3).
  - reflexivity.
  - intros t. destruct (Nat.even t); reflexivity.
  - intros t. rewrite Nat.even_add. cbn [Nat.even]. destruct (Nat.even t); reflexivity.
  - repeat constructor.
  - reflexivity.
  - lia.
Qed.

(** ** C48 *)
Notation MSTL stl := (ModifiedSTLResidualTransformer (A := R) stl).
Lemma map2_seq : forall (f : R -> R -> R) x y, length y = length x -> map2 f x y = map (fun j => f (nth j x 0) (nth j y 0)) (seq 0 (length x)).
Proof.
  intros f x y E. rewrite (list_as_map x (length x) eq_refl) at 1. rewrite (list_as_map y (length x) E) at 1. apply map2_map.
Qed.
(** A univariate value: a one-element array or a 1x1 matrix. *)
Definition single_value (a : pyarg (ndarray R)) (v : R) : Prop := as_array a = Arr1 [v] \/ as_array a = Arr2 [[v]].
Lemma single_value_iff : forall a v, as_partial_value a = Ok v <-> single_value a v.
Proof.
  intros a v. unfold as_partial_value, as_univariate, single_value. destruct (as_array a) as [x|l|rows]; cbn [rbind].
  - split; [discriminate|intros [Q|Q]; discriminate].
  - destruct l as [|x [|y l]].
    + split; [discriminate|intros [Q|Q]; discriminate].
    + split; [intros Q; injection Q as ->; auto|intros [Q|Q]; [injection Q as ->; auto|discriminate]].
    + split; [discriminate|intros [Q|Q]; discriminate].
  - destruct rows as [|r rows]; cbn [rbind].
    + split; [discriminate|intros [Q|Q]; discriminate].
    + destruct (forallb (fun r0 => (length r0 =? 1)%nat) (r :: rows)) eqn:E; cbn [rbind].
      * cbn in E. apply andb_prop in E. destruct E as [E1 E2]. apply Nat.eqb_eq in E1. destruct r as [|x [|? ?]]; try discriminate. cbn [concat app].
        destruct rows as [|r2 rows]; cbn [concat].
        -- split; [intros Q; injection Q as ->; auto|intros [Q|Q]; [discriminate|injection Q as ->; auto]].
        -- cbn in E2. apply andb_prop in E2. destruct E2 as [E2 _]. apply Nat.eqb_eq in E2. destruct r2 as [|y [|? ?]]; try discriminate. cbn [app].
           split; [discriminate|intros [Q|Q]; discriminate].
      * split; [discriminate|]. intros [Q|Q]; [discriminate|]. injection Q as -> ->. discriminate.
Qed.
Lemma partial_value_err : forall a e, as_partial_value (A := R) a = Raise e -> e = ValueError.
Proof.
  intros a e. unfold as_partial_value, as_univariate. destruct (as_array a) as [x|l|rows]; cbn [rbind]; try congruence.
  - destruct l as [|x [|y l]]; congruence.
  - destruct rows as [|r rows]; cbn [rbind]; [congruence|]. destruct (forallb _ _); cbn [rbind]; [|congruence]. destruct (concat (r :: rows)) as [|x [|y l]]; congruence.
Qed.
(** The values a history has stored: fit_partial / fit_transform_partial calls with a valid value. *)
Definition stored (h : list (top (ndarray R))) : list R :=
  flat_map (fun o => match o with
                     | TFit a | TFitTransform a => match as_partial_value a with Ok v => [v] | Raise _ => [] end
                     | TTransform _ => [] end) h.
Definition mstl_inv (period n : Z) (vs : list R) (s : mstl R) : Prop :=
  (2 <= period)%Z /\ (2 * period <= n)%Z /\ ms_period s = period /\ ms_wsize s = Some n /\
  exists w, ms_window s = Some w /\ wd_size w = n /\ wd_items w = lastn (Z.to_nat n) vs.
Lemma mstl_init_inv : forall period n s0, MSTL_init (A := R) period (Some n) = Ok s0 -> mstl_inv period n [] s0.
Proof.
  intros period n s0 H. unfold MSTL_init in H. destruct (Z.ltb_spec period 2); [discriminate|]. destruct (Z.ltb_spec n (2 * period)); [discriminate|].
  injection H as <-. split; [lia|]. split; [lia|]. split; [reflexivity|]. split; [reflexivity|]. eexists. split; [reflexivity|]. split; [reflexivity|].
  cbn [wd_items Window_init]. rewrite lastn_nil. reflexivity.
Qed.
Lemma mstl_fit_step : forall period n vs s a v, mstl_inv period n vs s -> as_partial_value a = Ok v ->
  exists s', mstl_fit a s = (Ok tt, s') /\ mstl_inv period n (vs ++ [v]) s'.
Proof.
  intros period n vs s a v (H1 & H2 & H3 & H4 & w & H5 & H6 & H7) E. unfold mstl_fit. rewrite H5, E. subst n.
  destruct (window_update_step _ v w vs H7) as (w' & EU & ES & EI). rewrite EU. eexists. split; [reflexivity|].
  split; [auto|]. split; [lia|]. split; [auto|]. split; [auto|]. exists w'. cbn. split; [auto|]. split; [auto|]. rewrite EI. reflexivity.
Qed.
Lemma mstl_run : forall stl h period n vs s, mstl_inv period n vs s -> mstl_inv period n (vs ++ stored h) (trans_run (MSTL stl) s h).
Proof.
  intros stl h. induction h as [|o h IH]; intros period n vs s H; [cbn; rewrite app_nil_r; auto|].
  unfold trans_run. cbn [fold_left stored flat_map]. rewrite app_assoc. apply IH. destruct o as [a|a|a]; cbn [trans_do tr_fit tr_transform tr_fit_transform ModifiedSTLResidualTransformer].
  - destruct (as_partial_value a) as [v|e] eqn:E.
    + destruct (mstl_fit_step _ _ _ _ _ _ H E) as (s' & E' & I). unfold exec. rewrite E'. auto.
    + rewrite app_nil_r. unfold exec, mstl_fit. rewrite E. destruct (ms_window s); auto.
  - rewrite app_nil_r. unfold exec, mstl_transform. destruct (ms_window s), (ms_wsize s); auto.
  - destruct (as_partial_value a) as [v|e] eqn:E.
    + destruct (mstl_fit_step _ _ _ _ _ _ H E) as (s' & E' & I). unfold exec, mstl_fit_transform, bind. rewrite E'. unfold gets, lift.
      destruct (latest_residual _ _ _); auto.
    + rewrite app_nil_r. unfold exec, mstl_fit_transform, bind, mstl_fit. rewrite E. destruct (ms_window s); auto.
Qed.
Theorem C48_constructor : forall period w, (exists s, MSTL_init (A := R) period w = Ok s) <->
  (2 <= period)%Z /\ (forall n, w = Some n -> (2 * period <= n)%Z).
Proof.
  intros period w. unfold MSTL_init. destruct (Z.ltb_spec period 2); [|destruct w as [k|]; [destruct (Z.ltb_spec k (2 * period))|]]; split; intros Q0.
  - destruct Q0; discriminate.
  - lia.
  - destruct Q0; discriminate.
  - destruct Q0 as [_ Q0]. specialize (Q0 k eq_refl). lia.
  - split; auto. intros k0 Q. injection Q as <-. auto.
  - eexists; reflexivity.
  - split; auto. intros k0 Q. discriminate.
  - eexists; reflexivity.
Qed.
Print Assumptions C48_constructor.
Lemma no_window_stays : forall stl h period s0, MSTL_init (A := R) period None = Ok s0 -> trans_run (MSTL stl) s0 h = s0 /\ ms_window s0 = None.
Proof.
  intros stl h period s0 H. assert (EW : ms_window s0 = None).
  { unfold MSTL_init in H. destruct (period <? 2)%Z; [discriminate|]. injection H as <-. reflexivity. }
  split; auto. induction h as [|o h IH]; auto. unfold trans_run in *. cbn [fold_left].
  replace (trans_do (MSTL stl) s0 o) with s0; auto. destruct o; cbn; unfold exec, mstl_transform, mstl_fit_transform, bind, mstl_fit; rewrite EW; auto.
Qed.
(** Every shipped state: transform_partial returns what fit_transform_partial would, and changes nothing. *)
Theorem C48_transform_previews_fit_transform : forall stl period w s0 h a, MSTL_init (A := R) period w = Ok s0 ->
  let s := trans_run (MSTL stl) s0 h in
  tr_transform (MSTL stl) a s = (eval (tr_fit_transform (MSTL stl) a) s, s).
Proof.
  intros stl period w s0 h a H s. destruct w as [n|].
  - pose proof (mstl_run stl h period n [] s0 (mstl_init_inv _ _ _ H)) as I. cbn [app] in I. fold s in I.
    cbn [tr_transform tr_fit_transform ModifiedSTLResidualTransformer]. unfold eval, mstl_transform, mstl_fit_transform, bind.
    destruct (as_partial_value a) as [v|e] eqn:E.
    + destruct (mstl_fit_step _ _ _ _ _ _ I E) as (s' & E' & I'). rewrite E'. unfold gets, lift.
      destruct I as (H1 & H2 & H3 & H4 & x & H5 & H6 & H7). destruct I' as (_ & _ & H3' & H4' & x' & H5' & H6' & H7').
      rewrite H5, H4, H3, H5', H3', H7, H7'. cbn [rbind]. unfold py_last_slice. destruct (Z.leb_spec n 0); [lia|].
      rewrite lastn_app_lastn. destruct (latest_residual _ _ _); reflexivity.
    + destruct I as (H1 & H2 & H3 & H4 & x & H5 & H6 & H7). unfold mstl_fit. rewrite H5, H4, E. reflexivity.
  - destruct (no_window_stays stl h period s0 H) as [E1 E2]. subst s. rewrite E1.
    cbn. unfold mstl_transform, eval, mstl_fit_transform, bind, mstl_fit. rewrite E2. reflexivity.
Qed.
Print Assumptions C48_transform_previews_fit_transform.
Theorem C48_without_window_partial_calls_fail : forall stl period s0 h a, MSTL_init (A := R) period None = Ok s0 ->
  let s := trans_run (MSTL stl) s0 h in
  s = s0 /\ eval (tr_fit (MSTL stl) a) s = Raise ValueError /\ eval (tr_transform (MSTL stl) a) s = Raise ValueError /\
  eval (tr_fit_transform (MSTL stl) a) s = Raise ValueError.
Proof.
  intros stl period s0 h a H s. destruct (no_window_stays stl h period s0 H) as [E1 E2]. subst s. rewrite E1. split; auto.
  cbn. unfold mstl_transform, eval, mstl_fit_transform, bind, mstl_fit. rewrite E2. auto.
Qed.
Print Assumptions C48_without_window_partial_calls_fail.
Theorem C48_rejects_exactly_non_values : forall stl period n s0 h a, MSTL_init (A := R) period (Some n) = Ok s0 ->
  let s := trans_run (MSTL stl) s0 h in
  ((exists v, single_value a v) -> eval (tr_fit (MSTL stl) a) s = Ok tt) /\
  ((forall v, ~ single_value a v) ->
     tr_fit (MSTL stl) a s = (Raise ValueError, s) /\ tr_transform (MSTL stl) a s = (Raise ValueError, s) /\ tr_fit_transform (MSTL stl) a s = (Raise ValueError, s)).
Proof.
  intros stl period n s0 h a H s. pose proof (mstl_run stl h period n [] s0 (mstl_init_inv _ _ _ H)) as I. cbn [app] in I. fold s in I. split.
  - intros (v & Hv). apply single_value_iff in Hv. destruct (mstl_fit_step _ _ _ _ _ _ I Hv) as (s' & E' & _). unfold eval. cbn. rewrite E'. reflexivity.
  - intros Hn. destruct (as_partial_value a) as [v|e] eqn:E; [apply single_value_iff in E; exfalso; eapply Hn; eauto|].
    rewrite (partial_value_err a e E) in E. destruct I as (H1 & H2 & H3 & H4 & x & H5 & H6 & H7).
    cbn. unfold mstl_transform, mstl_fit_transform, bind, mstl_fit. rewrite H5, H4, E. auto.
Qed.
Print Assumptions C48_rejects_exactly_non_values.
(** The value returned, with the seasonal component given by any (correctly sized) STL procedure. *)
Theorem C48_residual : forall stl period n s0 h a v, MSTL_init (A := R) period (Some n) = Ok s0 -> single_value a v ->
  let x := lastn (Z.to_nat n) (stored h ++ [v]) in
  let out := eval (tr_transform (MSTL stl) a) (trans_run (MSTL stl) s0 h) in
  ((Z.of_nat (length (stored h)) + 1 < 2 * period)%Z -> out = Ok (VScalar 0)) /\
  (forall seasonal, (2 * period <= Z.of_nat (length (stored h)) + 1)%Z -> stl x = Ok seasonal -> length seasonal = length x ->
     exists med, is_median med x /\ out = Ok (VScalar (v - last seasonal 0 - med))).
Proof.
  intros stl period n s0 h a v H Hv x out. pose proof (mstl_run stl h period n [] s0 (mstl_init_inv _ _ _ H)) as I. cbn [app] in I.
  apply single_value_iff in Hv. destruct I as (H1 & H2 & H3 & H4 & w & H5 & H6 & H7).
  assert (EO : out = rmap VScalar (latest_residual stl period x)).
  { unfold out, eval. cbn [tr_transform ModifiedSTLResidualTransformer]. unfold mstl_transform. rewrite H5, H4, H3, Hv. cbn [rbind fst].
    unfold py_last_slice. destruct (Z.leb_spec n 0); [lia|]. rewrite H7, lastn_app_lastn. reflexivity. }
  assert (LX : length x = Nat.min (Z.to_nat n) (length (stored h) + 1)) by (unfold x; rewrite lastn_length, app_length; reflexivity).
  rewrite EO. unfold latest_residual. split.
  - intros Q. destruct (Z.ltb_spec (Z.of_nat (length x)) (2 * period)); [reflexivity|lia].
  - intros seasonal Q ES LS. destruct (Z.ltb_spec (Z.of_nat (length x)) (2 * period)); [lia|].
    unfold transform_window. cbn [as_univariate as_array rbind]. destruct (Z.ltb_spec (Z.of_nat (length x)) (2 * period)); [lia|].
    rewrite ES. cbn [rbind]. assert (NE : x <> []) by (intros Q'; apply (f_equal (@length R)) in Q'; cbn [length] in Q'; lia).
    unfold np_zip. rewrite LS, Nat.eqb_refl. cbn [rbind]. rewrite np_median_R by auto. cbn [rbind]. exists (median_fn x). split; [apply median_fn_spec; auto|].
    unfold py_index_Z. cbn [Z.leb Z.compare]. set (k := (length x - 1)%nat).
    assert (LM : length (map (fun v0 => nsub v0 (median_fn x)) (map2 nsub x seasonal)) = length x).
    { unfold map2. rewrite !map_length, combine_length. lia. }
    rewrite LM. destruct (Z.leb_spec 0 (-1 + Z.of_nat (length x))); [|lia].
    replace (Z.to_nat (-1 + Z.of_nat (length x))) with k by lia. rewrite (py_index_nth _ _ k 0) by (rewrite LM; lia). cbn [rmap]. do 2 f_equal.
    rewrite (map2_seq _ x seasonal), map_map by auto.
    set (g := fun j => nsub (nsub (nth j x 0) (nth j seasonal 0)) (median_fn x)). rewrite (nth_indep _ 0 (g 0%nat)) by (rewrite map_length, seq_length; lia).
    rewrite map_nth, seq_nth by lia. unfold g. cbn [nsub NumR plus].
    assert (EX : nth k x 0 = v).
    { unfold x. assert (HN : exists k', Z.to_nat n = S k') by (exists (Z.to_nat n - 1)%nat; lia). destruct HN as (k' & HN).
      assert (K : k = length (lastn k' (stored h))) by (unfold k; rewrite LX, HN, lastn_length; lia).
      rewrite HN, lastn_snoc, K. apply nth_middle. }
    rewrite EX. f_equal. f_equal.
    assert (HL : forall (l : list R) d, l <> [] -> nth (length l - 1) l d = last l d).
    { clear. induction l as [|y l IH]; intros d NE; [congruence|]. destruct l as [|z l]; [reflexivity|].
      change (last (y :: z :: l) d) with (last (z :: l) d). rewrite <- (IH d) by discriminate. cbn [length].
      replace (S (S (length l)) - 1)%nat with (S (S (length l) - 1)) by lia. reflexivity. }
    unfold k. rewrite <- LS. apply HL. intros Q'. rewrite Q' in LS. simpl in LS. lia.
Qed.
Print Assumptions C48_residual.
Theorem C48_batch_residuals : forall stl period x seasonal, (2 * period <= Z.of_nat (length x))%Z -> x <> [] -> stl x = Ok seasonal -> length seasonal = length x ->
  exists med, is_median med x /\
  transform_window stl period (AInst (Arr1 x)) = Ok (map (fun i => nth i x 0 - nth i seasonal 0 - med) (seq 0 (length x))).
Proof.
  intros stl period x seasonal Q NE ES LS. exists (median_fn x). split; [apply median_fn_spec; auto|].
  unfold transform_window. cbn [as_univariate as_array rbind]. destruct (Z.ltb_spec (Z.of_nat (length x)) (2 * period)); [lia|].
  rewrite ES. cbn [rbind]. unfold np_zip. rewrite LS, Nat.eqb_refl. cbn [rbind]. rewrite np_median_R by auto. cbn [rbind]. f_equal.
  rewrite (map2_seq _ x seasonal), map_map by auto. reflexivity.
Qed.
Print Assumptions C48_batch_residuals.
Example C48_ex : exists s0, MSTL_init (A := R) 2 (Some 4%Z) = Ok s0 /\ single_value (APair (Arr2 [[7]])) 7 /\
  (4 <= length (stored [TFit (AInst (Arr1 [1%R])); TTransform (AInst (Arr1 [9%R])); TFit (AInst (Arr1 [2%R; 3%R])); TFitTransform (AInst (Arr1 [2%R])); TFit (AInst (Arr1 [3%R]))]) + 1)%nat.
Proof. eexists. split; [reflexivity|]. split; [right; reflexivity|]. cbn. lia. Qed.

(** ** C13: the shipped transformers all unwrap the pairs BaseTransformer.fit passes. *)
Definition unwraps {X A} (t : Transformer X A) : Prop := forall x st, tr_fit t (APair x) st = tr_fit t (AInst x) st.
Theorem C13_shipped_transformers_unwrap : forall stl (one two : R) mmh3 (p : shproj R) draw d pw o,
  unwraps (StreamhashProjector two one mmh3 p) /\ unwraps (RandomProjector (A := R) draw d) /\
  unwraps (InstanceStandardScaler (A := R)) /\ unwraps (InstanceUnitNormScaler (A := R) one two pw o) /\
  unwraps STD /\ unwraps (MSTL stl) /\ unwraps (IdentityScaler (A := R)).
Proof.
  intros. split; [|split; [|split; [|split; [|split; [|split]]]]]; intros x st; reflexivity.
Qed.
Print Assumptions C13_shipped_transformers_unwrap.
