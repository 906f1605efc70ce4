(** * C110: WindowedMetric around AUROCMetric. *)
From Coq Require Import List ZArith Lia Bool Reals Lra Arith.
From Verif Require Import Base Num Spec Model_Stats Model_Eval Model_Metrics P_Lists P_Stats P_Core P_Eval P_Metrics Prop_Metrics Prop_Eval.
Import ListNotations.
Open Scope R_scope.

(** ** Specification *)
Definition both (h : list (bool * R)) : Prop := positives h <> [] /\ negatives h <> [].
Definition window_auroc (b : list (bool * R)) : R := pair_wins (positives b) (negatives b).
(** A WindowedMetric(AUROCMetric, w, ignore_nonempty_last = ig) after the pairs h: the outcome of the updates, then of get(). *)
Notation WAUROC := (AUROCMetric (K := Empty_set) bool_dec (roc_auc_score (A := R))).
Definition windowed (ig : bool) (w : nat) (h : list (bool * R)) : res R :=
  rbind (WindowedMetric_init WAUROC (Z.of_nat w) ig []) (fun s0 =>
  let (r, s) := iterM (fun q => WindowedMetric_update WAUROC (fst q) (snd q)) h s0 in
  rbind r (fun _ => eval (WindowedMetric_get WAUROC) s)).
Definition complete_windows (w : nat) (h : list (bool * R)) : list (list (bool * R)) := map (fun i => block w i h) (seq 0 (length h / w)).
Definition last_window (w : nat) (h : list (bool * R)) : list (bool * R) := skipn (length h / w * w) h.

Lemma both_dec : forall h, {both h} + {positives h = [] \/ negatives h = []}.
Proof. intros h. unfold both. destruct (positives h); [right; auto|]. destruct (negatives h); [right; auto|]. left. split; discriminate. Qed.
Lemma kw_nil : forall (X : Type) (b : bool) (k : list X), k = [] -> (if b then k else []) = [].
Proof. intros X [] k ->; auto. Qed.
Lemma total_w : total_updates WAUROC.
Proof. intros y p s. eexists. reflexivity. Qed.
Lemma vals_of : forall w h i v, Forall both (complete_windows w h) -> nth_error (map window_auroc (complete_windows w h)) i = Some v -> metric_value WAUROC (if (i =? 0)%nat then [] else []) (block w i h) = Ok v.
Proof.
  intros w h i v B E. unfold complete_windows in *. rewrite map_map, nth_error_map in E. destruct (nth_error (seq 0 (length h / w)) i) as [j|] eqn:Ej; [|discriminate]. injection E as <-.
  assert (Li : (i < length h / w)%nat) by (rewrite <- (seq_length (length h / w) 0); apply nth_error_Some; rewrite Ej; discriminate). assert (j = i). { apply (nth_error_nth _ _ 0%nat) in Ej. rewrite seq_nth in Ej; auto. } subst j.
  rewrite kw_nil by auto. rewrite Forall_map, Forall_forall in B. destruct (B i) as [B1 B2]; [apply in_seq; lia|]. exact (C102_auroc _ B1 B2).
Qed.
(** Every complete window has both classes: the result is the mean of the AUROCs of the windows. *)
Theorem C110_mean_of_windows : forall ig w h, (1 <= w)%nat -> Forall both (complete_windows w h) ->
  windowed ig w h = if (length h <? w)%nat then AUROC h
                    else if ig || (length h mod w =? 0)%nat then Ok (mean (map window_auroc (complete_windows w h)))
                    else rmap (fun v => mean (map window_auroc (complete_windows w h) ++ [v])) (AUROC (last_window w h)).
Proof.
  intros ig w h Hw B. unfold windowed. cbn [WindowedMetric_init rmap rbind me_init WAUROC SKMetric]. set (s0 := mkWM _ _ _ _ _ _).
  destruct (C30_windowed_metric bool R Empty_set WAUROC ig w [] (mkSK [] []) s0 h (map window_auroc (complete_windows w h))) as (s & Es & A1 & A2 & A3); auto.
  - apply total_w.
  - unfold complete_windows. rewrite !map_length, seq_length. reflexivity.
  - intros i v E. apply vals_of; auto.
  - rewrite Es. cbn [rbind]. destruct (Nat.ltb_spec (length h) w); [apply A1; auto|]. destruct ig; [apply A2; auto|]. destruct (Nat.eqb_spec (length h mod w) 0); [apply A2; auto|]. apply A3; auto.
Qed.
Print Assumptions C110_mean_of_windows.

(** The first complete window with one class only makes its last update raise. *)
Theorem C110_one_class_window : forall ig w h i, (1 <= w)%nat -> (i < length h / w)%nat -> (forall j, (j < i)%nat -> both (block w j h)) -> positives (block w i h) = [] \/ negatives (block w i h) = [] ->
  exists s0 s1 q, WindowedMetric_init WAUROC (Z.of_nat w) ig [] = Ok s0 /\
    iterM (fun q => WindowedMetric_update WAUROC (fst q) (snd q)) (firstn (i * w + w - 1) h) s0 = (Ok tt, s1) /\
    nth_error h (i * w + w - 1) = Some q /\ eval (WindowedMetric_update WAUROC (fst q) (snd q)) s1 = Raise ValueError.
Proof.
  intros ig w h i Hw Li Hb H1. set (n := (i * w + w - 1)%nat). set (h1 := firstn n h).
  pose proof (Nat.div_mod (length h) w ltac:(lia)) as D. assert (Ln : (n < length h)%nat) by (unfold n; nia).
  assert (L1 : length h1 = n) by (unfold h1; rewrite firstn_length; lia). assert (D1 : (length h1 / w = i)%nat) by (rewrite L1; symmetry; apply (Nat.div_unique _ _ _ (w - 1)); unfold n; nia).
  assert (BP : forall j, (j < i)%nat -> block w j h1 = block w j h). { intros j Hj. unfold h1. apply block_of_prefix. unfold n. nia. }
  assert (B : Forall both (complete_windows w h1)). { unfold complete_windows. rewrite D1, Forall_map, Forall_forall. intros j Ij. apply in_seq in Ij. rewrite BP by lia. apply Hb. lia. }
  set (s0 := mkWM ig (Z.of_nat w) (mkSK [] []) (mt_init AverageMeter) 0 1 : wmst (skst bool R) R).
  destruct (wm_run WAUROC total_w ig w [] (mkSK [] []) s0 Hw eq_refl eq_refl h1 (map window_auroc (complete_windows w h1))) as (s1 & E1 & I).
  { unfold complete_windows. rewrite !map_length, seq_length. reflexivity. }
  { intros j v E. apply vals_of; auto. }
  destruct (nth_error h n) as [[y p]|] eqn:En; [|apply nth_error_None in En; lia]. exists s0, s1, (y, p). split; [reflexivity|]. split; [exact E1|]. split; [auto|]. cbn [fst snd].
  destruct I as [I1 I2 I3 I4 I5 I6 (m0 & E0 & R0)]. rewrite I5, D1 in R0.
  assert (m0 = mkSK [] []) by (destruct (map window_auroc (complete_windows w h1)); inversion E0; auto). subst m0. unfold AUROCMetric in R0. rewrite sk_run in R0. cbn [sk_true sk_pred app] in R0. injection R0 as R0.
  assert (EB : block w i h = skipn (i * w) h1 ++ [(y, p)]).
  { destruct (nth_error_split _ _ En) as (l1 & l2 & Eh & Ll). assert (F1 : h1 = l1) by (unfold h1; rewrite Eh, firstn_app, Ll, Nat.sub_diag, firstn_all2 by lia; cbn [firstn]; apply app_nil_r). rewrite F1. unfold block. rewrite Eh.
    rewrite skipn_app, Ll. replace (i * w - n)%nat with 0%nat by (unfold n; nia). cbn [skipn]. rewrite firstn_app, skipn_length, Ll. rewrite firstn_all2 by (rewrite skipn_length, Ll; unfold n; lia). replace (w - (n - i * w))%nat with 1%nat by (unfold n; lia). reflexivity. }
  destruct (C32_failure_effect bool R Empty_set WAUROC s1 y p (mkSK (map fst (block w i h)) (map snd (block w i h))) ValueError (mkSK (map fst (block w i h)) (map snd (block w i h)))) as (s' & E' & _).
  - rewrite I2. lia.
  - assert (G : forall ms : me_state WAUROC, mkSK (map fst (skipn (i * w) h1)) (map snd (skipn (i * w) h1)) = ms -> me_update WAUROC y p ms = (Ok tt, mkSK (map fst (block w i h)) (map snd (block w i h)))) by (intros ms <-; rewrite EB, !map_app; reflexivity). exact (G _ R0).
  - cbn [me_get WAUROC SKMetric]. unfold bind, gets, lift. cbn [sk_true sk_pred]. unfold auroc_evaluate. rewrite nodup_one by auto. reflexivity.
  - rewrite I3, I2, L1. replace (Z.of_nat n + 1)%Z with (Z.of_nat (S i) * Z.of_nat w)%Z by (unfold n; nia). apply Z_mod_mult.
  - unfold eval. rewrite E'. reflexivity.
Qed.
Print Assumptions C110_one_class_window.
Theorem C110_updates_succeed_iff : forall ig w h s0, (1 <= w)%nat -> WindowedMetric_init WAUROC (Z.of_nat w) ig [] = Ok s0 ->
  (fst (iterM (fun q => WindowedMetric_update WAUROC (fst q) (snd q)) h s0) = Ok tt <-> Forall both (complete_windows w h)).
Proof.
  intros ig w h s0 Hw E0. split.
  - intros E. apply Forall_forall. intros b Ib. unfold complete_windows in Ib. apply in_map_iff in Ib. destruct Ib as (i0 & <- & Ii). apply in_seq in Ii. destruct Ii as [_ Ii]. cbn in Ii.
    destruct (both_dec (block w i0 h)) as [|NB]; auto. exfalso.
    assert (M : exists i, (i < length h / w)%nat /\ (positives (block w i h) = [] \/ negatives (block w i h) = []) /\ forall j, (j < i)%nat -> both (block w j h)).
    { revert Ii NB. clear. induction i0 as [i0 IH] using (well_founded_induction lt_wf). intros Ii NB.
      destruct (Forall_Exists_dec both (fun b => match both_dec b with left B => left B | right N => right (fun B => match N with or_introl e => proj1 B e | or_intror e => proj2 B e end) end) (map (fun j => block w j h) (seq 0 i0))) as [F|X].
      - exists i0. split; auto. split; auto. intros j Hj. rewrite Forall_map, Forall_forall in F. apply F. apply in_seq. lia.
      - apply Exists_exists in X. destruct X as (b & Ib & NX). apply in_map_iff in Ib. destruct Ib as (j & <- & Ij). apply in_seq in Ij. apply (IH j); try lia. destruct (both_dec (block w j h)); [contradiction|auto]. }
    destruct M as (i & Li & H1 & Hb). destruct (C110_one_class_window ig w h i Hw Li Hb H1) as (s0' & s1 & q & E0' & E1 & En & Ef). rewrite E0 in E0'. injection E0' as <-.
    destruct (nth_error_split _ _ En) as (l1 & l2 & Eh & Ll). rewrite Eh in E, E1. rewrite firstn_app, Ll, Nat.sub_diag, firstn_all2 in E1 by lia. cbn [firstn] in E1. rewrite app_nil_r in E1.
    rewrite iterM_app in E. unfold bind in E. rewrite E1 in E. cbn [iterM] in E. unfold bind in E. unfold eval in Ef. destruct (WindowedMetric_update WAUROC (fst q) (snd q) s1) as [[[]|e] s2]; cbn in Ef, E; discriminate.
  - intros B. destruct (wm_run WAUROC total_w ig w [] (mkSK [] []) s0 Hw eq_refl E0 h (map window_auroc (complete_windows w h))) as (s & E & _).
    { unfold complete_windows. rewrite !map_length, seq_length. reflexivity. }
    { intros j v Ej. apply vals_of; auto. }
    rewrite E. reflexivity.
Qed.
Print Assumptions C110_updates_succeed_iff.
(** With windows of one pair the first update raises. *)
Theorem C110_windows_of_one : forall ig q s0, WindowedMetric_init WAUROC 1 ig [] = Ok s0 -> eval (WindowedMetric_update WAUROC (fst q) (snd q)) s0 = Raise ValueError.
Proof.
  intros ig [y p] s0 E. destruct (C110_one_class_window ig 1 [(y, p)] 0) as (s0' & s1 & q' & E0 & E1 & En & Ef); try (cbn; lia).
  - destruct y; [right|left]; reflexivity.
  - change (Z.of_nat 1) with 1%Z in E0. rewrite E in E0. injection E0 as <-. cbn in E1, En. injection E1 as <-. injection En as <-. exact Ef.
Qed.
Print Assumptions C110_windows_of_one.

(** ** Windowed against overall *)
Lemma In_block : forall A w i (l : list A) x, In x (block w i l) -> In x l.
Proof.
  intros A w i l x H. unfold block in H. rewrite <- (firstn_skipn (i * w) l). apply in_or_app. right. rewrite <- (firstn_skipn w (skipn (i * w) l)). apply in_or_app. left. exact H.
Qed.
Lemma perfect_part : forall h b, (forall a c, In (true, a) h -> In (false, c) h -> c < a) -> both b -> incl b h -> AUROC b = Ok 1.
Proof.
  intros h b P [B1 B2] I. rewrite C102_auroc by auto. f_equal. pose proof (C102_auroc_range b _ (C102_auroc b B1 B2)) as (_ & R1 & _). apply R1. intros a c Ia Ic. apply P; apply I; auto.
Qed.
Lemma mean_ones : forall l, l <> [] -> Forall (eq 1) l -> mean l = 1.
Proof. intros l N F. unfold mean, Rlen. replace (Rsum l) with (INR (length l)); [field; apply not_0_INR; destruct l; [congruence|cbn; lia]|]. clear N. induction F as [|x l <- F IH]; [reflexivity|]. change (Rsum (1 :: l)) with (1 + Rsum l). cbn [length]. rewrite S_INR, IH. ring. Qed.
(** A perfect overall ranking is perfect in every window. *)
Theorem C110_perfect_overall : forall ig w h, (1 <= w)%nat -> AUROC h = Ok 1 -> Forall both (complete_windows w h) -> ((w <= length h)%nat -> ig = true \/ length h mod w = 0%nat \/ both (last_window w h)) -> windowed ig w h = Ok 1.
Proof.
  intros ig w h Hw E B HL. destruct (C102_auroc_range h 1 E) as (_ & [P _] & _). specialize (P eq_refl). rewrite C110_mean_of_windows by auto.
  destruct (Nat.ltb_spec (length h) w) as [L|L]; auto. specialize (HL L).
  assert (F : Forall (eq 1) (map window_auroc (complete_windows w h))).
  { rewrite Forall_map, Forall_forall. intros b Ib. pose proof B as B'. rewrite Forall_forall in B'. destruct (B' b Ib) as [B1 B2]. assert (AUROC b = Ok 1). { apply (perfect_part h); auto. unfold complete_windows in Ib. apply in_map_iff in Ib. destruct Ib as (i & <- & _). intros x. apply In_block. }
    rewrite C102_auroc in H by auto. injection H. auto. }
  assert (N : map window_auroc (complete_windows w h) <> []). { unfold complete_windows. assert (Q : (1 <= length h / w)%nat) by (apply Nat.div_le_lower_bound; lia). destruct (length h / w)%nat; [lia|discriminate]. }
  destruct (ig || (length h mod w =? 0)%nat) eqn:G; [rewrite mean_ones by auto; reflexivity|]. apply orb_false_iff in G as [-> G]. apply Nat.eqb_neq in G. destruct HL as [HL|[HL|HL]]; try congruence.
  rewrite (perfect_part h) by (auto; intros x I; unfold last_window in I; rewrite <- (firstn_skipn (length h / w * w) h); apply in_or_app; right; exact I).
  cbn [rmap]. rewrite mean_ones; auto; [intros Q; apply app_eq_nil in Q; destruct Q; discriminate|]. apply Forall_app. split; auto.
Qed.
Print Assumptions C110_perfect_overall.
(** Not conversely: two windows of w pairs, each ranked perfectly, and an overall AUROC of (2w - 1) / w^2. *)
Definition drifting (w : nat) : list (bool * R) := (repeat (true, 1) (w - 1) ++ [(false, 0)]) ++ repeat (false, 2) (w - 1) ++ [(true, 3)].
Lemma filter_repeat : forall A (f : A -> bool) a n, filter f (repeat a n) = if f a then repeat a n else [].
Proof. intros A f a n. induction n as [|n IH]; cbn; [destruct (f a); auto|]. rewrite IH. destruct (f a); reflexivity. Qed.
Lemma map_repeat2 : forall A B (f : A -> B) a n, map f (repeat a n) = repeat (f a) n.
Proof. intros. induction n; cbn; congruence. Qed.
Lemma Rsum_repeat2 : forall u k, Rsum (repeat u k) = INR k * u.
Proof. induction k; [cbn; ring|]. cbn [repeat]. change (Rsum (u :: repeat u k)) with (u + Rsum (repeat u k)). rewrite IHk, S_INR. ring. Qed.
Lemma Rsum_app3 : forall l l', Rsum (l ++ l') = Rsum l + Rsum l'.
Proof. induction l as [|a l IH]; intros l'; cbn [app]; [change (Rsum []) with 0; ring|]. change (Rsum (a :: l ++ l')) with (a + Rsum (l ++ l')). change (Rsum (a :: l)) with (a + Rsum l). rewrite IH. ring. Qed.
Ltac beat := unfold beats; repeat match goal with |- context [Rlt_dec ?a ?b] => destruct (Rlt_dec a b); try lra | |- context [Req_EM_T ?a ?b] => destruct (Req_EM_T a b); try lra end.
Theorem C110_windowed_perfect_refuted : forall ig w, (2 <= w)%nat -> windowed ig w (drifting w) = Ok 1 /\ AUROC (drifting w) = Ok ((2 * INR w - 1) / (INR w * INR w)).
Proof.
  intros ig w W. assert (W' : 2 <= INR w) by (apply (le_INR 2); auto). assert (WM : INR (w - 1) = INR w - 1) by (rewrite minus_INR by lia; reflexivity).
  set (b1 := repeat (true, 1) (w - 1) ++ [(false, 0)]). set (b2 := repeat (false, 2) (w - 1) ++ [(true, 3)]).
  assert (L1 : length b1 = w) by (unfold b1; rewrite app_length, repeat_length; cbn; lia). assert (L2 : length b2 = w) by (unfold b2; rewrite app_length, repeat_length; cbn; lia).
  assert (P1 : positives b1 = repeat 1 (w - 1)) by (unfold positives, b1; rewrite filter_app, filter_repeat; cbn [fst filter]; rewrite app_nil_r, map_repeat2; reflexivity).
  assert (N1 : negatives b1 = [0]) by (unfold negatives, b1; rewrite filter_app, filter_repeat; reflexivity).
  assert (P2 : positives b2 = [3]) by (unfold positives, b2; rewrite filter_app, filter_repeat; reflexivity).
  assert (N2 : negatives b2 = repeat 2 (w - 1)) by (unfold negatives, b2; rewrite filter_app, filter_repeat; cbn [fst negb filter]; rewrite app_nil_r, map_repeat2; reflexivity).
  change (drifting w) with (b1 ++ b2). assert (NR : forall u : R, repeat u (w - 1) <> []) by (intros u; destruct (w - 1)%nat eqn:Q; [lia|discriminate]).
  assert (Z1 : beats 1 0 = 1) by beat. assert (Z2 : beats 3 2 = 1) by beat. assert (Z3 : beats 1 2 = 0) by beat. assert (Z4 : beats 3 0 = 1) by beat.
  assert (W1 : window_auroc b1 = 1). { unfold window_auroc, pair_wins. rewrite P1, N1. cbn [map]. rewrite map_repeat2, Z1, Rsum_repeat2. unfold Rlen. rewrite repeat_length. change (Rsum [INR (w - 1) * 1]) with (INR (w - 1) * 1 + 0). cbn [length INR]. rewrite WM. field. lra. }
  assert (W2 : window_auroc b2 = 1). { unfold window_auroc, pair_wins. rewrite P2, N2. rewrite map_repeat2. cbn [map]. rewrite Rsum_repeat2, Z2. unfold Rlen. rewrite repeat_length. change (Rsum [1]) with (1 + 0). cbn [length INR]. rewrite WM. field. lra. }
  assert (DV : (length (b1 ++ b2) / w = 2)%nat) by (rewrite app_length, L1, L2; symmetry; apply (Nat.div_unique _ _ _ 0); lia). assert (DM : (length (b1 ++ b2) mod w = 0)%nat) by (rewrite app_length, L1, L2; symmetry; apply (Nat.mod_unique _ _ 2 0); lia).
  assert (C : complete_windows w (b1 ++ b2) = [b1; b2]).
  { unfold complete_windows. rewrite DV. cbn [seq map]. unfold block. f_equal; [|f_equal].
    - cbn [Nat.mul skipn]. rewrite firstn_app, L1, Nat.sub_diag, firstn_all2 by lia. apply app_nil_r.
    - rewrite Nat.mul_1_l, skipn_app, L1, Nat.sub_diag, skipn_all2 by lia. cbn [skipn app]. apply firstn_all2. lia. }
  split.
  - rewrite C110_mean_of_windows; [|lia|].
    + rewrite DM. destruct (Nat.ltb_spec (length (b1 ++ b2)) w); [rewrite app_length in *; lia|]. rewrite orb_true_r, C. cbn [map]. rewrite W1, W2, mean_ones; auto. discriminate.
    + rewrite C. repeat constructor; rewrite ?P1, ?N1, ?P2, ?N2; auto; discriminate.
  - assert (PP : positives (b1 ++ b2) = repeat 1 (w - 1) ++ [3]) by (unfold positives in *; rewrite filter_app, map_app, P1, P2; reflexivity).
    assert (NN : negatives (b1 ++ b2) = [0] ++ repeat 2 (w - 1)) by (unfold negatives in *; rewrite filter_app, map_app, N1, N2; reflexivity).
    rewrite C102_auroc; rewrite ?PP, ?NN; [|intros Q; apply app_eq_nil in Q; destruct Q; discriminate|discriminate]. f_equal. unfold pair_wins. cbn [app map]. rewrite map_repeat2. rewrite !map_app, !map_repeat2, Z1, Z3. cbn [map]. rewrite Z2, Z4.
    match goal with |- context [Rsum (?a :: ?l)] => change (Rsum (a :: l)) with (a + Rsum l) end. rewrite Rsum_repeat2, !Rsum_app3, !Rsum_repeat2. change (Rsum [1]) with (1 + 0). unfold Rlen. rewrite app_length. cbn [length]. rewrite !repeat_length, WM.
    replace (INR (w - 1 + 1)) with (INR w) by (f_equal; lia). replace (INR (S (w - 1))) with (INR w) by (f_equal; lia). field. lra.
Qed.
Print Assumptions C110_windowed_perfect_refuted.
Example C110_ex : windowed true 2 [(true, 5); (false, 3); (false, 4); (true, 4); (true, 1)] = Ok (3 / 4) /\ windowed true 2 [(true, 5); (false, 3); (true, 4); (true, 4)] = Raise ValueError.
Proof.
  split.
  - rewrite C110_mean_of_windows; [|lia|]; unfold complete_windows; cbn; [|repeat constructor; discriminate]. unfold window_auroc, pair_wins, positives, negatives, mean, Rlen. cbn. f_equal.
    assert (beats 5 3 = 1) by beat. assert (beats 4 4 = 1 / 2) by beat. rewrite H, H0. lra.
  - unfold windowed. destruct (C110_one_class_window true 2 [(true, 5); (false, 3); (true, 4); (true, 4)] 1) as (s0 & s1 & q & E0 & E1 & En & Ef); try (cbn; lia).
    + intros j Hj. destruct j; [|lia]. split; discriminate.
    + right. reflexivity.
    + rewrite E0. cbn [rbind]. change [(true, 5); (false, 3); (true, 4); (true, 4)] with (firstn (1 * 2 + 2 - 1) [(true, 5); (false, 3); (true, 4); (true, 4)] ++ [(true, 4)]). rewrite iterM_app. unfold bind. rewrite E1. cbn in En. injection En as <-.
      cbn [iterM]. unfold bind. unfold eval in Ef. destruct (WindowedMetric_update WAUROC _ _ s1) as [r s2]. cbn in Ef. subst r. reflexivity.
Qed.
