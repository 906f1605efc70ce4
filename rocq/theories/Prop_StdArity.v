(** * C124: SeasonalTrendDecomposer and an instance with another number of features (exact arithmetic). *)
From Coq Require Import List ZArith Lia Bool Arith.
From Coq Require Import Reals Lra.
From Verif Require Import Base Num Spec Model_Stats Model_Utils Model_Core Model_Post Model_Trans P_Lists P_Stats P_Utils P_Core P_Post P_Trans Prop_Trans Prop_Season.
Import ListNotations.
Open Scope R_scope.

Lemma nth_built : forall (g : nat -> R) n j, (j < n)%nat -> nth j (map g (seq 0 n)) 0 = g j.
Proof. intros g n j Hj. rewrite (nth_indep _ 0 (g 0%nat)) by (rewrite map_length, seq_length; lia). rewrite map_nth, seq_nth by lia. reflexivity. Qed.
Section Width.
Variables (L W n : nat).
Notation wide := (wide n).
(** ** Transforming *)
Lemma seasonal_form : forall xs s p, STDRel L W n xs s -> st_sums s <> None -> (p < L)%nat ->
  exists q, std_seasonal s p = Ok q /\ (q = None /\ (forall j, seasonal_of L W xs p j = 0) \/ q = Some (map (seasonal_of L W xs p) (seq 0 n))).
Proof.
  intros xs s p [ES ET EW EN EF E0 E1] NS Hp. destruct (st_sums s) as [m|] eqn:EM; [|congruence].
  destruct (E1 m eq_refl) as (Lm & Lc & HP). destruct (HP p Hp) as [HC HM]. unfold std_seasonal.
  rewrite (py_index_nth _ _ p 0%Z) by lia. cbn [rbind]. rewrite HC, EM, (py_index_nth _ m p []) by lia. cbn [rbind]. rewrite HM, map_map.
  destruct (Z.eqb_spec (Z.of_nat (length (hits L W p (length xs)))) 0) as [Q|Q].
  - exists None. split; auto. left. split; auto. intros j. unfold seasonal_of. destruct (hits L W p (length xs)); [reflexivity|simpl in Q; lia].
  - eexists. split; [reflexivity|]. right. f_equal. apply map_ext. intros j. unfold seasonal_of.
    cbn [ndiv nofZ NumR]. rewrite INR_Zof_nat. destruct (hits L W p (length xs)) as [|h hs]; [simpl in Q; lia|].
    unfold average, mean, Rlen. cbn [map length]. rewrite map_length. reflexivity.
Qed.
Lemma zip_one_l : forall (g : R -> R -> R) v b, np_zip g [v] b = Ok (map (g v) b).
Proof.
  intros g v b. unfold np_zip. destruct (Nat.eqb_spec (length [v]) (length b)) as [E|E]; auto. destruct b as [|y [|]]; try discriminate. reflexivity.
Qed.
Lemma zip_one_r : forall (g : R -> R -> R) a y, np_zip g a [y] = Ok (map (fun x => g x y) a).
Proof.
  intros g a y. unfold np_zip. destruct (Nat.eqb_spec (length a) (length [y])) as [E|E]. { destruct a as [|x [|]]; try discriminate. reflexivity. } destruct a as [|x [|z a]]; [reflexivity|cbn in E; lia|reflexivity].
Qed.
Lemma zip_bad : forall (g : R -> R -> R) a b, length a <> length b -> length a <> 1%nat -> length b <> 1%nat -> np_zip g a b = Raise ValueError.
Proof.
  intros g a b H Ha Hb. unfold np_zip. destruct (Nat.eqb_spec (length a) (length b)); [lia|]. destruct a as [|x [|]]; [|cbn in Ha; lia|]; destruct b as [|y [|]]; try reflexivity; cbn in Hb; lia.
Qed.
End Width.
(** What transform_partial does with an instance that has another number of features than the n of the stream: one value is
    subtracted from n trends; a stream of single values lends its one trend to every feature; anything else is rejected. *)
Theorem C124_transform : forall L W n s0 h a, std_start L W s0 -> all_wide n h -> learned h <> [] -> length (as_array a) <> n ->
  let xs := learned h in let trend := trend_of W xs in let season := seasonal_of L W xs (length xs mod L) in
  eval (tr_transform STD a) (trans_run STD s0 h) =
  match as_array a with
  | [v] => Ok (VArray (map (fun j => v - trend j - season j) (seq 0 n)))
  | _ => if (n =? 1)%nat then Ok (VArray (map (fun v => v - trend 0%nat - season 0%nat) (as_array a))) else Raise ValueError
  end.
Proof.
  intros L W n s0 h a H F NE Ha xs trend season. destruct (std_start_inv L W n s0 H) as (HL & HW & R0). pose proof (run_rel L W n HL HW h [] s0 R0 F) as R1. cbn [app] in R1. fold xs in R1. fold xs in NE. set (s := trans_run STD s0 h) in *. clearbody xs.
  assert (NS : st_sums s <> None) by (intros Q; apply NE, (sr_some _ _ _ _ _ R1), Q). assert (En : forall x, std_ensure x s = (Ok tt, s)). { intros x. unfold std_ensure, modify. destruct (st_sums s); [reflexivity|congruence]. }
  assert (Hp : (length xs mod L < L)%nat) by (apply Nat.mod_upper_bound; lia).
  destruct (seasonal_form L W n xs s (length xs mod L) R1 NS Hp) as (q & EQ & HQ). fold season in HQ.
  assert (Ht : std_trend (st_window s) = Ok (Some (map trend (seq 0 n)))). { rewrite (sr_window _ _ _ _ _ R1), (trend_rel L W n HL HW) by apply (sr_wide _ _ _ _ _ R1). destruct xs; [congruence|reflexivity]. }
  assert (E : eval (tr_transform STD a) s = rbind (np_zip nsub (as_array a) (map trend (seq 0 n))) (fun d => rmap VArray (sub_opt d q))).
  { unfold eval. cbn [tr_transform SeasonalTrendDecomposer]. unfold std_transform, bind. rewrite En. unfold gets, lift, ret. rewrite (std_phase_R L W n xs s R1), Ht. cbn [sub_opt]. destruct (np_zip nsub (as_array a) (map trend (seq 0 n))) as [d|e]; [|reflexivity]. rewrite EQ. cbn [rbind]. destruct (sub_opt d q); reflexivity. }
  rewrite E. clear E. set (x := as_array a) in *. clearbody x. assert (Cases : (exists v, x = [v]) \/ length x <> 1%nat). { destruct x as [|v [|]]; [right; cbn; lia|left; eauto|right; cbn; lia]. }
  destruct Cases as [[v ->]|N1].
  - rewrite zip_one_l. cbn [rbind]. rewrite map_map. destruct HQ as [[-> H0]| ->].
    + cbn [sub_opt rmap rbind]. do 2 f_equal. apply map_ext. intros j. rewrite H0. cbn [nsub NumR]. ring.
    + unfold sub_opt. rewrite np_zip_map. reflexivity.
  - replace (match x with [v] => Ok (VArray (map (fun j => v - trend j - season j) (seq 0 n))) | _ => if (n =? 1)%nat then Ok (VArray (map (fun v => v - trend 0%nat - season 0%nat) x)) else Raise ValueError end)
      with (if (n =? 1)%nat then Ok (VArray (map (fun v => v - trend 0%nat - season 0%nat) x)) else Raise ValueError) by (destruct x as [|u [|]]; [reflexivity|cbn in N1; lia|reflexivity]).
    destruct (Nat.eqb_spec n 1) as [-> | Nn].
    + cbn [seq map]. rewrite zip_one_r. cbn [rbind]. destruct HQ as [[-> H0]| ->].
      * cbn [sub_opt rmap rbind]. do 2 f_equal. apply map_ext. intros v. rewrite H0. cbn [nsub NumR]. ring.
      * cbn [sub_opt seq map]. rewrite zip_one_r. cbn [rmap rbind]. rewrite map_map. reflexivity.
    + rewrite zip_bad; [reflexivity|rewrite map_length, seq_length; auto|auto|rewrite map_length, seq_length; auto].
Qed.
Print Assumptions C124_transform.

(** ** Fitting *)
Section Fit.
Variables (L W n : nat).
Hypothesis (HL : (1 <= L)%nat) (HW : (2 <= W)%nat).
Notation wide := (wide n).
Definition sane (s : stdst R) (m : list (list R)) : Prop := st_season s = Z.of_nat L /\ st_trendw s = Z.of_nat W /\ (0 <= st_seen s)%Z /\ st_sums s = Some m /\ length m = L /\ (forall p, (p < L)%nat -> length (nth p m []) = n) /\ length (st_counts s) = L /\ forall p, (0 <= nth p (st_counts s) 0)%Z.
Definition broken (zs : list (list R)) (s : stdst R) : Prop := exists ys bad, st_window s = ys ++ bad :: zs /\ Forall wide ys /\ Forall wide zs /\ length bad <> n /\ (length ys + S (length zs) <= W)%nat /\ ys ++ zs <> [].
Lemma mixed_trend : forall ys bad zs, Forall wide ys -> Forall wide zs -> length bad <> n -> ys ++ zs <> [] -> std_trend (A := R) (ys ++ bad :: zs) = Raise ValueError.
Proof.
  intros ys bad zs Fy Fz Hb NE. destruct ys as [|y ys].
  - destruct zs as [|z zs]; [cbn in NE; congruence|]. cbn [app std_trend forallb]. apply Forall_inv in Fz. unfold Prop_Season.wide in Fz. destruct (Nat.eqb_spec (length z) (length bad)); [lia|reflexivity].
  - cbn [app std_trend]. apply Forall_inv in Fy. unfold Prop_Season.wide in Fy. rewrite forallb_app. cbn [forallb]. destruct (Nat.eqb_spec (length bad) (length y)); [lia|]. cbn [andb]. rewrite andb_false_r. reflexivity.
Qed.
Definition with_window (s : stdst R) (w : list (list R)) : stdst R := mkSTD (st_season s) (st_trendw s) w (st_sums s) (st_counts s) (st_seen s).
Lemma ensure_sane : forall s m x, sane s m -> std_ensure x s = (Ok tt, s).
Proof. intros s m x (_ & _ & _ & E & _). unfold std_ensure, modify. rewrite E. reflexivity. Qed.
(** An append that leaves instances of different widths in the window fails, and only the window has changed. *)
Lemma fit_fails : forall s m a, sane s m -> std_trend (deque_append (Z.of_nat W) (as_array a) (st_window s)) = Raise ValueError ->
  std_fit a s = (Raise ValueError, with_window s (deque_append (Z.of_nat W) (as_array a) (st_window s))) /\ std_fit_transform a s = (Raise ValueError, with_window s (deque_append (Z.of_nat W) (as_array a) (st_window s))).
Proof.
  intros s m a S0 E. pose proof S0 as (ES & ET & _). unfold std_fit, std_fit_transform, std_absorb, bind. rewrite (ensure_sane s m _ S0). unfold gets, modify, lift. cbn [st_window st_trendw]. rewrite ET, E. unfold with_window. rewrite ET. split; reflexivity.
Qed.
Lemma append_broken : forall s zs x, broken zs s -> wide x -> (S (length zs) < W)%nat -> broken (zs ++ [x]) (with_window s (deque_append (Z.of_nat W) x (st_window s))).
Proof.
  intros s zs x (ys & bad & Ew & Fy & Fz & Hb & Ll & NE) Hx Hk. unfold broken, with_window. cbn [st_window]. unfold deque_append. rewrite Ew. rewrite app_length. cbn [length]. destruct (Z.ltb_spec (Z.of_nat (length ys + S (length zs))) (Z.of_nat W)) as [Hl|Hl].
  - exists ys, bad. rewrite <- app_assoc. split; auto. split; auto. split; [apply Forall_app; auto|]. split; auto. split; [rewrite app_length; cbn [length]; lia|]. destruct ys; [destruct zs|]; discriminate.
  - destruct ys as [|y ys]; [cbn [length] in *; lia|]. exists ys, bad. cbn [app skipn]. rewrite <- app_assoc. split; auto. split; [apply Forall_inv_tail in Fy; auto|]. split; [apply Forall_app; auto|]. split; auto. split; [rewrite app_length; cbn [length] in *; lia|]. destruct ys; [destruct zs|]; discriminate.
Qed.
Lemma broken_raises : forall s zs, broken zs s -> std_trend (st_window s) = Raise ValueError.
Proof. intros s zs (ys & bad & -> & Fy & Fz & Hb & _ & NE). apply mixed_trend; auto. Qed.
Lemma with_self : forall s : stdst R, with_window s (st_window s) = s.
Proof. intros []. reflexivity. Qed.
Lemma broken_step : forall s m zs (o : top (list R)), sane s m -> broken zs s -> wide (op_arg o) -> (length (zs ++ learned [o]) < W)%nat -> exists w, std_outcome s o = Raise ValueError /\ trans_do STD s o = with_window s w /\ broken (zs ++ learned [o]) (with_window s w).
Proof.
  intros s m zs o S0 B Hx Hk. rewrite app_length in Hk. destruct o as [a|a|a]; cbn [op_arg std_outcome trans_do learned flat_map app length] in *.
  - pose proof (append_broken s zs (as_array a) B Hx ltac:(lia)) as B'. destruct (fit_fails s m a S0 (broken_raises _ _ B')) as [E _]. eexists. unfold eval, exec. cbn [tr_fit SeasonalTrendDecomposer]. rewrite E. cbn [fst snd rmap rbind]. split; [reflexivity|]. split; [reflexivity|]. exact B'.
  - exists (st_window s). unfold eval, exec. cbn [tr_transform SeasonalTrendDecomposer]. unfold std_transform, bind. rewrite (ensure_sane s m _ S0). unfold gets, lift. rewrite (broken_raises _ _ B). cbn [fst snd]. rewrite with_self, app_nil_r. auto.
  - pose proof (append_broken s zs (as_array a) B Hx ltac:(lia)) as B'. destruct (fit_fails s m a S0 (broken_raises _ _ B')) as [_ E]. eexists. unfold eval, exec. cbn [tr_fit_transform SeasonalTrendDecomposer]. rewrite E. cbn [fst snd]. split; [reflexivity|]. split; [reflexivity|]. exact B'.
Qed.
Lemma sane_window : forall s m w, sane s m -> sane (with_window s w) m.
Proof. intros s m w H. exact H. Qed.
Lemma with_twice : forall s w w', with_window (with_window s w) w' = with_window s w'.
Proof. reflexivity. Qed.
Lemma broken_run : forall h s m zs, sane s m -> broken zs s -> Forall (fun o : top (list R) => wide (op_arg o)) h -> (length (zs ++ learned h) < W)%nat -> exists w, trans_run STD s h = with_window s w /\ broken (zs ++ learned h) (with_window s w).
Proof.
  induction h as [|o h IH]; intros s m zs S0 B F Hk.
  - exists (st_window s). cbn [learned flat_map]. rewrite app_nil_r, with_self. auto.
  - apply Forall_cons_iff in F. destruct F as [Fo F]. assert (El : learned (o :: h) = learned [o] ++ learned h) by (unfold learned; cbn [flat_map]; rewrite app_nil_r; reflexivity).
    rewrite El, app_assoc in *. unfold trans_run. cbn [fold_left]. destruct (broken_step s m zs o S0 B Fo) as (w & _ & E & B'); [rewrite app_length in Hk; lia|]. rewrite E.
    destruct (IH (with_window s w) m _ (sane_window _ _ _ S0) B' F Hk) as (w' & E' & B''). exists w'. split; [exact E'|exact B''].
Qed.
(** A fit after which the window is full and uniform. *)
Lemma fit_works : forall s m a, sane s m -> let w := deque_append (Z.of_nat W) (as_array a) (st_window s) in Forall wide w -> length w = W -> wide (as_array a) ->
  let p := std_phase s in let new := map (fun j => nth j (nth p m []) 0 + (nth j (as_array a) 0 - mean (col j w))) (seq 0 n) in let c := nth p (st_counts s) 0%Z in
  let s' := mkSTD (st_season s) (st_trendw s) w (Some (set_nth p new m)) (set_nth p (c + 1)%Z (st_counts s)) (st_seen s + 1) in
  (p < L)%nat /\ std_fit a s = (Ok tt, s') /\ sane s' (set_nth p new m) /\
  std_fit_transform a s = (Ok (VArray (map (fun j => nth j (as_array a) 0 - mean (col j w) - nth j new 0 / IZR (c + 1)) (seq 0 n))), s').
Proof.
  intros s m a S0 w Fw Lw Hx p new c s'. pose proof S0 as (ES & ET & E0 & EM & Lm & Lr & Lc & Hc).
  assert (Hp : (p < L)%nat). { unfold p, std_phase. rewrite ES. pose proof (Z.mod_pos_bound (st_seen s) (Z.of_nat L)). lia. }
  assert (Tr : std_trend w = Ok (Some (map (fun j => mean (col j w)) (seq 0 n)))). { apply (std_trend_R L W n HL ltac:(lia)); auto. intros Q. rewrite Q in Lw. cbn in Lw. lia. }
  assert (Ab : std_absorb p (as_array a) s = (Ok (Some (map (fun j => mean (col j w)) (seq 0 n))), mkSTD (st_season s) (st_trendw s) w (Some (set_nth p new m)) (set_nth p (c + 1)%Z (st_counts s)) (st_seen s))).
  { unfold std_absorb, bind, modify, gets, lift. cbn [st_window st_trendw st_season st_sums st_counts st_seen]. rewrite ET. fold w. rewrite Tr, Lw, Z.eqb_refl, EM. rewrite (py_index_nth _ m p []) by lia. rewrite (sub_vec n) by auto. rewrite (list_as_map (nth p m []) n (Lr p Hp)) at 1. rewrite np_zip_map. cbn [rbind]. rewrite !map_length, seq_length, (Lr p Hp), Nat.eqb_refl.
    rewrite (py_index_nth _ (st_counts s) p 0%Z) by lia. reflexivity. }
  split; auto. assert (Sn : sane s' (set_nth p new m)).
  { unfold sane, s'. cbn [st_season st_trendw st_seen st_sums st_counts]. split; auto. split; auto. split; [lia|]. split; auto. rewrite !set_nth_length. split; auto. split.
    - intros q Hq. destruct (Nat.eq_dec q p) as [-> | Nq]; [rewrite nth_set_nth_eq by lia; unfold new; rewrite map_length, seq_length; reflexivity|rewrite nth_set_nth_neq by auto; auto].
    - split; auto. intros q. destruct (Nat.eq_dec q p) as [-> | Nq]; [rewrite nth_set_nth_eq by lia; pose proof (Hc p); unfold c; lia|rewrite nth_set_nth_neq by auto; auto]. }
  split; [|split; auto].
  - unfold std_fit, bind. rewrite (ensure_sane s m _ S0). unfold gets. fold p. rewrite Ab. reflexivity.
  - unfold std_fit_transform, bind. rewrite (ensure_sane s m _ S0). unfold gets. fold p. rewrite Ab. unfold lift, std_seasonal. cbn [st_counts st_sums]. rewrite (py_index_nth _ (set_nth p (c + 1)%Z (st_counts s)) p 0%Z) by (rewrite set_nth_length; lia). rewrite nth_set_nth_eq by lia. cbn [rbind]. pose proof (Hc p) as Hcp. fold c in Hcp. destruct (Z.eqb_spec (c + 1) 0); [lia|].
    rewrite (py_index_nth _ (set_nth p new m) p []) by (rewrite set_nth_length; lia). rewrite nth_set_nth_eq by lia. cbn [rbind]. unfold std_tick, modify. cbn [st_season st_trendw st_window st_sums st_counts st_seen]. rewrite (sub_vec n) by auto. unfold new at 1. rewrite map_map. unfold sub_opt. rewrite np_zip_map. unfold ret. do 3 f_equal. apply map_ext_in. intros j Hj. apply in_seq in Hj. cbn [nsub ndiv nofZ NumR]. f_equal. f_equal. unfold new.
    rewrite nth_built by lia. reflexivity.
Qed.
Lemma start_broken : forall xs s m bad, STDRel L W n xs s -> xs <> [] -> st_sums s = Some m -> length bad <> n -> sane s m /\ broken [] (with_window s (deque_append (Z.of_nat W) bad (st_window s))).
Proof.
  intros xs s m bad Rl NE EM Hb. pose proof Rl as [ES ET EW EN EF E0 E1]. split.
  - destruct (E1 m EM) as (Lm & Lc & HP). repeat split; auto; [lia| |]; intros p.
    + intros Hp. destruct (HP p Hp) as [_ ->]. rewrite map_length, seq_length. reflexivity.
    + destruct (Nat.lt_ge_cases p L) as [Hp|Hp]; [destruct (HP p Hp) as [-> _]; lia|rewrite nth_overflow by lia; lia].
  - unfold broken, with_window. cbn [st_window]. rewrite EW, (deque_append_lastn L W HL ltac:(lia)). exists (lastn (W - 1) xs), bad.
    assert (Hl : lastn (S (W - 1)) (xs ++ [bad]) = lastn (W - 1) xs ++ [bad]). { unfold lastn. rewrite app_length. cbn [length]. replace (length xs + 1 - S (W - 1))%nat with (length xs - (W - 1))%nat by lia. rewrite skipn_app. replace (length xs - (W - 1) - length xs)%nat with 0%nat by lia. reflexivity. }
    replace (S (W - 1)) with W in Hl by lia. split; [exact Hl|]. split; [apply Forall_forall; intros r Hr; apply In_lastn in Hr; rewrite Forall_forall in EF; auto|]. split; auto. split; auto. rewrite lastn_length. split; [cbn [length]; lia|]. rewrite app_nil_r. apply lastn_nonempty; auto. lia.
Qed.
Lemma start_bad : forall xs s m b, STDRel L W n xs s -> xs <> [] -> st_sums s = Some m -> length (op_arg b) <> n -> learned [b] <> [] -> sane s m /\ std_outcome s b = Raise ValueError /\ exists w, trans_do STD s b = with_window s w /\ broken [] (with_window s w).
Proof.
  intros xs s m b Rl NE EM Hb Hl. destruct (start_broken xs s m (op_arg b) Rl NE EM Hb) as [S0 B]. split; auto.
  destruct b as [a|a|a]; [|cbn in Hl; congruence|]; cbn [op_arg] in *; destruct (fit_fails s m a S0 (broken_raises _ _ B)) as [E1 E2]; cbn [std_outcome trans_do tr_fit tr_fit_transform SeasonalTrendDecomposer]; unfold eval, exec; [rewrite E1|rewrite E2]; (split; [reflexivity|]); eexists; (split; [reflexivity|exact B]).
Qed.
(** The window is full and uniform. *)
Definition clean (s : stdst R) (m : list (list R)) : Prop := sane s m /\ Forall wide (st_window s) /\ length (st_window s) = W.
Lemma transform_keeps : forall s m a, sane s m -> exec (std_transform a) s = s.
Proof.
  intros s m a S0. unfold exec, std_transform, bind. rewrite (ensure_sane s m _ S0). unfold gets, lift, ret.
  destruct (std_trend (st_window s)) as [t|e]; [|reflexivity]. destruct (sub_opt (as_array a) t) as [d|e]; [|reflexivity]. destruct (std_seasonal s (std_phase s)) as [q|e]; [|reflexivity]. destruct (sub_opt d q); reflexivity.
Qed.
Lemma transform_works : forall s m a, clean s m -> wide (as_array a) -> exists v, eval (std_transform a) s = Ok v.
Proof.
  intros s m a (S0 & Fw & Lw) Hx. pose proof S0 as (ES & ET & E0 & EM & Lm & Lr & Lc & Hc). unfold eval, std_transform, bind. rewrite (ensure_sane s m _ S0). unfold gets, lift, ret.
  assert (Hp : (std_phase s < L)%nat). { unfold std_phase. rewrite ES. pose proof (Z.mod_pos_bound (st_seen s) (Z.of_nat L)). lia. }
  rewrite (std_trend_R L W n HL ltac:(lia)); auto; [|intros Q; rewrite Q in Lw; cbn in Lw; lia]. rewrite (sub_vec n) by auto. unfold std_seasonal. rewrite EM, (py_index_nth _ (st_counts s) _ 0%Z) by lia. cbn [rbind]. destruct (nth (std_phase s) (st_counts s) 0 =? 0)%Z; [cbn [sub_opt]; eexists; reflexivity|].
  rewrite (py_index_nth _ m _ []) by lia. cbn [rbind]. rewrite (list_as_map (nth (std_phase s) m []) n (Lr _ Hp)), map_map. unfold sub_opt. rewrite np_zip_map. eexists; reflexivity.
Qed.
Lemma fit_cleans : forall s m o, sane s m -> wide (op_arg o) -> learned [o] <> [] -> let w := deque_append (Z.of_nat W) (op_arg o) (st_window s) in Forall wide w -> length w = W ->
  (exists v, std_outcome s o = Ok v) /\ exists m', clean (trans_do STD s o) m'.
Proof.
  intros s m o S0 Hx Hl w Fw Lw. destruct o as [a|a|a]; [|cbn in Hl; congruence|]; cbn [op_arg] in *; destruct (fit_works s m a S0 Fw Lw Hx) as (Hp & E1 & Sn & E2); cbn [std_outcome trans_do tr_fit tr_fit_transform SeasonalTrendDecomposer]; unfold eval, exec; [rewrite E1|rewrite E2]; cbn [fst snd rmap rbind]; (split; [eauto|]); eexists; split; [exact Sn|split; [exact Fw|exact Lw]|exact Sn|split; [exact Fw|exact Lw]].
Qed.
Lemma append_full : forall s x, Forall wide (st_window s) -> length (st_window s) = W -> wide x -> let w := deque_append (Z.of_nat W) x (st_window s) in Forall wide w /\ length w = W.
Proof.
  intros s x F Lw Hx. unfold deque_append. rewrite Lw, Z.ltb_irrefl. destruct (st_window s) as [|y l]; [cbn in Lw; lia|]. cbn [skipn]. split; [apply Forall_app; split; auto; apply Forall_inv_tail in F; auto|]. rewrite app_length. cbn [length] in *. lia.
Qed.
Lemma append_last : forall s zs x, broken zs s -> wide x -> S (length zs) = W -> let w := deque_append (Z.of_nat W) x (st_window s) in w = zs ++ [x] /\ Forall wide w /\ length w = W.
Proof.
  intros s zs x (ys & bad & Ew & Fy & Fz & Hb & Ll & NE) Hx Hk. cbv zeta. assert (ys = []) by (destruct ys; auto; cbn [length] in Ll; lia). subst ys. cbn [app] in Ew. assert (E : deque_append (Z.of_nat W) x (st_window s) = zs ++ [x]). { unfold deque_append. rewrite Ew. cbn [length]. rewrite Hk, Z.ltb_irrefl. reflexivity. }
  rewrite E. split; auto. split; [apply Forall_app; auto|]. rewrite app_length. cbn [length]. lia.
Qed.
Lemma clean_step : forall s m o, clean s m -> wide (op_arg o) -> (exists v, std_outcome s o = Ok v) /\ exists m', clean (trans_do STD s o) m'.
Proof.
  intros s m o Cl Hx. pose proof Cl as (S0 & F & Lw). destruct (append_full s _ F Lw Hx) as [F' L']. destruct o as [a|a|a].
  - apply (fit_cleans s m (TFit a)); auto. discriminate.
  - cbn [std_outcome trans_do tr_transform SeasonalTrendDecomposer op_arg] in *. split; [eapply transform_works; eauto|]. exists m. change (clean (exec (std_transform a) s) m). rewrite (transform_keeps s m a S0). exact Cl.
  - apply (fit_cleans s m (TFitTransform a)); auto. discriminate.
Qed.
Lemma clean_run : forall h s m, clean s m -> Forall (fun o : top (list R) => wide (op_arg o)) h -> exists m', clean (trans_run STD s h) m'.
Proof.
  induction h as [|o h IH]; intros s m Cl F; [exists m; exact Cl|]. apply Forall_cons_iff in F. destruct F as [Fo F]. destruct (clean_step s m o Cl Fo) as (_ & m' & Cl'). exact (IH _ _ Cl' F).
Qed.
Lemma learned_one : forall o : top (list R), learned [o] = [] \/ learned [o] = [op_arg o].
Proof. intros [a|a|a]; cbn; auto. Qed.
Lemma recover_run : forall h s m zs, sane s m -> broken zs s -> Forall (fun o : top (list R) => wide (op_arg o)) h -> (length zs < W)%nat -> (W <= length (zs ++ learned h))%nat -> exists m', clean (trans_run STD s h) m'.
Proof.
  induction h as [|o h IH]; intros s m zs S0 B F Hk Hk'; [cbn [learned flat_map] in Hk'; rewrite app_nil_r in Hk'; lia|].
  apply Forall_cons_iff in F. destruct F as [Fo F]. assert (El : learned (o :: h) = learned [o] ++ learned h) by (unfold learned; cbn [flat_map]; rewrite app_nil_r; reflexivity).
  rewrite El, app_assoc in Hk'. unfold trans_run. cbn [fold_left]. destruct (Nat.lt_ge_cases (length (zs ++ learned [o])) W) as [Hs|Hs].
  - destruct (broken_step s m zs o S0 B Fo Hs) as (w & _ & E & B'). rewrite E. exact (IH _ m _ (sane_window _ _ _ S0) B' F Hs Hk').
  - rewrite app_length in Hs. destruct (learned_one o) as [Q|Q]; rewrite Q in Hs; cbn [length] in Hs; [lia|]. destruct (append_last s zs _ B Fo ltac:(lia)) as (_ & Fw & Lw).
    destruct (fit_cleans s m o S0 Fo ltac:(rewrite Q; discriminate) Fw Lw) as [_ [m' Cl]]. exact (clean_run h _ m' Cl F).
Qed.
End Fit.

Lemma map_zero_repeat_in : forall n (g : nat -> R), (forall j, (j < n)%nat -> g j = 0) -> map g (seq 0 n) = repeat 0 n.
Proof. intros n g H. rewrite <- (map_zero_repeat n 0 (fun _ => 0)) by auto. apply map_ext_in. intros j Hj. apply in_seq in Hj. apply H. lia. Qed.
Section Again.
Variables (f : nat -> list R) (L m n : nat).
Hypothesis (HL : (1 <= L)%nat) (HW : (2 <= m * L)%nat) (HP : forall t, f (t + L)%nat = f t) (Hn : forall t, length (f t) = n).
Let W := (m * L)%nat.
Let C (j : nat) := Rsum (map (fun t => nth j (f t) 0) (seq 0 L)) / INR L.
Lemma mean_any : forall a j, mean (col j (map f (seq a W))) = C j.
Proof.
  intros a j. unfold col. rewrite map_map. set (g := fun t => nth j (f t) 0). assert (HG : forall t, g (t + L)%nat = g t) by (intros; unfold g; rewrite HP; auto).
  unfold mean, Rlen. rewrite map_length, seq_length. unfold W. rewrite period_sum_mult by auto. unfold C. fold g. rewrite mult_INR. assert (0 < INR m) by (apply lt_0_INR; nia). assert (0 < INR L) by (apply lt_0_INR; lia). field. lra.
Qed.
(** Every estimate is right, whatever its weight. *)
Definition right_rows (s : stdst R) (M : list (list R)) : Prop := forall p, (p < L)%nat -> nth p M [] = map (fun j => IZR (nth p (st_counts s) 0%Z) * (nth j (f p) 0 - C j)) (seq 0 n).
Definition per (tau : nat) (s : stdst R) : Prop := exists M, sane L W n s M /\ right_rows s M /\ (st_seen s mod Z.of_nat L = Z.of_nat tau mod Z.of_nat L)%Z.
Lemma right_start : forall T s M, STDRel L W n (map f (seq 0 T)) s -> st_sums s = Some M -> right_rows s M.
Proof.
  intros T s M Rl EM p Hp. destruct (sr_sums _ _ _ _ _ Rl M EM) as (_ & _ & HH). destruct (HH p Hp) as [-> ->]. rewrite map_length, seq_length. apply map_ext. intros j.
  rewrite <- INR_IZR_INZ. assert (G : forall t, In t (hits L W p T) -> detrended W (map f (seq 0 T)) j t = nth j (f p) 0 - C j).
  { intros t Ht. apply filter_In in Ht. destruct Ht as [H1 H2]. apply in_seq in H1. apply andb_prop in H2. destruct H2 as [H2 H3]. apply Nat.eqb_eq in H2. apply Nat.leb_le in H3.
    unfold W, C. rewrite (detrended_const f L m HL ltac:(nia) HP) by (unfold W in H3; lia). rewrite (period_mod _ f L HL HP t), H2. reflexivity. }
  generalize dependent (hits L W p T). intros l G. induction l as [|t l IH]; [cbn; ring|]. cbn [map]. change (Rsum (detrended W (map f (seq 0 T)) j t :: map (detrended W (map f (seq 0 T)) j) l)) with (detrended W (map f (seq 0 T)) j t + Rsum (map (detrended W (map f (seq 0 T)) j) l)).
  rewrite IH by (intros; apply G; right; auto). rewrite (G t) by (left; auto). cbn [length]. rewrite S_INR. ring.
Qed.
Lemma per_fit : forall tau s (o : top (list R)), per tau s -> op_arg o = f tau -> learned [o] <> [] -> (W <= S tau)%nat -> deque_append (Z.of_nat W) (f tau) (st_window s) = map f (seq (S tau - W) W) ->
  per (S tau) (trans_do STD s o) /\ st_window (trans_do STD s o) = map f (seq (S tau - W) W) /\ match o with TFitTransform _ => std_outcome s o = Ok (VArray (repeat 0 n)) | _ => True end.
Proof.
  intros tau s o (M & S0 & RR & Ph) Ho Hl Ht Ew.
  assert (Fw : Forall (wide n) (map f (seq (S tau - W) W))) by (apply Forall_forall; intros r Hr; apply in_map_iff in Hr; destruct Hr as (t & <- & _); apply Hn).
  assert (Lw : length (map f (seq (S tau - W) W)) = W) by (rewrite map_length, seq_length; reflexivity).
  assert (Pp : std_phase s = (tau mod L)%nat) by (unfold std_phase; destruct S0 as (-> & _); rewrite Ph, <- Nat2Z.inj_mod; apply Nat2Z.id).
  assert (Key : forall a, as_array a = f tau -> let s' := exec (std_fit a) s in std_fit a s = (Ok tt, s') /\ per (S tau) s' /\ st_window s' = map f (seq (S tau - W) W) /\ std_fit_transform a s = (Ok (VArray (repeat 0 n)), s')).
  { intros a Ha s'. pose proof (fit_works L W n HL HW s M a S0) as K. cbv zeta in K. rewrite Ha, Ew, Pp in K. specialize (K Fw Lw (Hn tau)). destruct K as (Hp & E1 & Sn & E2). unfold s', exec. rewrite E1. cbn [snd st_window]. split; auto. set (p := (tau mod L)%nat) in *.
    assert (Fp : f tau = f p) by (unfold p; apply (period_mod _ f L HL HP tau)). set (c := nth p (st_counts s) 0%Z) in *. assert (Hc : (0 <= c)%Z) by (destruct S0 as (_ & _ & _ & _ & _ & _ & _ & Q); apply Q).
    assert (Row : forall j, (j < n)%nat -> nth j (nth p M []) 0 + (nth j (f tau) 0 - mean (col j (map f (seq (S tau - W) W)))) = IZR (c + 1) * (nth j (f p) 0 - C j)). { intros j Hj. rewrite mean_any, (RR p Hp), nth_built by auto. fold c. rewrite plus_IZR, Fp. ring. }
    split; [|split; [reflexivity|]].
    - eexists. split; [exact Sn|]. split.
      + intros q Hq. cbn [st_counts]. pose proof S0 as (_ & _ & _ & _ & Lm & _ & Lc & _). destruct (Nat.eq_dec p q) as [Q|Q].
        * rewrite <- Q, !nth_set_nth_eq by lia. apply map_ext_in. intros j Hj. apply in_seq in Hj. apply Row. lia.
        * rewrite !nth_set_nth_neq by auto. apply RR; auto.
      + cbn [st_seen]. rewrite Z.add_mod by lia. rewrite Ph, <- Z.add_mod by lia. f_equal. lia.
    - rewrite E2. do 3 f_equal. apply map_zero_repeat_in. intros j Hj. rewrite nth_built by auto. rewrite Row, mean_any by auto. rewrite Fp. assert (IZR (c + 1) <> 0) by (apply not_0_IZR; lia). field; auto. }
  destruct o as [a|a|a]; [|cbn in Hl; congruence|]; cbn [op_arg] in Ho; destruct (Key a Ho) as (E1 & P1 & W1 & E2); cbn [trans_do std_outcome tr_fit tr_fit_transform SeasonalTrendDecomposer]; [auto|]. unfold eval, exec at 1 2. rewrite E2. cbn [fst snd]. auto.
Qed.
Lemma per_run : forall h tau s, per tau s -> st_window s = map f (seq (tau - W) W) -> (W <= tau)%nat -> Forall (fun o : top (list R) => wide n (op_arg o)) h -> learned h = map f (seq tau (length (learned h))) ->
  per (tau + length (learned h)) (trans_run STD s h) /\ st_window (trans_run STD s h) = map f (seq (tau + length (learned h) - W) W).
Proof.
  induction h as [|o h IH]; intros tau s P Ew Ht F El; [cbn [learned flat_map length]; rewrite Nat.add_0_r; auto|]. apply Forall_cons_iff in F. destruct F as [Fo F].
  assert (E : learned (o :: h) = learned [o] ++ learned h) by (unfold learned; cbn [flat_map]; rewrite app_nil_r; reflexivity). rewrite E in *. unfold trans_run. cbn [fold_left].
  destruct (learned_one o) as [Q|Q].
  - rewrite Q in *. cbn [app] in *. assert (Es : trans_do STD s o = s). { destruct o as [a|a|a]; try discriminate Q. cbn [trans_do tr_transform SeasonalTrendDecomposer]. destruct P as (M & S0 & _). apply (transform_keeps L W n s M a S0). } rewrite Es. apply IH; auto.
  - rewrite Q in *. cbn [app length seq map] in El. injection El as El0 El1. assert (Ap : deque_append (Z.of_nat W) (f tau) (st_window s) = map f (seq (S tau - W) W)).
    { rewrite Ew. unfold deque_append. rewrite map_length, seq_length, Z.ltb_irrefl. replace W with (S (W - 1)) at 2 by (unfold W; lia). cbn [seq map skipn]. replace (S tau - W)%nat with (S (tau - W)) by lia. replace W with (W - 1 + 1)%nat at 4 by (unfold W; lia). rewrite seq_app, map_app. cbn [seq map]. replace (S (tau - W) + (W - 1))%nat with tau by (unfold W in *; lia). reflexivity. }
    destruct (per_fit tau s o P El0 ltac:(rewrite Q; discriminate) ltac:(lia) Ap) as (P' & W' & _). cbn [app length]. replace (tau + S (length (learned h)))%nat with (S tau + length (learned h))%nat by lia. apply (IH (S tau) _ P' W'); auto; lia.
Qed.
End Again.

(** An instance with another number of features is rejected by fit_partial and fit_transform_partial, but not forgotten:
    while it is among the last W instances offered, every call fails, whatever its argument. *)
Notation learns b := (learned [b] <> []).
Lemma started : forall L W n s0 h b, std_start L W s0 -> (2 <= W)%nat -> all_wide n h -> learned h <> [] -> length (op_arg b) <> n -> learns b ->
  let s := trans_run STD s0 h in exists m, (1 <= L)%nat /\ STDRel L W n (learned h) s /\ sane L W n s m /\ std_outcome s b = Raise ValueError /\ exists w, trans_do STD s b = with_window s w /\ broken W n [] (with_window s w).
Proof.
  intros L W n s0 h b H HW F NE Hb Hl s. destruct (std_start_inv L W n s0 H) as (HL & HW' & R0). pose proof (run_rel L W n HL HW' h [] s0 R0 F) as R1. cbn [app] in R1. fold s in R1.
  destruct (st_sums s) as [m|] eqn:EM; [|exfalso; apply NE, (sr_some _ _ _ _ _ R1), EM]. exists m. split; auto. split; auto. apply (start_bad L W n HL HW (learned h)); auto.
Qed.
Theorem C124_rejected : forall L W n s0 h b, std_start L W s0 -> (2 <= W)%nat -> all_wide n h -> learned h <> [] -> length (op_arg b) <> n -> learns b ->
  std_outcome (trans_run STD s0 h) b = Raise ValueError.
Proof. intros L W n s0 h b H HW F NE Hb Hl. destruct (started L W n s0 h b H HW F NE Hb Hl) as (m & _ & _ & _ & E & _). exact E. Qed.
Print Assumptions C124_rejected.
Lemma run_split : forall s h b h2, trans_run STD s (h ++ b :: h2) = trans_run STD (trans_do STD (trans_run STD s h) b) h2.
Proof. intros. unfold trans_run. rewrite fold_left_app. reflexivity. Qed.
Theorem C124_poisoned : forall L W n s0 h b h2 o, std_start L W s0 -> (2 <= W)%nat -> all_wide n h -> learned h <> [] -> length (op_arg b) <> n -> learns b -> all_wide n h2 -> length (op_arg o) = n ->
  (length (learned (h2 ++ [o])) < W)%nat -> std_outcome (trans_run STD s0 (h ++ b :: h2)) o = Raise ValueError.
Proof.
  intros L W n s0 h b h2 o H HW F NE Hb Hl F2 Ho Hk. destruct (started L W n s0 h b H HW F NE Hb Hl) as (m & HL & _ & S0 & _ & w & E & B). rewrite run_split, E. unfold learned in Hk. rewrite flat_map_app, app_length in Hk.
  destruct (broken_run L W n HL HW h2 (with_window (trans_run STD s0 h) w) m [] S0 B F2) as (w' & E' & B'); [unfold learned; cbn [app]; lia|]. rewrite E'. cbn [app] in B'.
  destruct (broken_step L W n HL HW _ m _ o (sane_window L W n _ m _ S0) B' Ho) as (w2 & E2 & _); [rewrite app_length; unfold learned; exact Hk|exact E2].
Qed.
Print Assumptions C124_poisoned.
(** From the W-th well-formed instance after it on, every call succeeds again. *)
Theorem C124_recovers : forall L W n s0 h b h2 o, std_start L W s0 -> (2 <= W)%nat -> all_wide n h -> learned h <> [] -> length (op_arg b) <> n -> learns b -> all_wide n h2 -> length (op_arg o) = n ->
  (W <= length (learned (h2 ++ [o])))%nat -> exists v, std_outcome (trans_run STD s0 (h ++ b :: h2)) o = Ok v.
Proof.
  intros L W n s0 h b h2 o H HW F NE Hb Hl F2 Ho Hk. destruct (started L W n s0 h b H HW F NE Hb Hl) as (m & HL & _ & S0 & _ & w & E & B). rewrite run_split, E.
  destruct (Nat.lt_ge_cases (length (learned h2)) W) as [Hs|Hs].
  - destruct (broken_run L W n HL HW h2 (with_window (trans_run STD s0 h) w) m [] S0 B F2 Hs) as (w' & E' & B'). rewrite E'. cbn [app] in B'. unfold learned in Hk. rewrite flat_map_app, app_length in Hk. fold (learned h2) in Hk. fold (learned [o]) in Hk.
    destruct (learned_one o) as [Q|Q]; rewrite Q in Hk; cbn [length] in Hk; [lia|]. destruct (append_last L W n HL HW _ _ _ B' Ho ltac:(lia)) as (_ & Fw & Lw).
    destruct (fit_cleans L W n HL HW _ m o (sane_window L W n _ m _ S0) Ho ltac:(rewrite Q; discriminate) Fw Lw) as [R _]. exact R.
  - destruct (recover_run L W n HL HW h2 (with_window (trans_run STD s0 h) w) m [] S0 B F2) as (m' & Cl); [cbn [length]; lia|exact Hs|]. destruct (clean_step L W n HL HW _ m' o Cl Ho) as [R _]. exact R.
Qed.
Print Assumptions C124_recovers.

Lemma app_eq_app_len : forall (A : Type) (a b c d : list A), length a = length c -> a ++ b = c ++ d -> a = c /\ b = d.
Proof. intros A. induction a as [|x a IH]; intros b [|y c] d H E; try discriminate; auto. cbn in H, E. injection E as -> E. destruct (IH b c d) as [-> ->]; auto. Qed.
(** C47 survives: a season of rejected calls is lost, but the phases stay aligned, and a periodic signal whose one instance
    was replaced by a malformed one is removed exactly again from the W-th instance after it on. *)
Theorem C124_periodic_again : forall L m n f s0 h b h2 T K, std_start L (m * L) s0 -> (2 <= m * L)%nat -> (forall t, length (f t) = n) -> (forall t, f (t + L)%nat = f t) ->
  all_wide n h -> learned h = map f (seq 0 T) -> (1 <= T)%nat -> length (op_arg b) <> n -> learns b ->
  all_wide n h2 -> learned h2 = map f (seq (S T) K) -> (m * L <= S K)%nat ->
  eval (tr_fit_transform STD (AInst (f (S T + K)%nat))) (trans_run STD s0 (h ++ b :: h2)) = Ok (VArray (repeat 0 n)).
Proof.
  intros L m n f s0 h b h2 T K H HW Hn HP F El HT Hb Hl F2 El2 HK. assert (NE : learned h <> []) by (rewrite El; destruct T; [lia|discriminate]).
  destruct (started L (m * L) n s0 h b H HW F NE Hb Hl) as (M & HL & Rl & S0 & _ & w & E & B). rewrite run_split, E. set (s := trans_run STD s0 h) in *. set (W := (m * L)%nat) in *.
  assert (Hm : (1 <= m)%nat) by (destruct m; [cbn in W; subst W; lia|lia]).
  assert (Seen : st_seen s = Z.of_nat T) by (rewrite (sr_seen _ _ _ _ _ Rl), El, map_length, seq_length; reflexivity). rewrite El in Rl.
  assert (RR : right_rows f L n s M) by (apply (right_start f L m n HL HW HP T s M Rl); destruct S0 as (_ & _ & _ & Q & _); exact Q).
  (* after any poisoned stretch only the window differs *)
  assert (P0 : forall w, per f L m n (T + W) (with_window s w)). { intros w0. exists M. split; [exact S0|]. split; [exact RR|]. cbn [with_window st_seen]. rewrite Seen, Nat2Z.inj_add. unfold W. rewrite Nat2Z.inj_mul, Z.mod_add by lia. reflexivity. }
  (* the poisoned part of h2 and the rest *)
  assert (Split : exists ha hb, h2 = ha ++ hb /\ length (learned ha) = (W - 1)%nat /\ match hb with [] => True | o :: _ => learns o end).
  { clear - HK El2. assert (Hk : (W - 1 <= length (learned h2))%nat) by (rewrite El2, map_length, seq_length; lia). clear El2 HK. revert Hk. generalize (W - 1)%nat. induction h2 as [|o h2 IH]; intros k Hk.
    - exists [], []. cbn in *. split; auto. split; auto. lia.
    - assert (Eo : learned (o :: h2) = learned [o] ++ learned h2) by (unfold learned; cbn [flat_map]; rewrite app_nil_r; reflexivity). rewrite Eo, app_length in Hk. destruct (learned_one o) as [Q|Q]; rewrite Q in Hk; cbn [length] in Hk.
      + destruct (IH k Hk) as (ha & hb & -> & L1 & L2). exists (o :: ha), hb. split; auto. split; auto. change (learned (o :: ha)) with (learned [o] ++ learned ha) || idtac. unfold learned in *. cbn [flat_map] in *. rewrite app_nil_r in Q. rewrite Q. exact L1.
      + destruct k as [|k]; [exists [], (o :: h2); split; auto; split; auto; rewrite Q; discriminate|]. destruct (IH k ltac:(lia)) as (ha & hb & -> & L1 & L2). exists (o :: ha), hb. split; auto. split; auto. unfold learned in *. cbn [flat_map] in *. rewrite app_nil_r in Q. rewrite Q. cbn [app length]. rewrite L1. reflexivity. }
  destruct Split as (ha & hb & -> & La & Hb'). apply Forall_app in F2. destruct F2 as [Fa Fb]. unfold learned in El2. rewrite flat_map_app in El2. fold (learned ha) in El2. fold (learned hb) in El2.
  assert (Lb : K = (W - 1 + length (learned hb))%nat). { apply (f_equal (@length _)) in El2. rewrite app_length, map_length, seq_length in El2. lia. }
  rewrite Lb, seq_app, map_app in El2. assert (Lq : length (learned ha) = length (map f (seq (S T) (W - 1)))) by (rewrite map_length, seq_length; exact La). destruct (app_eq_app_len _ _ _ _ _ Lq El2) as [Ea Eb].
  unfold trans_run. rewrite fold_left_app. fold (trans_run STD (with_window s w) ha).
  destruct (broken_run L W n HL HW ha (with_window s w) M [] S0 B Fa) as (w' & E' & B'); [cbn [app]; lia|]. rewrite E'. cbn [app] in B'. rewrite Ea in B'. rewrite with_twice in *.
  assert (Wd : forall a, seq a W = seq a (W - 1) ++ [(a + (W - 1))%nat]) by (intros a; replace W with (W - 1 + 1)%nat at 1 by lia; apply seq_app). assert (Wh : forall a, seq a W = a :: seq (S a) (W - 1)) by (intros a; replace W with (S (W - 1)) at 1 by lia; reflexivity).
  assert (Ap : deque_append (Z.of_nat W) (f (T + W)%nat) (st_window (with_window s w')) = map f (seq (S (T + W) - W) W)).
  { destruct (append_last L W n HL HW _ _ (f (T + W)%nat) B' (Hn _)) as (A1 & _); [rewrite map_length, seq_length; lia|]. rewrite A1. replace (S (T + W) - W)%nat with (S T) by lia. rewrite Wd, map_app. cbn [map]. do 3 f_equal. lia. }
  assert (Eb' : learned hb = map f (seq (T + W) (length (learned hb)))) by (rewrite Eb at 1; do 2 f_equal; lia).
  destruct hb as [|o hb].
  - cbn [fold_left]. cbn [learned flat_map length] in Lb. destruct (per_fit f L m n HL HW HP Hn (T + W) (with_window s w') (TFitTransform (AInst (f (T + W)%nat))) (P0 w') eq_refl ltac:(discriminate) ltac:(lia) Ap) as (_ & _ & R). cbn [std_outcome] in R. replace (S T + K)%nat with (T + W)%nat by lia. exact R.
  - cbn [fold_left]. apply Forall_cons_iff in Fb. destruct Fb as [Fo Fb]. assert (Eo : learned (o :: hb) = learned [o] ++ learned hb) by (unfold learned; cbn [flat_map]; rewrite app_nil_r; reflexivity). destruct (learned_one o) as [Q|Q]; [congruence|]. rewrite Eo, Q in *. cbn [app length seq map] in Eb', Lb. injection Eb' as Eb0 Eb1.
    destruct (per_fit f L m n HL HW HP Hn (T + W) (with_window s w') o (P0 w') Eb0 ltac:(rewrite Q; discriminate) ltac:(lia) Ap) as (P1 & W1 & _).
    destruct (per_run f L m n HL HW HP Hn hb (S (T + W)) _ P1 W1 ltac:(lia) Fb Eb1) as (P2 & W2). unfold trans_run in P2, W2.
    set (tau := (S (T + W) + length (learned hb))%nat) in *. set (s2 := fold_left (trans_do STD) hb (trans_do STD (with_window s w') o)) in *.
    assert (Ap2 : deque_append (Z.of_nat W) (f tau) (st_window s2) = map f (seq (S tau - W) W)).
    { rewrite W2. fold W. unfold deque_append. rewrite map_length, seq_length, Z.ltb_irrefl. rewrite Wh. cbn [map skipn]. replace (S tau - W)%nat with (S (tau - W)) by lia. rewrite Wd, map_app. cbn [map]. do 3 f_equal. lia. }
    destruct (per_fit f L m n HL HW HP Hn tau s2 (TFitTransform (AInst (f tau))) P2 eq_refl ltac:(discriminate) ltac:(lia) Ap2) as (_ & _ & R). cbn [std_outcome] in R. replace (S T + K)%nat with tau by lia. exact R.
Qed.
Print Assumptions C124_periodic_again.
(** Offering the displaced instance again after the rejection is what breaks the alignment: the stream 0, 1, 0, 1, ... with
    seasons and windows of two, one malformed instance, and then 0, 1 from where the stream had stopped. *)
Definition zigzag (t : nat) : list R := if Nat.even t then [0] else [1].
Theorem C124_retry_refuted : ~ (forall L m n f s0 h b h2 T K, std_start L (m * L) s0 -> (2 <= m * L)%nat -> (forall t, length (f t) = n) -> (forall t, f (t + L)%nat = f t) ->
  all_wide n h -> learned h = map f (seq 0 T) -> (1 <= T)%nat -> length (op_arg b) <> n -> learns b ->
  all_wide n h2 -> learned h2 = map f (seq T K) -> (m * L <= S K)%nat ->
  eval (tr_fit_transform STD (AInst (f (T + K)%nat))) (trans_run STD s0 (h ++ b :: h2)) = Ok (VArray (repeat 0 n))).
Proof.
  intros H. specialize (H 2%nat 1%nat 1%nat zigzag (mkSTD 2 2 [] None [] 0) (map (fun t => TFit (AInst (zigzag t))) (seq 0 4)) (TFit (AInst [0; 0])) [TFit (AInst (zigzag 4))] 4%nat 1%nat).
  assert (E : eval (tr_fit_transform STD (AInst (zigzag (4 + 1)%nat))) (trans_run STD (mkSTD 2 2 [] None [] 0) (map (fun t => TFit (AInst (zigzag t))) (seq 0 4) ++ TFit (AInst [0; 0]) :: [TFit (AInst (zigzag 4))])) = Ok (VArray (repeat 0 1))).
  { apply H; [reflexivity|lia| | |repeat constructor|reflexivity|lia|cbn; lia|discriminate|repeat constructor|reflexivity|lia].
    - intros t. unfold zigzag. destruct (Nat.even t); reflexivity.
    - intros t. unfold zigzag. rewrite Nat.even_add. destruct (Nat.even t); reflexivity. }
  change (4 + 1)%nat with 5%nat in E. clear H. revert E. set (h := map (fun t => TFit (AInst (zigzag t))) (seq 0 4)). assert (F : all_wide 1%nat h) by repeat constructor.
  destruct (started 2 2 1 (mkSTD 2 2 [] None [] 0) h (TFit (AInst [0; 0])) eq_refl ltac:(lia) F ltac:(discriminate) ltac:(cbn; lia) ltac:(discriminate)) as (M & HL & Rl & S0 & _ & w & E & B). rewrite run_split, E. set (s := trans_run STD (mkSTD 2 2 [] None [] 0) h) in *.
  destruct (broken_run 2 2 1 HL ltac:(lia) [TFit (AInst (zigzag 4))] (with_window s w) M [] S0 B ltac:(repeat constructor) ltac:(cbn; lia)) as (w' & E' & B'). rewrite E'. rewrite with_twice in *. clear E E' B.
  destruct (append_last 2 2 1 HL ltac:(lia) _ _ (zigzag 5) B' eq_refl eq_refl) as (A1 & A2 & A3).
  pose proof (fit_works 2 2 1 HL ltac:(lia) (with_window s w') M (AInst (zigzag 5)) S0) as K. cbv zeta in K. cbn [as_array] in K. specialize (K A2 A3 eq_refl). destruct K as (_ & _ & _ & K). rewrite A1 in K. clear A1 A2 A3 B'.
  assert (Ph : std_phase (with_window s w') = 0%nat) by (change (std_phase s = 0%nat); rewrite (std_phase_R 2 2 1 _ s Rl); reflexivity). rewrite Ph in K. change (st_counts (with_window s w')) with (st_counts s) in K.
  destruct (sr_sums _ _ _ _ _ Rl M) as (_ & _ & HH); [destruct S0 as (_ & _ & _ & Q & _); exact Q|]. destruct (HH 0%nat ltac:(lia)) as [C0 M0]. rewrite C0, M0 in K. unfold eval. cbn [tr_fit_transform SeasonalTrendDecomposer]. rewrite K. clear.
  assert (EL : learned h = [[0]; [1]; [0]; [1]]) by reflexivity. rewrite EL. assert (EH : hits 2 2 0 (length [[0]; [1]; [0]; [1]]) = [2%nat]) by reflexivity. rewrite EH. cbn [fst seq map nth repeat]. intros E. injection E as E.
  unfold detrended, trend_of, average, zigzag, lastn, mean, Rlen, col in E. cbn [Nat.even learned flat_map as_array app firstn length skipn Nat.sub map nth Rsum fold_right Z.of_nat Z.add INR Pos.of_succ_nat Pos.succ Pos.add] in E. cbn in E. lra.
Qed.
Print Assumptions C124_retry_refuted.
(** The same stream continued from where it would have been: the residual is zero again. *)
Example C124_periodic_ex : exists s0, std_start 2 (1 * 2) s0 /\
  eval (tr_fit_transform STD (AInst (zigzag (5 + 1)%nat))) (trans_run STD s0 (map (fun t => TFit (AInst (zigzag t))) (seq 0 4) ++ TFit (AInst [0; 0]) :: map (fun t => TFit (AInst (zigzag t))) (seq 5 1))) = Ok (VArray [0]).
Proof.
  eexists. split; [reflexivity|]. apply (C124_periodic_again 2 1 1 zigzag _ _ (TFit (AInst [0; 0])) _ 4 1); [reflexivity|lia| | |repeat constructor|reflexivity|lia|cbn; lia|discriminate|repeat constructor|reflexivity|lia].
  - intros t. unfold zigzag. destruct (Nat.even t); reflexivity.
  - intros t. unfold zigzag. rewrite Nat.even_add. destruct (Nat.even t); reflexivity.
Qed.
(** Windows of three: the malformed instance and the next two are refused, the third is accepted. *)
Example C124_ex : exists s0, std_start 2 3 s0 /\ let h := [TFit (AInst [5; 6])] in let bad := TFit (AInst [1; 2; 3]) in let x := TFit (AInst [7; 8]) in
  std_outcome (trans_run STD s0 h) bad = Raise ValueError /\
  std_outcome (trans_run STD s0 (h ++ bad :: [])) x = Raise ValueError /\
  std_outcome (trans_run STD s0 (h ++ bad :: [x])) x = Raise ValueError /\
  std_outcome (trans_run STD s0 (h ++ bad :: [x; x])) (TTransform (AInst [7; 8])) = Raise ValueError /\
  exists v, std_outcome (trans_run STD s0 (h ++ bad :: [x; x])) x = Ok v.
Proof.
  eexists. split; [reflexivity|]. intros h bad x. assert (F : all_wide 2%nat h) by repeat constructor. split; [|split; [|split; [|split]]].
  - eapply (C124_rejected 2 3 2); eauto; try reflexivity; try lia; try discriminate.
  - eapply (C124_poisoned 2 3 2); eauto; try reflexivity; try lia; try discriminate; repeat constructor.
  - eapply (C124_poisoned 2 3 2); eauto; try reflexivity; try lia; try discriminate; repeat constructor.
  - eapply (C124_poisoned 2 3 2); eauto; try reflexivity; try lia; try discriminate; repeat constructor.
  - eapply (C124_recovers 2 3 2); eauto; try reflexivity; try lia; try discriminate; repeat constructor.
Qed.
(** One value against two trends, and a stream of single values lending its trend to three features. *)
Example C124_transform_ex : exists s0, std_start 2 2 s0 /\
  eval (tr_transform STD (AInst [10])) (trans_run STD s0 [TFit (AInst [4; 6])]) = Ok (VArray [6; 4]) /\
  eval (tr_transform STD (AInst [10; 11; 12])) (trans_run STD s0 [TFit (AInst [4])]) = Ok (VArray [6; 7; 8]) /\
  eval (tr_transform STD (AInst [10; 11; 12])) (trans_run STD s0 [TFit (AInst [4; 6])]) = Raise ValueError.
Proof.
  eexists. split; [reflexivity|]. split; [|split].
  - rewrite (C124_transform 2 2 2); [|reflexivity|repeat constructor|discriminate|cbn; lia]. cbn [as_array seq map]. unfold trend_of, seasonal_of, hits, lastn, learned, average, mean, Rlen, col. cbn. repeat f_equal; field.
  - rewrite (C124_transform 2 2 1); [|reflexivity|repeat constructor|discriminate|cbn; lia]. cbn [as_array seq map Nat.eqb]. unfold trend_of, seasonal_of, hits, lastn, learned, average, mean, Rlen, col. cbn. repeat f_equal; field.
  - rewrite (C124_transform 2 2 2); [|reflexivity|repeat constructor|discriminate|cbn; lia]. reflexivity.
Qed.
