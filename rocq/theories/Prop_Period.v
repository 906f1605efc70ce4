(** * C145: KNNCAD works with a probationary period of 48 or more and with no other; C142 for RelativeEntropy *)
From Coq Require Import List ZArith Lia Bool Arith Reals Lra.
From Verif Require Import Base Num Spec Model_Stats Model_Utils Model_Core Model_Trans Model_Simple Model_Sketch Model_KNN Model_Eval Model_Period P_Lists P_Stats P_Utils P_Models Prop_Window Prop_KNN Prop_Sketch.
Import ListNotations.
Local Open Scope nat_scope.

(** ** KNNCAD *)
Section Knn.
Context {Y A : Type} {NA : Num A}.
Variables (half alarm : A) (inverse : list (list A) -> option (list (list A))).
Notation knz := (KNNCADZ (Y := Y) (A := A) half alarm inverse).
(** With a natural number the model is the one of the other KNNCAD properties. *)
Theorem C145_natural : forall P, same_calls (md_fit (knz (Z.of_nat P))) (md_fit (KNNCAD (Y := Y) (A := A) half alarm inverse P)) (md_score (knz (Z.of_nat P))) (md_score (KNNCAD (Y := Y) (A := A) half alarm inverse P)).
Proof.
  intros P.
  assert (L : forall n, (Z.of_nat n <? Z.of_nat P)%Z = (n <? P)) by (intros n; destruct (Z.ltb_spec (Z.of_nat n) (Z.of_nat P)), (Nat.ltb_spec n P); auto; lia).
  assert (Q : forall k : positive, Z.quot (Z.of_nat P) (Zpos k) = Z.of_nat (P / Pos.to_nat k)). { intros k. rewrite Z.quot_div_nonneg by lia. rewrite Nat2Z.inj_div. f_equal. lia. }
  assert (U : P <> 0 -> forall s, knz_update_sigma (A := A) inverse (Z.of_nat P) s = kn_update_sigma inverse P s).
  { intros N s. unfold knz_update_sigma, kn_update_sigma, bind, gets, lift, pymod. destruct (Z.eqb_spec (Z.of_nat P) 0); [lia|]. rewrite <- Nat2Z.inj_mod, (Q 2%positive). change (Pos.to_nat 2) with 2. cbv zeta.
    assert (E : forall a b, (Z.of_nat a =? Z.of_nat b)%Z = (a =? b)) by (intros a b; destruct (Z.eqb_spec (Z.of_nat a) (Z.of_nat b)), (Nat.eqb_spec a b); auto; lia). change 0%Z with (Z.of_nat 0). rewrite !E. reflexivity. }
  assert (Rt : forall s, knz_rotate (A := A) (Z.of_nat P) s = kn_rotate P s).
  { intros s. unfold knz_rotate, kn_rotate, bind, gets. replace (2 * Z.of_nat P <=? Z.of_nat (kn_count s))%Z with (2 * P <=? kn_count s); [reflexivity|]. destruct (Nat.leb_spec (2 * P) (kn_count s)), (Z.leb_spec (2 * Z.of_nat P) (Z.of_nat (kn_count s))); auto; lia. }
  apply calls_eq.
  - intros x y s. change (knst A) in s. cbn [md_fit KNNCADZ KNNCAD plain_model]. unfold bind, modify, gets, lift. destruct (py_index x 0) as [x0|e]; [|reflexivity]. cbn [kn_buf kn_count kn_train kn_cal kn_scores kn_pred kn_sigma].
    set (s1 := match kn_sigma s with Some _ => s | None => mkKN _ _ _ _ _ _ _ end). clearbody s1. destruct (_ <? kn_dim); [reflexivity|]. rewrite L. destruct (_ <? P) eqn:E; [reflexivity|]. destruct (Nat.eqb_spec P 0) as [->|N]; [reflexivity|].
    rewrite U by auto. destruct (kn_update_sigma _ _ _) as [[[]|e] s2]; [|reflexivity]. destruct (kn_init_scores s2) as [[[]|e] s3]; [|reflexivity]. destruct (kn_ncm _ _ _ _) as [v|e]; [|reflexivity]. rewrite Rt. reflexivity.
  - intros x s. cbn [md_score KNNCADZ KNNCAD plain_model]. unfold bind, gets. rewrite L, (Q 5%positive). reflexivity.
Qed.

(** ** Short periods *)
Hypothesis zero_by_zero : pydiv (nofZ 0 : A) (nofZ 0) = Raise ZeroDivisionError.
Variable P : Z.
Hypothesis HP : (P < 48)%Z.
Notation m := (knz P).
Definition short_inv (l : list (list A)) (s : knst A) : Prop := Forall (fun x => x <> []) l ->
  (kn_sigma s = None <-> l = []) /\ length (kn_buf s) = length l /\ kn_count s = length l /\ kn_scores s = [] /\ length (kn_train s) = Nat.min (length l) (Z.to_nat P - 1) - 18.
(** The first fit that fails *)
Definition due : nat := Nat.max 19 (Z.to_nat P).
Lemma ncm_short : forall sg tr item e, length tr <= 27 + e -> kn_ncm (A := A) sg tr item e = Raise ValueError.
Proof. intros sg tr item e H. unfold kn_ncm. rewrite map_length. cbv zeta. change (kn_k + e) with (27 + e). apply Nat.leb_le in H. rewrite H. reflexivity. Qed.
Lemma update_sigma_keeps : forall s, P <> 0%Z -> exists s', knz_update_sigma inverse P s = (Ok tt, s') /\ kn_scores s' = kn_scores s /\ kn_train s' = kn_train s /\ kn_buf s' = kn_buf s /\ kn_count s' = kn_count s /\ (kn_sigma s <> None -> kn_sigma s' <> None).
Proof.
  intros s N. unfold knz_update_sigma, bind, gets, lift, pymod, modify, ret. destruct (Z.eqb_spec P 0); [lia|]. destruct (_ || _)%bool; [|exists s; repeat split; auto]. destruct (inverse _); [|exists s; repeat split; auto].
  eexists. split; [reflexivity|]. cbn. repeat split; auto. discriminate.
Qed.
Lemma init_scores_short : forall s, kn_scores s = [] -> length (kn_train s) <= 28 -> kn_init_scores s = (if length (kn_train s) =? 0 then Ok tt else Raise ValueError, s).
Proof.
  intros s E H. unfold kn_init_scores, bind, gets, lift, modify. rewrite E. change (length (@nil A) =? 0) with true. cbv iota. destruct s as [b tr c sc n p sg]. cbn [kn_train kn_scores] in *. subst sc.
  destruct tr as [|v tr]; [reflexivity|]. cbn [res_map]. rewrite ncm_short by exact H. reflexivity.
Qed.
Lemma short_fit : forall l s x y, Forall (fun x => x <> []) (l ++ [x]) -> short_inv l s ->
  short_inv (l ++ [x]) (snd (md_fit m x y s)) /\
  fst (md_fit m x y s) = if length l + 1 <? due then Ok tt else if (P =? 0)%Z then Raise ZeroDivisionError else Raise ValueError.
Proof.
  intros l s x y F I. assert (F' := F). apply Forall_app in F'. destruct F' as [Fl Fx]. apply Forall_inv in Fx. destruct (I Fl) as (I1 & I2 & I3 & I4 & I5). destruct x as [|x0 x]; [congruence|].
  cbn [md_fit KNNCADZ plain_model]. unfold bind, modify, gets, lift. cbn [py_index nth_error].
  set (s1 := match kn_sigma s with Some _ => s | None => mkKN _ _ _ _ _ _ _ end).
  assert (B1 : kn_buf s1 = kn_buf s /\ kn_count s1 = kn_count s /\ kn_scores s1 = [] /\ kn_train s1 = kn_train s /\ kn_sigma s1 <> None). { unfold s1. destruct (kn_sigma s) eqn:E; cbn; repeat split; auto; congruence. }
  clearbody s1. destruct B1 as (B1 & B2 & B3 & B4 & B5). cbn [kn_buf kn_count kn_train kn_cal kn_scores kn_pred kn_sigma]. rewrite app_length, B1, I2. cbn [length]. change kn_dim with 19. unfold short_inv.
  assert (LL : length (l ++ [x0 :: x]) = length l + 1) by (rewrite app_length; reflexivity).
  assert (NN : forall o : option (list (list A)), o <> None -> (o = None <-> l ++ [x0 :: x] = [])) by (intros o H; split; [congruence|intros Q; destruct l; discriminate]).
  destruct (Nat.ltb_spec (length l + 1) 19) as [H1|H1].
  { cbn [fst snd]. unfold ret. cbn [fst snd]. split; [intros _; cbn [kn_buf kn_count kn_train kn_cal kn_scores kn_pred kn_sigma]; rewrite LL, ?app_length, ?B1, ?B2, ?B4, ?I2, ?I3, ?I5; cbn [length]; repeat split; auto; try lia; apply NN; auto|]. destruct (Nat.ltb_spec (length l + 1) due); unfold due in *; [reflexivity|lia]. }
  rewrite B2, I3. destruct (Z.ltb_spec (Z.of_nat (S (length l))) P) as [H2|H2].
  { cbn [fst snd]. split; [intros _; cbn [kn_buf kn_count kn_train kn_cal kn_scores kn_pred kn_sigma]; rewrite LL, ?app_length, ?B1, ?B4, ?I2, ?I5; cbn [length]; repeat split; auto; try lia; apply NN; auto|]. destruct (Nat.ltb_spec (length l + 1) due); unfold due in *; [reflexivity|lia]. }
  destruct (Nat.ltb_spec (length l + 1) due); [unfold due in *; lia|]. rewrite B4.
  assert (G : forall s', kn_scores s' = [] -> kn_train s' = kn_train s -> kn_buf s' = kn_buf s ++ [x0] -> kn_count s' = S (length l) -> kn_sigma s' <> None ->
    (kn_sigma s' = None <-> l ++ [x0 :: x] = []) /\ length (kn_buf s') = length (l ++ [x0 :: x]) /\ kn_count s' = length (l ++ [x0 :: x]) /\ kn_scores s' = [] /\ length (kn_train s') = Nat.min (length (l ++ [x0 :: x])) (Z.to_nat P - 1) - 18).
  { intros s' G1 G2 G3 G4 G5. rewrite G2, G3, LL, app_length, I2, I5. cbn [length]. repeat split; auto; try lia; apply NN; auto. }
  destruct (Z.eqb_spec P 0) as [E0|N0].
  - unfold knz_update_sigma, bind, gets, lift, pymod. destruct (Z.eqb_spec P 0); [|lia]. cbn [fst snd]. split; [intros _|reflexivity]. apply G; cbn [kn_buf kn_count kn_train kn_cal kn_scores kn_pred kn_sigma]; auto; congruence.
  - set (s2 := mkKN _ _ _ _ _ _ _). destruct (update_sigma_keeps s2 N0) as (s3 & -> & K1 & K2 & K3 & K4 & K5). cbn [kn_scores kn_train kn_buf kn_count kn_sigma s2] in K1, K2, K3, K4, K5.
    assert (T : length (kn_train s3) <= 28) by (rewrite K2, I5; lia). rewrite init_scores_short; [|congruence|exact T]. destruct (Nat.eqb_spec (length (kn_train s3)) 0) as [Z0|Z0].
    + rewrite ncm_short by lia. cbn [fst snd]. split; [intros _; apply G; auto; congruence|reflexivity].
    + cbn [fst snd]. split; [intros _; apply G; auto; congruence|reflexivity].
Qed.
Lemma short_score : forall l s x, Forall (fun x => x <> []) l -> short_inv l s ->
  md_score m x s = (if length l =? 0 then Raise AttributeError else if length l <? due then Ok (VScalar n0) else if (P =? 47)%Z then Raise ZeroDivisionError else Raise ValueError, s).
Proof.
  intros l s x F I. destruct (I F) as (I1 & I2 & I3 & I4 & I5). cbn [md_score KNNCADZ plain_model]. unfold bind, gets, lift, ret, raise. rewrite I2, I3, I4. change kn_dim with 19. destruct (kn_sigma s) as [sg|] eqn:E.
  - destruct (Nat.eqb_spec (length l) 0) as [Z0|Z0]; [destruct l; [destruct I1 as [_ I1]; discriminate (I1 eq_refl)|discriminate]|].
    destruct (Nat.ltb_spec (length l) due) as [D|D]; unfold due in D.
    + replace ((length l <? 19) || (Z.of_nat (length l) <? P)%Z)%bool with true; [reflexivity|]. symmetry. apply orb_true_iff. rewrite Nat.ltb_lt, Z.ltb_lt. lia.
    + replace ((length l <? 19) || (Z.of_nat (length l) <? P)%Z)%bool with false; [|symmetry; apply orb_false_iff; rewrite Nat.ltb_ge, Z.ltb_ge; lia].
      destruct (Z.eqb_spec P 47) as [E47|N47].
      * unfold kn_ncm. rewrite map_length, I5, E47. change (Z.to_nat 47 - 1) with 46. rewrite E47 in D. change (Z.to_nat 47) with 47 in D. replace (Nat.min (length l) 46) with 46 by lia. cbn [kn_k Nat.sub Nat.add Nat.leb filter length]. change (Z.of_nat 0) with 0%Z. rewrite zero_by_zero. reflexivity.
      * rewrite ncm_short by lia. reflexivity.
  - destruct I1 as [I1 _]. rewrite (I1 eq_refl). reflexivity.
Qed.
Lemma short_run : forall h : list (mcall (list A) Y), short_inv (fitted_instances h) (model_run m KNNCAD_init h).
Proof.
  intros h. refine (plain_run_all _ _ _ _ _ _ short_inv _ _ h _ _).
  - intros l s x y I F. exact (proj1 (short_fit l s x y F I) F).
  - intros l s x I F. change (knst A) in s. pose proof (short_score l s x F I) as E. change (md_score m x) with (fun s => md_score m x s) in E. cbn [md_score KNNCADZ plain_model] in E. unfold exec. rewrite E. exact (I F).
  - intros _. split; [tauto|]. repeat split; auto.
Qed.
(** Fitting: the first max(19, P) - 1 calls succeed, and no other call ever does. *)
Theorem C145_short_period_fit : forall (h : list (mcall (list A) Y)) x y, Forall (fun x => x <> []) (fitted_instances h) -> x <> [] ->
  eval (md_fit m x y) (model_run m KNNCAD_init h) = if length (fitted_instances h) + 1 <? Nat.max 19 (Z.to_nat P) then Ok tt else if (P =? 0)%Z then Raise ZeroDivisionError else Raise ValueError.
Proof. intros h x y F Hx. apply (short_fit (fitted_instances h)); [apply Forall_app; auto|apply short_run]. Qed.
(** Scoring: 0 until then, afterwards an exception for ever. *)
Theorem C145_short_period_score : forall (h : list (mcall (list A) Y)) x, Forall (fun x => x <> []) (fitted_instances h) -> let n := length (fitted_instances h) in
  eval (md_score m x) (model_run m KNNCAD_init h) = if n =? 0 then Raise AttributeError else if n <? Nat.max 19 (Z.to_nat P) then Ok (VScalar n0) else if (P =? 47)%Z then Raise ZeroDivisionError else Raise ValueError.
Proof. intros h x F n. unfold eval. rewrite (short_score (fitted_instances h)); [reflexivity|exact F|apply short_run]. Qed.
End Knn.
Print Assumptions C145_natural.
Print Assumptions C145_short_period_fit.
Print Assumptions C145_short_period_score.
Lemma zero_by_zero_R : pydiv (nofZ 0 : R) (nofZ 0) = Raise ZeroDivisionError.
Proof. unfold pydiv. cbn [oeqb num_ord NumR OrdR n0 nofZ]. destruct (Reqb 0 0) eqn:Q; [reflexivity|]. apply Reqb_neq in Q. lra. Qed.
Lemma same_run : forall X Y A S (f1 f2 : X -> option Y -> M S unit) (s1 s2 : X -> M S (pyval A)) (h : list (mcall X Y)) s, same_calls f1 f2 s1 s2 -> model_run (plain_model S f1 s1) s h = model_run (plain_model S f2 s2) s h.
Proof.
  intros X Y A S f1 f2 s1 s2 h s H. revert s. induction h as [|c h IH]; intros s; [reflexivity|].
  change (model_run (plain_model S f1 s1) (model_do (plain_model S f1 s1) s c) h = model_run (plain_model S f2 s2) (model_do (plain_model S f2 s2) s c) h).
  assert (E : model_do (plain_model S f1 s1) s c = model_do (plain_model S f2 s2) s c) by (unfold model_do, exec; rewrite H; reflexivity). rewrite E. apply IH.
Qed.
(** 48 is the least period with which every fit succeeds. *)
Theorem C145_works_from_48 : forall Y (inverse : list (list R) -> option (list (list R))) (P : Z), let m := KNNCADZ (Y := Y) (1 / 2)%R (9965 / 10000)%R inverse P in
  (forall (h : list (mcall (list R) Y)) x y, Forall (fun x => x <> []) (fitted_instances h) -> x <> [] -> eval (md_fit m x y) (model_run m KNNCAD_init h) = Ok tt) <-> (48 <= P)%Z.
Proof.
  intros Y inverse P m. split.
  - intros H. destruct (Z.lt_ge_cases P 48) as [L|L]; [exfalso|exact L]. set (h := repeat (CFit [0%R] None : mcall (list R) Y) 48).
    assert (E : fitted_instances h = repeat [0%R] 48) by reflexivity. assert (F : Forall (fun x : list R => x <> []) (fitted_instances h)) by (rewrite E; repeat constructor; discriminate).
    specialize (H h [0%R] None F ltac:(discriminate)). unfold m in H. rewrite C145_short_period_fit in H; [|exact zero_by_zero_R|exact L|exact F|discriminate]. rewrite E, repeat_length in H.
    destruct (Nat.ltb_spec (48 + 1) (Nat.max 19 (Z.to_nat P))); [lia|]. destruct (P =? 0)%Z; discriminate.
  - intros L h x y F Hx. assert (EP : P = Z.of_nat (Z.to_nat P)) by lia. unfold m. rewrite EP. clear EP. pose proof (C145_natural (Y := Y) (1 / 2)%R (9965 / 10000)%R inverse (Z.to_nat P)) as N.
    destruct (C66_reference_sets Y inverse (Z.to_nat P) h ltac:(lia) F) as [G _]. specialize (G x y Hx).
    assert (N' : forall (c : mcall (list R) Y) (s : knst R), model_call (KNNCADZ (1 / 2)%R (9965 / 10000)%R inverse (Z.of_nat (Z.to_nat P))) c s = model_call (KNNCAD (1 / 2)%R (9965 / 10000)%R inverse (Z.to_nat P)) c s) by exact N.
    assert (R1 : model_run (KNNCADZ (Y := Y) (1 / 2)%R (9965 / 10000)%R inverse (Z.of_nat (Z.to_nat P))) KNNCAD_init h = model_run (KNNCAD (1 / 2)%R (9965 / 10000)%R inverse (Z.to_nat P)) KNNCAD_init h) by exact (same_run _ _ _ _ _ _ _ _ h KNNCAD_init N).
    rewrite R1. specialize (N' (CFit x y) (model_run (KNNCAD (Y := Y) (1 / 2)%R (9965 / 10000)%R inverse (Z.to_nat P)) KNNCAD_init h)). unfold model_call in N'. unfold eval in *.
    destruct (md_fit (KNNCADZ (1 / 2)%R (9965 / 10000)%R inverse (Z.of_nat (Z.to_nat P))) x y _) as [[[]|e] s']; [reflexivity|]. destruct (md_fit (KNNCAD _ _ _ _) x y _) as [[[]|e'] s'']; cbn in *; discriminate.
Qed.
Print Assumptions C145_works_from_48.
(** With a period of 30 the 29 first instances are accepted. *)
Example C145_ex : forall inverse y, let m := KNNCADZ (Y := unit) (1 / 2)%R (9965 / 10000)%R inverse 30 in let h := repeat (CFit [0%R] None) 28 in
  eval (md_fit m [5%R] y) (model_run m KNNCAD_init h) = Ok tt /\ eval (md_fit m [5%R] y) (model_run m KNNCAD_init (CFit [1%R] y :: h)) = Raise ValueError /\
  eval (md_score m [5%R]) (model_run m KNNCAD_init h) = Ok (VScalar 0%R) /\ eval (md_score m [5%R]) (model_run m KNNCAD_init (CFit [1%R] y :: CFit [2%R] y :: h)) = Raise ValueError.
Proof.
  intros inverse y m h. assert (F : forall l, Forall (fun x : list R => x <> []) (fitted_instances l) -> Forall (fun x : list R => x <> []) (fitted_instances (CFit (Y := unit) [1%R] y :: l)) /\ Forall (fun x : list R => x <> []) (fitted_instances (CFit (Y := unit) [1%R] y :: CFit [2%R] y :: l))) by (intros l Fl; split; repeat constructor; try discriminate; exact Fl).
  assert (Fh : Forall (fun x : list R => x <> []) (fitted_instances h)) by (change (fitted_instances h) with (repeat [0%R] 28); repeat constructor; discriminate). destruct (F h Fh) as [F1 F2].
  unfold m. rewrite !C145_short_period_fit, !C145_short_period_score by (try exact zero_by_zero_R; try lia; auto; discriminate). repeat split; reflexivity.
Qed.
