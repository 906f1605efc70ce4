(** * C146: missing values in running maxima and minima, on binary64 *)
From Coq Require Import List ZArith Lia Bool Arith Permutation Floats Reals Lra.
From Verif Require Import Base Num Spec Model_Stats Model_NanMax P_Lists P_Float Prop_KitFloat Prop_Nan.
Import ListNotations.
Local Open Scope nat_scope.

(** ** Specification *)
(** r equals the greatest number of l, or is minus infinity; what is not a number does not count. *)
Definition is_greatest (r : float) (l : list float) : Prop :=
  is_nan r = false /\ (r = neg_infinity \/ exists v, In v l /\ (v =? r)%float = true) /\ forall v, In v l -> is_nan v = false -> (v <=? r)%float = true.
Definition is_least (r : float) (l : list float) : Prop :=
  is_nan r = false /\ (r = infinity \/ exists v, In v l /\ (v =? r)%float = true) /\ forall v, In v l -> is_nan v = false -> (r <=? v)%float = true.

(** ** Doubles that are numbers are ordered like real numbers *)
Definition ext (a : float) : R := match Prim2SF a with S754_infinity false => Raux.bpow Zaux.radix2 1024 | S754_infinity true => - Raux.bpow Zaux.radix2 1024 | _ => real a end.
Lemma ext_cases : forall a, is_nan a = false -> (finite a /\ ext a = real a) \/ a = infinity \/ a = neg_infinity.
Proof.
  intros a H. unfold ext. destruct (Prim2SF a) as [s|s| |s m e] eqn:E.
  - left. split; [|reflexivity]. unfold finite, is_finite, is_infinity. rewrite H, eqb_spec, abs_spec, E. reflexivity.
  - right. destruct s; [right|left]; apply spec_inj; rewrite E; reflexivity.
  - apply spec_nan in E. subst a. discriminate.
  - left. split; [|reflexivity]. unfold finite, is_finite, is_infinity. rewrite H, eqb_spec, abs_spec, E. reflexivity.
Qed.
Lemma ext_inf : ext infinity = Raux.bpow Zaux.radix2 1024 /\ ext neg_infinity = (- Raux.bpow Zaux.radix2 1024)%R.
Proof. split; reflexivity. Qed.
Lemma finite_sf : forall a, finite a -> match Prim2SF a with S754_zero _ | S754_finite _ _ _ => True | _ => False end.
Proof.
  intros a H. unfold finite, is_finite, is_nan, is_infinity in H. apply negb_true_iff, orb_false_iff in H. destruct H as [H1 H2]. rewrite eqb_spec in H1, H2. rewrite abs_spec in H2. change (Prim2SF infinity) with (S754_infinity false) in H2.
  destruct (Prim2SF a) as [s|s| |s m e]; auto; [destruct s; discriminate H2|discriminate H1].
Qed.
Lemma ltb_ext : forall a b, is_nan a = false -> is_nan b = false -> ((a <? b)%float = true <-> (ext a < ext b)%R).
Proof.
  intros a b Ha Hb. pose proof (real_lt a) as La. pose proof (real_lt b) as Lb. apply Rabs_def2 in La, Lb. pose proof ext_inf as [E1 E2]. assert (P : (0 < Raux.bpow Zaux.radix2 1024)%R) by apply Raux.bpow_gt_0.
  destruct (ext_cases a Ha) as [[Fa Ea]|[Ea|Ea]], (ext_cases b Hb) as [[Fb Eb]|[Eb|Eb]]; try (subst a); try (subst b); rewrite ?Ea, ?Eb, ?E1, ?E2; try (apply ltb_real; assumption); rewrite ltb_spec;
    try (apply finite_sf in Fa); try (apply finite_sf in Fb); change (Prim2SF infinity) with (S754_infinity false); change (Prim2SF neg_infinity) with (S754_infinity true);
    try (destruct (Prim2SF a) as [s|s| |s m e]; try contradiction); try (destruct (Prim2SF b) as [s|s| |s m e]; try contradiction); (split; [intros Q; try discriminate Q; lra|intros Q; try reflexivity; exfalso; lra]).
Qed.
Lemma leb_ext : forall a b, is_nan a = false -> is_nan b = false -> ((a <=? b)%float = true <-> (ext a <= ext b)%R).
Proof.
  intros a b Ha Hb. pose proof (real_lt a) as La. pose proof (real_lt b) as Lb. apply Rabs_def2 in La, Lb. pose proof ext_inf as [E1 E2]. assert (P : (0 < Raux.bpow Zaux.radix2 1024)%R) by apply Raux.bpow_gt_0.
  destruct (ext_cases a Ha) as [[Fa Ea]|[Ea|Ea]], (ext_cases b Hb) as [[Fb Eb]|[Eb|Eb]]; try (subst a); try (subst b); rewrite ?Ea, ?Eb, ?E1, ?E2; try (apply leb_real; assumption); rewrite leb_spec;
    try (apply finite_sf in Fa); try (apply finite_sf in Fb); change (Prim2SF infinity) with (S754_infinity false); change (Prim2SF neg_infinity) with (S754_infinity true);
    try (destruct (Prim2SF a) as [s|s| |s m e]; try contradiction); try (destruct (Prim2SF b) as [s|s| |s m e]; try contradiction); (split; [intros Q; try discriminate Q; lra|intros Q; try reflexivity; exfalso; lra]).
Qed.
(** Equal doubles are the same, but for the sign of a zero. *)
Lemma eqb_same : forall a b, (a =? b)%float = true -> a <> neg_zero -> b <> neg_zero -> a = b.
Proof.
  intros a b H Na Nb. rewrite eqb_spec in H.
  assert (Z : forall c, c <> neg_zero -> Prim2SF c <> S754_zero true) by (intros c N Q; apply N, spec_inj; rewrite Q; reflexivity). apply Z in Na, Nb. apply spec_inj.
  destruct (Prim2SF a) as [s|s| |s m e], (Prim2SF b) as [s'|s'| |s' m' e']; try discriminate H; try (destruct s; discriminate H); try (destruct s'; discriminate H).
  - destruct s, s'; congruence.
  - destruct s, s'; try discriminate H; reflexivity.
  - unfold SFeqb, SFcompare in H. destruct s, s'; try discriminate H; destruct (Z.compare_spec e e') as [->| |]; try discriminate H; change (Pos.compare_cont Eq m m') with (Pos.compare m m') in H; destruct (Pos.compare_spec m m') as [->| |]; try discriminate H; reflexivity.
Qed.
(** The two zeros are one number. *)
Definition norm (a : float) : float := if (a =? 0)%float then 0%float else a.
Lemma eqb0 : forall a, (a =? 0)%float = true -> exists s, Prim2SF a = S754_zero s.
Proof. intros a H. rewrite eqb_spec in H. change (Prim2SF 0%float) with (S754_zero false) in H. destruct (Prim2SF a) as [s|s| |s m e]; [eauto|destruct s; discriminate H|discriminate H|destruct s; discriminate H]. Qed.
Lemma norm_nz : forall a, norm a <> neg_zero.
Proof.
  intros a. unfold norm. destruct (a =? 0)%float eqn:E; intros Q; [apply (f_equal Prim2SF) in Q; vm_compute in Q; discriminate Q|subst a; vm_compute in E; discriminate E].
Qed.
Lemma norm_eqb : forall a b, (norm a =? norm b)%float = (a =? b)%float.
Proof.
  intros a b. unfold norm. destruct (a =? 0)%float eqn:Ea, (b =? 0)%float eqn:Eb; auto; try (apply eqb0 in Ea; destruct Ea as [s Ea]); try (apply eqb0 in Eb; destruct Eb as [t Eb]); rewrite !eqb_spec, ?Ea, ?Eb; change (Prim2SF 0%float) with (S754_zero false); try reflexivity; destruct (Prim2SF a); destruct (Prim2SF b); reflexivity.
Qed.
Lemma norm_nan : forall a, is_nan (norm a) = is_nan a.
Proof. intros a. unfold is_nan. rewrite norm_eqb. reflexivity. Qed.
Lemma in_norm : forall l, In nan (map norm l) <-> In nan l.
Proof.
  intros l. rewrite in_map_iff. split; [intros (v & E & I)|intros I; exists nan; split; [reflexivity|exact I]]. assert (Q : is_nan v = true) by (rewrite <- norm_nan, E; reflexivity). apply is_nan_iff in Q. congruence.
Qed.
Lemma is_or_equals_iff : forall a b, is_or_equals a b = true <-> norm a = norm b.
Proof.
  intros a b. unfold is_or_equals. split.
  - intros H. apply orb_prop in H. destruct H as [H|H]; [apply eqb_same; auto using norm_nz; rewrite norm_eqb; exact H|]. apply andb_prop in H. destruct H as [H1 H2]. apply is_nan_iff in H1, H2. congruence.
  - intros H. apply orb_true_iff. rewrite <- (norm_nan a), <- (norm_nan b), <- norm_eqb, <- H. destruct (is_nan (norm a)) eqn:E; [right; reflexivity|left]. unfold is_nan in E. apply negb_false_iff in E. exact E.
Qed.

Section Extreme.
Variables (better : float -> float -> bool) (worst : float) (K : float -> R).
Hypotheses (KN : forall a b, norm a = norm b -> K a = K b) (B1 : forall v m, is_nan v = false -> is_nan m = false -> (better v m = true <-> (K m < K v)%R)) (B2 : forall v, better nan v = false) (W1 : is_nan worst = false).
Notation fold := (fold_left (fun m v => if better v m then v else m)).
Definition ext_spec (r : float) (l : list float) : Prop := is_nan r = false /\ (r = worst \/ In (norm r) (map norm l)) /\ forall v, In v l -> is_nan v = false -> (K v <= K r)%R.
Lemma fold_ext : forall l a, is_nan a = false -> let r := fold l a in is_nan r = false /\ (r = a \/ In r l) /\ (K a <= K r)%R /\ forall v, In v l -> is_nan v = false -> (K v <= K r)%R.
Proof.
  induction l as [|b l IH]; intros a Ha r; [repeat split; auto; [cbn; apply Rle_refl|intros v []]|]. unfold r. clear r. cbn [fold_left].
  assert (G : exists c, (if better b a then b else a) = c /\ is_nan c = false /\ (c = a \/ c = b) /\ (K a <= K c)%R /\ (is_nan b = false -> (K b <= K c)%R)).
  { destruct (is_nan b) eqn:E; [apply is_nan_iff in E; subst b; rewrite B2; exists a; repeat split; auto; [lra|discriminate]|]. destruct (better b a) eqn:Q.
    - apply B1 in Q; auto. exists b. repeat split; auto; intros; lra.
    - exists a. repeat split; auto; [lra|]. intros _. destruct (Rle_lt_dec (K b) (K a)) as [|L]; auto. apply B1 in L; auto. congruence. }
  destruct G as (c & -> & Nc & Ic & Kc & Kb). destruct (IH c Nc) as (H1 & H2 & H3 & H4). split; [exact H1|]. split; [|split; [lra|]].
  - destruct H2 as [H2|H2]; [|right; right; exact H2]. destruct Ic as [Ic|Ic]; [left; congruence|right; left; congruence].
  - intros v [<-|I] N; [specialize (Kb N); lra|auto].
Qed.
Lemma fold_worst : forall l, ext_spec (fold l worst) l.
Proof. intros l. destruct (fold_ext l worst W1) as (H1 & H2 & _ & H4). split; auto. split; auto. destruct H2; [left|right; apply in_map]; auto. Qed.
Lemma np_ext : forall l, l <> [] -> exists r, np_extreme better l = Ok r /\ (In nan l -> r = nan) /\ (~ In nan l -> ext_spec r l).
Proof.
  intros [|x l] NE; [congruence|]. cbn [np_extreme]. eexists. split; [reflexivity|]. split; intros H.
  - replace (existsb is_nan (x :: l)) with true; [reflexivity|]. symmetry. apply existsb_exists. exists nan. split; auto.
  - replace (existsb is_nan (x :: l)) with false.
    + assert (Nx : is_nan x = false) by (destruct (is_nan x) eqn:E; auto; apply is_nan_iff in E; exfalso; apply H; left; exact E). destruct (fold_ext l x Nx) as (H1 & H2 & H3 & H4). split; [exact H1|]. split; [right; apply in_map; destruct H2 as [H2|H2]; [left; congruence|right; exact H2]|].
      intros v [<-|I] N; auto.
    + symmetry. destruct (existsb is_nan (x :: l)) eqn:E; auto. apply existsb_exists in E. destruct E as (v & I & E). apply is_nan_iff in E. subst v. contradiction.
Qed.
Lemma ext_spec_perm : forall r l l', Permutation (map norm l) (map norm l') -> ext_spec r l -> ext_spec r l'.
Proof.
  intros r l l' P (H1 & H2 & H3). split; auto. split; [destruct H2; [left; auto|right; eapply Permutation_in; eauto]|]. intros v I N. apply (in_map norm) in I. apply (Permutation_in _ (Permutation_sym P)) in I. apply in_map_iff in I. destruct I as (u & E & I). rewrite <- (KN u v E). apply H3; auto. rewrite <- norm_nan, E, norm_nan. exact N.
Qed.
Lemma remove_perm : forall l x l', Permutation (map norm l) (norm x :: map norm l') -> exists k, list_remove is_or_equals x l = Some k /\ Permutation (map norm k) (map norm l').
Proof.
  intros l x l' P. assert (Ix : In (norm x) (map norm l)) by (eapply Permutation_in; [symmetry; exact P|left; reflexivity]).
  assert (G : exists k, list_remove is_or_equals x l = Some k /\ Permutation (map norm l) (norm x :: map norm k)).
  { clear P. induction l as [|y l IH]; [destruct Ix|]. cbn [list_remove]. destruct (is_or_equals y x) eqn:E.
    - apply is_or_equals_iff in E. exists l. split; [reflexivity|]. cbn [map]. rewrite E. reflexivity.
    - destruct Ix as [Q|Ix]; [apply is_or_equals_iff in Q; congruence|]. destruct (IH Ix) as (k & -> & Pk). exists (y :: k). split; [reflexivity|]. cbn [map]. rewrite Pk. apply perm_swap. }
  destruct G as (k & E & Pk). exists k. split; auto. apply Permutation_cons_inv with (norm x). rewrite <- Pk. exact P.
Qed.
Notation m := (ExtremeMeter better worst).
Definition run_inv (w : nat) (l : list float) (s : runst (maxst float) float) : Prop :=
  rn_size s = Z.of_nat w /\ rn_win s = lastn w l /\ Permutation (map norm (mx_lst (rn_stat s))) (map norm (lastn w l)) /\
  (length l <= w -> mx_max (rn_stat s) = fold l worst) /\ (w < length l -> (In nan (lastn w l) -> mx_max (rn_stat s) = nan) /\ (~ In nan (lastn w l) -> ext_spec (mx_max (rn_stat s)) (lastn w l))).
Lemma lastn_short : forall w (l : list float), length l <= w -> lastn w l = l.
Proof. intros w l H. unfold lastn. replace (length l - w) with 0 by lia. reflexivity. Qed.
Lemma lastn_step : forall w (l : list float) x, w <= length l -> lastn w l ++ [x] = match lastn w l ++ [x] with [] => x | a :: _ => a end :: lastn w (l ++ [x]).
Proof.
  intros w l x H. unfold lastn. rewrite app_length. cbn [length]. replace (length l + 1 - w) with (S (length l - w)) by lia. set (d := length l - w). assert (Hd : d <= length l) by lia. clearbody d. clear H.
  replace (skipn d l ++ [x]) with (skipn d (l ++ [x])) by (rewrite skipn_app; replace (d - length l) with 0 by lia; reflexivity).
  assert (L : d < length (l ++ [x])) by (rewrite app_length; cbn; lia). clear Hd. revert L. generalize (l ++ [x]). intros k L. revert d L. induction k as [|a k IH]; intros d L; [cbn in L; lia|]. destruct d; [reflexivity|]. cbn [skipn]. cbn [length] in L. apply IH. lia.
Qed.
Lemma run_step : forall w l s x, run_inv w l s -> exists s', RunningStatistic_update m x s = (Ok tt, s') /\ run_inv w (l ++ [x]) s'.
Proof.
  intros w l [[mx lst] sz win] x (I1 & I2 & I3 & I4 & I5). cbn [rn_size rn_win rn_stat mx_lst mx_max] in *. subst sz win.
  unfold RunningStatistic_update, zoom, bind, modify, gets, lift. cbn [mt_update mt_remove ExtremeMeter rn_stat rn_size rn_win mx_max mx_lst]. unfold bind, modify, gets, lift, ret. cbn [rn_stat rn_size rn_win mx_max mx_lst].
  assert (LL : length (lastn w l ++ [x]) = Nat.min w (length l) + 1) by (rewrite app_length; unfold lastn; rewrite skipn_length; cbn [length]; lia). rewrite LL.
  assert (HP : Permutation (map norm (heappush lst x)) (norm x :: map norm lst)) by (rewrite heappush_perm; reflexivity). assert (AP : Permutation (map norm (heappush lst x)) (map norm (lastn w l ++ [x]))) by (rewrite HP, I3, map_app; apply Permutation_cons_append).
  destruct (Z.ltb_spec (Z.of_nat w) (Z.of_nat (Nat.min w (length l) + 1))) as [H|H].
  - assert (Hl : w <= length l) by lia. pose proof (lastn_step w l x Hl) as E. set (a := match lastn w l ++ [x] with [] => x | a :: _ => a end) in E. clearbody a. rewrite E. cbn [py_index nth_error skipn].
    rewrite E in AP. cbn [map] in AP.
    destruct (remove_perm _ _ _ AP) as (k & Ek & Pk). cbn -[list_remove is_or_equals heappush np_extreme lastn Z.of_nat Nat.min run_inv]. rewrite Ek. cbn [rn_stat rn_size rn_win mx_max mx_lst].
    assert (L2 : w < length (l ++ [x])) by (rewrite app_length; cbn; lia).
    destruct k as [|k0 k].
    + cbn [rn_stat rn_size rn_win mx_max mx_lst]. eexists. split; [reflexivity|]. unfold run_inv. cbn [rn_stat rn_size rn_win mx_max mx_lst]. apply Permutation_nil in Pk. assert (Pk' : lastn w (l ++ [x]) = []) by (destruct (lastn w (l ++ [x])); [reflexivity|discriminate Pk]). rewrite Pk'. repeat split; auto; try lia. { intros Q. destruct Q. }
      { intros v Q. destruct Q. }
    + destruct (np_ext (k0 :: k) ltac:(discriminate)) as (r & Er & R1 & R2). rewrite Er. cbn [rn_stat rn_size rn_win mx_max mx_lst]. eexists. split; [reflexivity|]. unfold run_inv. cbn [rn_stat rn_size rn_win mx_max mx_lst]. split; [reflexivity|]. split; [reflexivity|]. split; [exact Pk|]. split; [lia|]. intros _. split.
      * intros Q. apply R1. apply in_norm. apply in_norm in Q. eapply Permutation_in; [symmetry; exact Pk|exact Q].
      * intros Q. eapply ext_spec_perm; [exact Pk|]. apply R2. intros Q'. apply Q. apply in_norm. apply in_norm in Q'. eapply Permutation_in; [exact Pk|exact Q'].
  - assert (Hl : length l + 1 <= w) by lia. eexists. split; [reflexivity|]. unfold run_inv. cbn [rn_stat rn_size rn_win mx_max mx_lst].
    assert (L2 : length (l ++ [x]) <= w) by (rewrite app_length; cbn; lia). rewrite !(lastn_short w) in * by lia. split; [reflexivity|]. split; [reflexivity|]. split; [exact AP|]. split; [|lia]. intros _. rewrite I4 by lia. rewrite fold_left_app. reflexivity.
Qed.
Lemma run_all : forall w l, exists s, iterM (RunningStatistic_update m) l (mkRun (mt_init m) (Z.of_nat w) []) = (Ok tt, s) /\ run_inv w l s.
Proof.
  intros w l. assert (G : forall l2 l1 s, run_inv w l1 s -> exists s', iterM (RunningStatistic_update m) l2 s = (Ok tt, s') /\ run_inv w (l1 ++ l2) s').
  { induction l2 as [|x l2 IH]; intros l1 s I; [exists s; rewrite app_nil_r; split; [reflexivity|exact I]|]. assert (E : l1 ++ x :: l2 = (l1 ++ [x]) ++ l2) by (rewrite <- app_assoc; reflexivity). rewrite E.
    destruct (run_step w l1 s x) as (s1 & E1 & I1); auto. destruct (IH (l1 ++ [x]) s1 I1) as (s2 & E2 & I2). exists s2. cbn [iterM]. unfold bind. rewrite E1. split; auto. }
  apply (G l []). unfold run_inv. cbn [rn_stat rn_size rn_win mx_max mx_lst mt_init ExtremeMeter length]. unfold lastn. cbn [length skipn]. repeat split; auto; try lia.
Qed.
(** Without removals: nan leaves no trace. *)
Lemma plain_all : forall l s, exists s', iterM (mt_update m) l s = (Ok tt, s') /\ mx_max s' = fold l (mx_max s).
Proof.
  induction l as [|x l IH]; intros s; [exists s; split; reflexivity|]. cbn [iterM]. unfold bind. cbn [mt_update ExtremeMeter]. unfold modify at 1. destruct (IH (mkMax (if better x (mx_max s) then x else mx_max s) (heappush (mx_lst s) x))) as (s' & E & H). exists s'. split; [exact E|]. rewrite H. reflexivity.
Qed.
End Extreme.

Lemma ext_norm : forall a b, norm a = norm b -> ext a = ext b.
Proof.
  assert (G : forall a, ext (norm a) = ext a). { intros a. unfold norm. destruct (a =? 0)%float eqn:E; [|reflexivity]. apply eqb0 in E. destruct E as [s E]. unfold ext, real. rewrite E. reflexivity. }
  intros a b H. rewrite <- G, H, G. reflexivity.
Qed.
Lemma neg_ext_norm : forall a b, norm a = norm b -> (fun a => (- ext a)%R) a = (fun a => (- ext a)%R) b.
Proof. intros a b H. cbn beta. rewrite (ext_norm a b H). reflexivity. Qed.
Lemma in_eqb : forall r l, is_nan r = false -> In (norm r) (map norm l) -> exists v, In v l /\ (v =? r)%float = true.
Proof. intros r l N I. apply in_map_iff in I. destruct I as (v & E & I). exists v. split; [exact I|]. rewrite <- norm_eqb, E, norm_eqb. unfold is_nan in N. apply negb_false_iff in N. exact N. Qed.
Lemma better_max : forall v m, is_nan v = false -> is_nan m = false -> ((m <? v)%float = true <-> (ext m < ext v)%R).
Proof. intros v m Hv Hm. apply ltb_ext; assumption. Qed.
Lemma better_min : forall v m, is_nan v = false -> is_nan m = false -> ((v <? m)%float = true <-> (- ext m < - ext v)%R).
Proof. intros v m Hv Hm. rewrite ltb_ext by assumption. split; intros; lra. Qed.
Lemma spec_max : forall r l, ext_spec neg_infinity ext r l -> is_greatest r l.
Proof. intros r l (H1 & H2 & H3). split; auto. split; [destruct H2; [left; auto|right; apply in_eqb; auto]|]. intros v I N. apply leb_ext; auto. Qed.
Lemma spec_min : forall r l, ext_spec infinity (fun a => (- ext a)%R) r l -> is_least r l.
Proof. intros r l (H1 & H2 & H3). split; auto. split; [destruct H2; [left; auto|right; apply in_eqb; auto]|]. intros v I N. apply leb_ext; auto. specialize (H3 v I N). cbn beta in H3. lra. Qed.

(** The value got after the updates, if none of them fails. *)
Definition got_after (m : Meter float float) (l : list float) : res float := fst (bind (iterM (mt_update m) l) (fun _ => mt_get m) (mt_init m)).
Definition got_running (m : Meter float float) (w : nat) (l : list float) : res float := fst (bind (iterM (RunningStatistic_update m) l) (fun _ => RunningStatistic_get m) (mkRun (mt_init m) (Z.of_nat w) [])).

(** ** Without removals, what is not a number leaves no trace. *)
Theorem C146_maximum : forall l, exists r, got_after MaxMeterNan l = Ok r /\ is_greatest r l.
Proof.
  intros l. unfold got_after, bind, MaxMeterNan. destruct (plain_all (fun v m => (m <? v)%float) neg_infinity l (mkMax neg_infinity [])) as (s & E & H). cbn [mt_init ExtremeMeter]. rewrite E. cbn [mt_get ExtremeMeter]. unfold gets. cbn [fst]. eexists. split; [reflexivity|].
  rewrite H. apply spec_max. apply fold_worst; auto using better_max, ltb_nan, nan_ltb.
Qed.
Theorem C146_minimum : forall l, exists r, got_after MinMeterNan l = Ok r /\ is_least r l.
Proof.
  intros l. unfold got_after, bind, MinMeterNan. destruct (plain_all (fun v m => (v <? m)%float) infinity l (mkMax infinity [])) as (s & E & H). cbn [mt_init ExtremeMeter]. rewrite E. cbn [mt_get ExtremeMeter]. unfold gets. cbn [fst]. eexists. split; [reflexivity|].
  rewrite H. apply spec_min. apply fold_worst; auto using better_min, ltb_nan, nan_ltb.
Qed.

(** ** Over a window: overlooked until the window first overflows, then shown for as long as it is in the window. *)
Lemma nan_max : forall v, (fun v m => (m <? v)%float) nan v = false.
Proof. intros v. cbn beta. auto using ltb_nan, nan_ltb. Qed.
Lemma nan_min : forall v, (fun v m => (v <? m)%float) nan v = false.
Proof. intros v. cbn beta. auto using ltb_nan, nan_ltb. Qed.
Theorem C146_running_maximum : forall w l, exists r, got_running MaxMeterNan w l = Ok r /\
  (length l <= w -> is_greatest r l) /\
  (w < length l -> In nan (lastn w l) -> r = nan) /\
  (w < length l -> ~ In nan (lastn w l) -> is_greatest r (lastn w l)).
Proof.
  intros w l. unfold got_running, bind, MaxMeterNan. destruct (run_all (fun v m => (m <? v)%float) neg_infinity ext ext_norm better_max nan_max eq_refl w l) as (s & E & (_ & _ & _ & I4 & I5)). rewrite E. unfold RunningStatistic_get, zoom. cbn [mt_get ExtremeMeter]. unfold gets. cbn [fst]. change (runst (maxst float) float) in s. exists (mx_max (rn_stat s)). split; [reflexivity|]. split; [|split].
  - intros H. rewrite I4 by assumption. apply spec_max. apply fold_worst; auto using better_max, ltb_nan, nan_ltb.
  - intros H. apply (I5 H).
  - intros H N. apply spec_max. apply (I5 H). exact N.
Qed.
Theorem C146_running_minimum : forall w l, exists r, got_running MinMeterNan w l = Ok r /\
  (length l <= w -> is_least r l) /\
  (w < length l -> In nan (lastn w l) -> r = nan) /\
  (w < length l -> ~ In nan (lastn w l) -> is_least r (lastn w l)).
Proof.
  intros w l. unfold got_running, bind, MinMeterNan. destruct (run_all (fun v m => (v <? m)%float) infinity (fun a => (- ext a)%R) neg_ext_norm better_min nan_min eq_refl w l) as (s & E & (_ & _ & _ & I4 & I5)). rewrite E. unfold RunningStatistic_get, zoom. cbn [mt_get ExtremeMeter]. unfold gets. cbn [fst]. change (runst (maxst float) float) in s. exists (mx_max (rn_stat s)). split; [reflexivity|]. split; [|split].
  - intros H. rewrite I4 by assumption. apply spec_min. apply fold_worst; auto using better_min, ltb_nan, nan_ltb.
  - intros H. apply (I5 H).
  - intros H N. apply spec_min. apply (I5 H). exact N.
Qed.

(** ** Without missing values the meters are those of Model_Stats. *)
Lemma remove_agrees : forall x (l : list float), is_nan x = false -> list_remove is_or_equals x l = list_remove oeqb x l.
Proof. intros x l N. induction l as [|y l IH]; [reflexivity|]. cbn [list_remove]. unfold is_or_equals at 1. rewrite N, andb_false_r, orb_false_r. change (oeqb y x) with (y =? x)%float. rewrite IH. reflexivity. Qed.
Lemma remove_in : forall (e : float -> float -> bool) x (l l' : list float), list_remove e x l = Some l' -> forall v, In v l' -> In v l.
Proof.
  intros e x l. induction l as [|y l IH]; intros l' E v I; [discriminate|]. cbn [list_remove] in E. destruct (e y x); [injection E as <-; right; exact I|]. destruct (list_remove e x l) as [k|]; [|discriminate]. injection E as <-. destruct I as [<-|I]; [left; reflexivity|right; eapply IH; eauto].
Qed.
Lemma no_nan_existsb : forall l, ~ In nan l -> existsb is_nan l = false.
Proof. intros l H. destruct (existsb is_nan l) eqn:E; auto. apply existsb_exists in E. destruct E as (v & I & E). apply is_nan_iff in E. subst v. contradiction. Qed.
Theorem C146_agrees : forall (s : maxst float) x, 
  mt_update MaxMeterNan x s = mt_update (MaxMeter neg_infinity) x s /\ mt_update MinMeterNan x s = mt_update (MinMeter infinity) x s /\
  (is_nan x = false -> ~ In nan (mx_lst s) -> mt_remove MaxMeterNan x s = mt_remove (MaxMeter neg_infinity) x s /\ mt_remove MinMeterNan x s = mt_remove (MinMeter infinity) x s).
Proof.
  intros s x. split; [reflexivity|]. split; [reflexivity|]. intros Nx N. destruct s as [mx l]. cbn [mx_lst] in N. unfold MaxMeterNan, MinMeterNan, MaxMeter, MinMeter, ExtremeMeter. cbn [mt_remove]. unfold bind, gets. cbn [mx_lst]. rewrite remove_agrees by assumption.
  destruct (list_remove oeqb x l) as [k|] eqn:E; [|split; reflexivity].
  assert (Nk : ~ In nan k) by (intros Q; apply N; eapply remove_in; eauto). apply no_nan_existsb in Nk. destruct k as [|y k]; [split; reflexivity|]. unfold np_extreme, np_max, np_min. rewrite Nk. split; reflexivity.
Qed.

(** Concretely: over a window of two, nan is overlooked while two values have come, shown while it is among the last two, and then gone. *)
Example C146_example :
  map (fun n => got_running MaxMeterNan 2 (firstn n [1; nan; 3; 2; 1]%float)) [1; 2; 3; 4; 5] = [Ok 1; Ok 1; Ok nan; Ok 3; Ok 2]%float /\
  got_after MaxMeterNan [1; nan; 3]%float = Ok 3%float /\ got_after MinMeterNan [nan; 1; 3]%float = Ok 1%float /\
  got_running MaxMeterNan 1 [0; -0; -1]%float = Ok (-1)%float.
Proof. repeat split. Qed.
(** What one would expect, that a running maximum is either always nan while one is in the window or never, fails. *)
Theorem C146_same_rule_always_refuted : exists w l1 l2, In nan (lastn w l1) /\ In nan (lastn w l2) /\ got_running MaxMeterNan w l1 = Ok 1%float /\ got_running MaxMeterNan w l2 = Ok nan.
Proof. exists 2, [1; nan]%float, [1; nan; 3]%float. split; [right; left; reflexivity|]. split; [left; reflexivity|]. split; reflexivity. Qed.

Print Assumptions C146_maximum.
Print Assumptions C146_minimum.
Print Assumptions C146_running_maximum.
Print Assumptions C146_running_minimum.
Print Assumptions C146_same_rule_always_refuted.
Print Assumptions C146_agrees.
