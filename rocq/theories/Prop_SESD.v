(** * SeasonalESD and SeasonalHybridESD: generalized ESD (C78), scoring (C79). *)
From Coq Require Import List ZArith Lia Bool Arith Permutation.
From Coq Require Import Floats.
From Coq Require Import Reals Lra.
From Verif Require Import Base Num Spec Model_Stats Model_Utils Model_Core Model_Post Model_Trans Model_Simple P_Lists P_Utils P_Stats P_Post P_Models Model_SESD.
Import ListNotations.
Open Scope R_scope.

(** ** Specification *)
(** The positions of vs outside ps, in order, and their values. *)
Definition positions (n : nat) (ps : list nat) : list nat := filter (fun i => negb (existsb (Nat.eqb i) ps)) (seq 0 n).
Definition remaining (vs : list R) (ps : list nat) : list R := map (fun i => nth i vs 0) (positions (length vs) ps).
(** The two notions of centre and scale. *)
Definition sample_center_scale (l : list R) (c s : R) : Prop := c = mean l /\ s = sqrt (Rsum (map (fun v => (v - mean l) ^ 2) l) / (Rlen l - 1)).
Definition robust_center_scale (k : R) (l : list R) (c s : R) : Prop := is_median c l /\ exists q, is_median q (map (fun v => Rabs (v - c)) l) /\ s = k * q.
(** Position p has the largest studentised deviation st among the values left when ps is removed (the first one in case
    of ties). *)
Definition most_extreme (CS : list R -> R -> R -> Prop) (eps : R) (vs : list R) (ps : list nat) (p : nat) (st : R) : Prop :=
  (p < length vs)%nat /\ ~ In p ps /\ exists c s, CS (remaining vs ps) c s /\ eps < s /\ st = Rabs (nth p vs 0 - c) / s /\
  forall q, (q < length vs)%nat -> ~ In q ps -> Rabs (nth q vs 0 - c) / s <= st /\ ((q < p)%nat -> Rabs (nth q vs 0 - c) / s < st).
(** The critical value of step i (from 1) for n values. *)
Definition critical (ppf : R -> Z -> R) (alpha : R) (n i : Z) : R :=
  let t := ppf (1 - alpha / (2 * IZR (n - i + 1))) (n - i - 1)%Z in
  (IZR (n - i) * t) / sqrt ((IZR (n - i - 1) + t * t) * IZR (n - i + 1)).
Definition pos (c : nat * R * R) : nat := fst (fst c).
Definition stat (c : nat * R * R) : R := snd (fst c).
Definition thr (c : nat * R * R) : R := snd c.
Definition nil_cand : nat * R * R := (0%nat, 0, 0).
(** The candidates: up to m times the most extreme remaining value, stopping early only when the scale is at most eps. *)
Definition candidates (CS : list R -> R -> R -> Prop) (eps : R) (ppf : R -> Z -> R) (alpha : R) (m : nat) (vs : list R) (cs : list (nat * R * R)) : Prop :=
  (length cs <= m)%nat /\ NoDup (map pos cs) /\
  (forall k, (k < length cs)%nat -> most_extreme CS eps vs (firstn k (map pos cs)) (pos (nth k cs nil_cand)) (stat (nth k cs nil_cand)) /\
     thr (nth k cs nil_cand) = critical ppf alpha (Z.of_nat (length vs)) (Z.of_nat k + 1)) /\
  ((length cs < m)%nat -> exists c s, CS (remaining vs (map pos cs)) c s /\ s <= eps).
(** The anomalies: the candidates up to the last one whose statistic exceeds its critical value. *)
Definition anomalies (CS : list R -> R -> R -> Prop) (eps : R) ppf alpha m vs (ds : list (nat * R * R)) : Prop :=
  exists cs k, candidates CS eps ppf alpha m vs cs /\ ds = firstn k cs /\ (k <= length cs)%nat /\
  ((1 <= k)%nat -> thr (nth (k - 1) cs nil_cand) < stat (nth (k - 1) cs nil_cand)) /\
  (forall j, (k <= j < length cs)%nat -> stat (nth j cs nil_cand) <= thr (nth j cs nil_cand)).

(** ** Lemmas *)
Lemma argmax_from_spec : forall (l : list R) i best v, 
  let k := argmax_from l i best v in
  (k = best /\ (forall x, In x l -> x <= v)) \/ ((i <= k < i + length l)%nat /\ v < nth (k - i) l 0 /\ (forall x, In x l -> x <= nth (k - i) l 0) /\ forall j, (j < k - i)%nat -> nth j l 0 < nth (k - i) l 0).
Proof.
  induction l as [|x l IH]; intros i best v; cbn [argmax_from]. { left. split; auto. intros x []. }
  cbn [oltb OrdR num_ord NumR]. destruct (Rltb v x) eqn:E.
  - apply Rltb_lt in E. right. specialize (IH (S i) i x). cbv zeta in IH. destruct IH as [[Ek H]|(Hk & Hv & H & Hl)].
    + rewrite Ek. rewrite Nat.sub_diag. cbn [nth length]. split; [lia|]. split; auto. split; [|intros; lia]. intros y [<-|Hy]; [lra|auto].
    + set (k := argmax_from l (S i) i x) in *. replace (k - i)%nat with (S (k - S i)) by lia. cbn [nth length]. split; [lia|]. split; [lra|]. split. { intros y [<-|Hy]; [lra|auto]. } intros [|j] Hj; [lra|]. apply Hl. lia.
  - apply Rltb_nlt in E. specialize (IH (S i) best v). cbv zeta in IH. destruct IH as [[Ek H]|(Hk & Hv & H & Hl)].
    + left. split; auto. intros y [<-|Hy]; [lra|auto].
    + right. set (k := argmax_from l (S i) best v) in *. replace (k - i)%nat with (S (k - S i)) by lia. cbn [nth length]. split; [lia|]. split; [lra|]. split. { intros y [<-|Hy]; [lra|auto]. } intros [|j] Hj; [lra|]. apply Hl. lia.
Qed.
Lemma argmax_spec : forall l : list R, l <> [] -> exists k, np_argmax l = Ok k /\ (k < length l)%nat /\ forall j, (j < length l)%nat -> nth j l 0 <= nth k l 0 /\ ((j < k)%nat -> nth j l 0 < nth k l 0).
Proof.
  intros [|x l] H; [congruence|]. clear H. cbn [np_argmax]. eexists. split; [reflexivity|]. pose proof (argmax_from_spec l 1 0 x) as S0. cbv zeta in S0. set (k := argmax_from l 1 0 x) in *. destruct S0 as [[-> H]|(Hk & Hv & H & Hl)].
  - cbn [length nth]. split; [lia|]. intros [|j] Hj; cbn [nth]; (split; [|lia]); [lra|]. apply H. apply nth_In. lia.
  - cbn [length]. split; [lia|]. destruct k as [|k]; [lia|]. cbn [Nat.sub nth] in *. rewrite Nat.sub_0_r in *. intros [|j] Hj; cbn [nth]; [split; [lra|auto]|]. split; [apply H; apply nth_In; lia|]. intros. apply Hl. lia.
Qed.
Lemma positions_sorted : forall n ps i j, (i < j)%nat -> (j < length (positions n ps))%nat -> (nth i (positions n ps) 0 < nth j (positions n ps) 0)%nat.
Proof.
  intros n ps. unfold positions.
  cut (forall a i j, (i < j)%nat -> (j < length (filter (fun i => negb (existsb (Nat.eqb i) ps)) (seq a n)))%nat -> (nth i (filter (fun i => negb (existsb (Nat.eqb i) ps)) (seq a n)) 0 < nth j (filter (fun i => negb (existsb (Nat.eqb i) ps)) (seq a n)) 0)%nat). { intros G. apply G. }
  induction n as [|n IH]; intros a i j Hij Hj; [cbn in Hj; lia|]. cbn [seq filter] in *. destruct (negb (existsb (Nat.eqb a) ps)); [|apply IH; auto].
  destruct j as [|j]; [lia|]. cbn [length nth] in *. destruct i as [|i]; [|apply IH; lia]. assert (I : In (nth j (filter (fun i => negb (existsb (Nat.eqb i) ps)) (seq (S a) n)) 0%nat) (seq (S a) n)). { eapply incl_filter. apply nth_In. lia. } apply in_seq in I. lia.
Qed.
Lemma in_positions : forall n ps p, In p (positions n ps) <-> (p < n)%nat /\ ~ In p ps.
Proof.
  intros n ps p. unfold positions. rewrite filter_In, in_seq, negb_true_iff. assert (E : existsb (Nat.eqb p) ps = false <-> ~ In p ps). { rewrite <- not_true_iff_false, existsb_exists. split; intros H I; apply H; [exists p; split; auto; apply Nat.eqb_refl|]. destruct I as (q & Iq & Eq). apply Nat.eqb_eq in Eq. subst. auto. } rewrite E. intuition lia.
Qed.
Lemma positions_NoDup : forall n ps, NoDup (positions n ps).
Proof. intros. apply NoDup_filter, seq_NoDup. Qed.
Lemma delete_filter : forall l k, NoDup l -> (k < length l)%nat -> np_delete k l = filter (fun i => negb (i =? nth k l 0)%nat) l.
Proof.
  unfold np_delete. induction l as [|a l IH]; intros k N Hk; [cbn in Hk; lia|]. inversion N as [|? ? Na N']; subst. destruct k as [|k]; cbn [firstn skipn nth filter app length] in *.
  - rewrite Nat.eqb_refl. cbn [negb]. symmetry. clear - Na. induction l as [|b l IH]; auto. cbn [filter]. destruct (Nat.eqb_spec b a) as [->|]; [exfalso; apply Na; left; auto|]. cbn [negb]. f_equal. apply IH. intros I. apply Na. right. auto.
  - destruct (Nat.eqb_spec a (nth k l 0%nat)) as [->|]; [exfalso; apply Na; apply nth_In; lia|]. cbn [negb]. f_equal. apply IH; auto. lia.
Qed.
Lemma positions_snoc : forall n ps k, (k < length (positions n ps))%nat -> np_delete k (positions n ps) = positions n (ps ++ [nth k (positions n ps) 0%nat]).
Proof.
  intros n ps k Hk. rewrite delete_filter by (auto using positions_NoDup). unfold positions at 2 3. set (p := nth k (positions n ps) 0%nat). clearbody p. induction (seq 0 n) as [|a l IH]; auto. cbn [filter]. rewrite existsb_app. cbn [existsb]. rewrite orb_false_r.
  destruct (existsb (Nat.eqb a) ps); cbn [negb orb]; auto. cbn [filter]. destruct (a =? p)%nat; cbn [negb]; auto. f_equal. auto.
Qed.
Lemma delete_map : forall B C (g : B -> C) k l, np_delete k (map g l) = map g (np_delete k l).
Proof. intros. unfold np_delete. rewrite map_app, firstn_map, skipn_map. reflexivity. Qed.
Lemma delete_length : forall B k (l : list B), (k < length l)%nat -> length (np_delete k l) = (length l - 1)%nat.
Proof. intros. unfold np_delete. rewrite app_length, firstn_length, skipn_length. lia. Qed.

Section Loop.
Variables (CS : list R -> R -> R -> Prop) (eps : R) (cs : list R -> res (R * R)) (crit : Z -> R) (vs : list R).
Hypothesis Hcs : forall l, (2 <= length l)%nat -> exists c s, cs l = Ok (c, s) /\ CS l c s.
Hypothesis Heps : 0 < eps.
Lemma loop_ok : forall fuel i ps, (fuel + 1 <= length (positions (length vs) ps))%nat ->
  exists out, se_loop eps cs crit fuel i (remaining vs ps) (positions (length vs) ps) = Ok out /\ (length out <= fuel)%nat /\
    (forall k, (k < length out)%nat -> most_extreme CS eps vs (ps ++ firstn k (map pos out)) (pos (nth k out nil_cand)) (stat (nth k out nil_cand)) /\ thr (nth k out nil_cand) = crit (i + Z.of_nat k)%Z) /\
    ((length out < fuel)%nat -> exists c s, CS (remaining vs (ps ++ map pos out)) c s /\ s <= eps).
Proof.
  induction fuel as [|fuel IH]; intros i ps HL; cbn [se_loop].
  - exists []. split; auto. split; auto. split; [cbn; intros; lia|]. cbn. lia.
  - destruct (Hcs (remaining vs ps)) as (c & s & E & HC). { unfold remaining. rewrite map_length. lia. } rewrite E. cbn [rbind]. cbn [oleb num_ord NumR OrdR]. destruct (Rleb s eps) eqn:Es.
    + apply Rleb_le in Es. exists []. split; auto. split; [cbn; lia|]. split; [cbn; intros; lia|]. intros _. cbn [map]. rewrite app_nil_r. eauto.
    + apply Rleb_nle in Es. set (g := fun v => ndiv (nabs (nsub v c)) s). assert (Lr : length (remaining vs ps) = length (positions (length vs) ps)) by (unfold remaining; apply map_length).
      destruct (argmax_spec (map g (remaining vs ps))) as (k & Ek & Hk & Mk). { intros E0. apply (f_equal (@length _)) in E0. rewrite map_length in E0. cbn in E0. lia. } rewrite map_length in Hk, Mk. rewrite Ek. cbn [rbind].
      set (ix := positions (length vs) ps) in *. rewrite (P_Utils.py_index_nth _ ix k 0%nat) by lia. cbn [rbind]. rewrite (P_Utils.py_index_nth _ (map g (remaining vs ps)) k 0) by (rewrite map_length; lia). cbn [rbind].
      assert (Ng : forall j, (j < length ix)%nat -> nth j (map g (remaining vs ps)) 0 = Rabs (nth (nth j ix 0%nat) vs 0 - c) / s). { intros j Hj. unfold remaining. fold ix. rewrite map_map. rewrite (nth_indep _ 0 (g (nth 0 vs 0))) by (rewrite map_length; auto). rewrite (map_nth (fun q => g (nth q vs 0)) ix 0%nat j). reflexivity. }
      set (p := nth k ix 0%nat) in *. rewrite Ng by lia. fold p.
      assert (Ed : np_delete k (remaining vs ps) = remaining vs (ps ++ [p])). { unfold remaining. rewrite delete_map. fold ix. unfold ix at 1. rewrite positions_snoc by (fold ix; lia). reflexivity. } rewrite Ed. unfold ix at 1. rewrite positions_snoc by (fold ix; lia). fold ix. fold p.
      assert (Lp : length (positions (length vs) (ps ++ [p])) = (length ix - 1)%nat). { unfold p, ix. rewrite <- positions_snoc by (fold ix; lia). apply delete_length. fold ix. lia. }
      destruct (IH (i + 1)%Z (ps ++ [p])) as (out & Eo & Lo & So & To). { rewrite Lp. lia. } rewrite Eo. cbn [rmap]. eexists. split; [reflexivity|]. cbn [length map]. split; [lia|]. 
      assert (Ip : In p ix) by (apply nth_In; lia). apply in_positions in Ip. change (pos (p, Rabs (nth p vs 0 - c) / s, crit i)) with p. split.
      * intros [|q] Hq.
        -- cbn [firstn nth]. rewrite app_nil_r, Z.add_0_r. change (pos (p, Rabs (nth p vs 0 - c) / s, crit i)) with p. change (stat (p, Rabs (nth p vs 0 - c) / s, crit i)) with (Rabs (nth p vs 0 - c) / s). split; [|reflexivity]. split; [tauto|]. split; [tauto|]. exists c, s. split; auto. split; [lra|]. split; auto.
           intros q Hq1 Hq2. assert (Iq : In q ix) by (apply in_positions; auto). apply (In_nth _ _ 0%nat) in Iq. destruct Iq as (j & Hj & <-). specialize (Mk j ltac:(lia)). rewrite !Ng in Mk by lia. fold p in Mk. split; [tauto|]. intros Hlt. apply Mk.
           destruct (lt_eq_lt_dec j k) as [[L|L]|L]; auto; exfalso. { subst j. unfold p in Hlt. lia. } pose proof (positions_sorted (length vs) ps k j L Hj) as P. fold ix in P. fold p in P. lia.
        -- cbn [firstn nth]. destruct (So q ltac:(lia)) as [A B]. rewrite <- app_assoc in A. split; auto. rewrite B. f_equal. lia.
      * intros Hl. destruct (To ltac:(lia)) as (c' & s' & A & B). rewrite <- app_assoc in A. eauto.
Qed.
End Loop.
Lemma combine_snoc : forall B C (a : list B) (b : list C) x y, length a = length b -> combine (a ++ [x]) (b ++ [y]) = combine a b ++ [(x, y)].
Proof. intros B C a. induction a as [|u a IH]; intros [|w b] x y L; try discriminate; cbn; auto. f_equal. apply IH. auto. Qed.
Lemma selected_spec : forall out : list (nat * R * R), let k := se_selected out in (k <= length out)%nat /\ ((1 <= k)%nat -> thr (nth (k - 1) out nil_cand) < stat (nth (k - 1) out nil_cand)) /\
  (forall j, (k <= j < length out)%nat -> stat (nth j out nil_cand) <= thr (nth j out nil_cand)).
Proof.
  intros out. induction out as [|c out IH] using rev_ind; cbv zeta in *. { cbn. repeat split; intros; lia. }
  assert (E : se_selected (out ++ [c]) = if Rltb (thr c) (stat c) then S (length out) else se_selected out).
  { unfold se_selected. rewrite app_length. cbn [length]. rewrite seq_app. cbn [seq]. rewrite combine_snoc by apply seq_length. rewrite fold_left_app. cbn [fold_left]. destruct c as [[p st] cr]. reflexivity. }
  rewrite E, app_length. cbn [length]. destruct IH as (I1 & I2 & I3). destruct (Rltb (thr c) (stat c)) eqn:Q.
  - apply Rltb_lt in Q. split; [lia|]. split; [|lia]. intros _. cbn [Nat.sub]. rewrite Nat.sub_0_r, app_nth2, Nat.sub_diag by lia. exact Q.
  - apply Rltb_nlt in Q. set (k := se_selected out) in *. split; [lia|]. split. { intros Hk. rewrite app_nth1 by lia. auto. }
    intros j Hj. destruct (Nat.eq_dec j (length out)) as [->|]; [rewrite app_nth2, Nat.sub_diag by lia; cbn; lra|]. rewrite app_nth1 by lia. apply I3. lia.
Qed.
Lemma sample_cs_ok : forall l : list R, (2 <= length l)%nat -> exists c s, se_center_scale l = Ok (c, s) /\ sample_center_scale l c s.
Proof.
  intros l H. unfold se_center_scale. rewrite np_mean_R by (destruct l; [cbn in H; lia|discriminate]). cbn [rbind]. unfold div_int. destruct (Z.eqb_spec (Z.of_nat (length l) - 1) 0); [lia|]. cbn [rbind]. do 2 eexists. split; [reflexivity|]. split; auto.
  rewrite nsum_Rsum. cbn [nsqrt ndiv nofZ NumR]. unfold Rlen. rewrite INR_IZR_INZ, minus_IZR. do 3 f_equal. apply map_ext. intros v. unfold nsq. cbn [nmul nsub NumR]. ring.
Qed.
Lemma robust_cs_ok : forall k (l : list R), (2 <= length l)%nat -> exists c s, hybrid_center_scale k l = Ok (c, s) /\ robust_center_scale k l c s.
Proof.
  intros k l H. assert (NE : l <> []) by (destruct l; [cbn in H; lia|discriminate]). unfold hybrid_center_scale. rewrite np_median_R by auto. cbn [rbind]. rewrite np_median_R by (destruct l; [congruence|discriminate]). cbn [rbind]. do 2 eexists. split; [reflexivity|]. split; [apply median_fn_spec; auto|]. eexists. split; [apply median_fn_spec; destruct l; [congruence|discriminate]|reflexivity].
Qed.

(** ** C78 *)
Lemma candidates_nodup : forall CS eps vs (cs : list (nat * R * R)), (forall k, (k < length cs)%nat -> most_extreme CS eps vs (firstn k (map pos cs)) (pos (nth k cs nil_cand)) (stat (nth k cs nil_cand))) -> NoDup (map pos cs).
Proof.
  intros CS eps vs cs H. apply NoDup_nth with (d := 0%nat). rewrite map_length. intros i j Hi Hj E.
  assert (G : forall i j, (i < j)%nat -> (j < length cs)%nat -> nth i (map pos cs) 0%nat = nth j (map pos cs) 0%nat -> False).
  { clear - H. intros i j Hij Hj E. destruct (H j Hj) as (_ & N & _). apply N. change (pos (nth j cs nil_cand)) with (pos (nth j cs nil_cand)). rewrite <- (map_nth pos cs nil_cand j). change (pos nil_cand) with 0%nat. rewrite <- E.
    rewrite <- (firstn_skipn j (map pos cs)) at 1. rewrite app_nth1; [apply nth_In|]; rewrite firstn_length, map_length; lia. }
  destruct (lt_eq_lt_dec i j) as [[L|L]|L]; auto; exfalso; eapply G; eauto.
Qed.
Lemma esd_ok : forall CS eps cs ppf alpha m vs, (forall l, (2 <= length l)%nat -> exists c s, cs l = Ok (c, s) /\ CS l c s) -> (1 <= m)%Z -> (m + 1 <= Z.of_nat (length vs))%Z ->
  exists ds, se_esd eps cs ppf alpha m vs = Ok ds /\ anomalies CS eps ppf alpha (Z.to_nat m) vs ds.
Proof.
  intros CS eps cs ppf alpha m vs Hcs Hm HL. unfold se_esd.
  assert (E0 : positions (length vs) [] = seq 0 (length vs)). { unfold positions. cbn [existsb negb]. clear. induction (seq 0 (length vs)) as [|a l IH]; auto. cbn. rewrite IH. reflexivity. }
  assert (E1 : remaining vs [] = vs) by (unfold remaining; rewrite E0; apply P_Utils.map_nth_seq).
  destruct (loop_ok CS eps cs (se_critical ppf alpha (Z.of_nat (length vs))) vs Hcs (Z.to_nat m) 1 []) as (out & Eo & Lo & So & To). { rewrite E0, seq_length. lia. }
  rewrite E0, E1 in Eo. rewrite Eo. cbn [rbind]. eexists. split; [reflexivity|]. exists out, (se_selected out). cbn [app] in So, To. destruct (selected_spec out) as (I1 & I2 & I3). split; [|auto].
  split; auto. split; [apply (candidates_nodup CS eps vs); intros k Hk; apply So; auto|]. split; auto. intros k Hk. destruct (So k Hk) as [A B]. split; auto. rewrite B. replace (1 + Z.of_nat k)%Z with (Z.of_nat k + 1)%Z by lia. reflexivity.
Qed.
(** SeasonalESD: generalized ESD with the sample mean and standard deviation ... *)
Theorem C78_esd : forall eps ppf alpha m vs, (1 <= m)%Z -> (m + 1 <= Z.of_nat (length vs))%Z ->
  exists ds, se_esd eps se_center_scale ppf alpha m vs = Ok ds /\ anomalies sample_center_scale eps ppf alpha (Z.to_nat m) vs ds.
Proof. intros. apply esd_ok; auto. apply sample_cs_ok. Qed.
Print Assumptions C78_esd.
(** ... and SeasonalHybridESD: with the median and the scaled median absolute deviation. *)
Theorem C78_hybrid_esd : forall eps k ppf alpha m vs, (1 <= m)%Z -> (m + 1 <= Z.of_nat (length vs))%Z ->
  exists ds, se_esd eps (hybrid_center_scale k) ppf alpha m vs = Ok ds /\ anomalies (robust_center_scale k) eps ppf alpha (Z.to_nat m) vs ds.
Proof. intros. apply esd_ok; auto. apply robust_cs_ok. Qed.
Print Assumptions C78_hybrid_esd.
(** The anomalies are at most m, at distinct valid positions, with non-negative statistics. *)
Theorem C78_anomalies_bound : forall CS eps ppf alpha m vs ds, 0 <= eps -> anomalies CS eps ppf alpha m vs ds ->
  (length ds <= m)%nat /\ NoDup (map pos ds) /\ Forall (fun d => (pos d < length vs)%nat /\ 0 <= stat d) ds.
Proof.
  intros CS eps ppf alpha m vs ds He (cs & k & (L & N & S0 & _) & -> & Hk & _). split; [rewrite firstn_length; lia|]. split.
  - rewrite <- firstn_map. rewrite <- (firstn_skipn k (map pos cs)) in N. revert N. generalize (firstn k (map pos cs)) (skipn k (map pos cs)). clear. induction l as [|a l IH]; intros l0 N; [constructor|]. cbn in N. inversion N; subst. constructor; [intros I; apply H1; apply in_or_app; auto|eauto].
  - apply Forall_forall. intros d Hd. assert (In d cs) as I by (rewrite <- (firstn_skipn k cs); apply in_or_app; auto). apply (In_nth _ _ nil_cand) in I. destruct I as (j & Hj & <-). destruct (S0 j Hj) as [(A & _ & c & s & _ & Hs & E & _) _]. split; auto. rewrite E. apply Rmult_le_pos; [apply Rabs_pos|]. left. apply Rinv_0_lt_compat. lra.
Qed.
Print Assumptions C78_anomalies_bound.
(** The constructor accepts exactly these parameters ... *)
Theorem C78_constructor : forall period w m (alpha : R), (exists s, SESD_init period w m alpha = Ok s) <-> (2 <= period)%Z /\ (2 * period <= w)%Z /\ (1 <= m)%Z /\ (100 * m <= 49 * w)%Z /\ 0 < alpha < 1.
Proof.
  intros period w m alpha. assert (D : (49 * w / 100 < m <-> ~ 100 * m <= 49 * w)%Z). { split; intros H. - intros H2. assert (m <= 49 * w / 100)%Z by (apply Z.div_le_lower_bound; lia). lia. - apply Z.div_lt_upper_bound; lia. }
  unfold SESD_init, MSTL_init. cbn [oltb num_ord NumR OrdR nofZ n0]. destruct (Z.ltb_spec m 1). { split; [intros [? ?]; discriminate|lia]. } destruct (Z.ltb_spec w (2 * period)). { split; [intros [? ?]; discriminate|lia]. }
  destruct (Z.ltb_spec (49 * w / 100) m). { split; [intros [? ?]; discriminate|]. intros Q. destruct D as [D _]. specialize (D ltac:(auto)). lia. }
  destruct (Rltb 0 alpha) eqn:A1; cbn [andb negb]. 2: { split; [intros [? ?]; discriminate|]. apply Rltb_nlt in A1. intros (_ & _ & _ & _ & ? & _). lra. } destruct (Rltb alpha 1) eqn:A2; cbn [negb]. 2: { split; [intros [? ?]; discriminate|]. apply Rltb_nlt in A2. intros (_ & _ & _ & _ & _ & ?). lra. }
  apply Rltb_lt in A1. apply Rltb_lt in A2. destruct (Z.ltb_spec period 2); cbn [rbind]. { split; [intros [? ?]; discriminate|lia]. } split; [intros _|intros _; eexists; reflexivity]. repeat split; auto; lia.
Qed.
Print Assumptions C78_constructor.
(** ... and they guarantee, at every step of the procedure on a full window, at least two degrees of freedom, at least
    three remaining values, and a positive number under the square root of the critical value. *)
Theorem C78_degrees_of_freedom : forall period w m (alpha : R) s i t, SESD_init period w m alpha = Ok s -> (1 <= i <= m)%Z ->
  (1 <= w - i - 1)%Z /\ (3 <= w - i + 1)%Z /\ (m + 1 <= w)%Z /\ 0 < (IZR (w - i - 1) + t * t) * IZR (w - i + 1) /\ 0 < alpha / (2 * IZR (w - i + 1)) < 1.
Proof.
  intros period w m alpha s i t E Hi. destruct (proj1 (C78_constructor period w m alpha)) as (H1 & H2 & H3 & H4 & H5); [eauto|].
  split; [lia|]. split; [lia|]. split; [lia|]. assert (A : 1 <= IZR (w - i - 1)) by (apply IZR_le; lia). assert (B : 3 <= IZR (w - i + 1)) by (apply IZR_le; lia). split.
  - apply Rmult_lt_0_compat; [|lra]. pose proof (Rle_0_sqr t) as Q. unfold Rsqr in Q. lra.
  - split; [apply Rdiv_lt_0_compat; lra|]. apply Rmult_lt_reg_r with (2 * IZR (w - i + 1)); [lra|]. unfold Rdiv. rewrite Rmult_assoc, Rinv_l by lra. lra.
Qed.
Print Assumptions C78_degrees_of_freedom.

(** ** C79 *)
(** The values a history has stored: those of the fit calls with a one-element instance. *)
Definition se_stored {Y} (h : list (mcall (list R) Y)) : list R := flat_map (fun c => match fst c with [v] => [v] | _ => [] end) (fitted_calls h).
Definition se_inv (period w m : Z) (alpha : R) (vs : list R) (s : sesd R) : Prop :=
  se_period s = period /\ se_wsize s = w /\ se_max s = m /\ se_alpha s = alpha /\ wd_size (se_window s) = w /\ wd_items (se_window s) = lastn (Z.to_nat w) vs.
Lemma se_fit_step : forall period w m alpha vs s x, se_inv period w m alpha vs s ->
  exists s', se_fit x s = (match x with [_] => Ok tt | _ => Raise ValueError end, s') /\ se_inv period w m alpha (vs ++ match x with [v] => [v] | _ => [] end) s'.
Proof.
  intros period w m alpha vs s x (I1 & I2 & I3 & I4 & I5 & I6). unfold se_fit, bind, lift. destruct x as [|v [|? ?]]; cbn [se_value]; try (eexists; split; [reflexivity|]; rewrite app_nil_r; split; auto 10).
  unfold zoom. rewrite <- I5 in I6. destruct (window_update_step _ v (se_window s) vs I6) as (w' & E & S0 & J). rewrite E. eexists. split; [reflexivity|]. unfold se_inv. cbn [se_period se_wsize se_max se_alpha se_window]. rewrite J, S0, I5. auto 10.
Qed.
Lemma se_run : forall Y eps cs ppf stl period w m alpha s0 (h : list (mcall (list R) Y)), SESD_init period w m alpha = Ok s0 -> se_inv period w m alpha (se_stored h) (model_run (SeasonalESD (Y := Y) eps cs ppf stl) s0 h).
Proof.
  intros Y eps cs ppf stl period w m alpha s0 h E.
  assert (I0 : se_inv period w m alpha [] s0). { unfold SESD_init in E. repeat match type of E with (if ?b then _ else _) = _ => destruct b; [discriminate|] end. destruct (MSTL_init _ _); [|discriminate]. cbn [rbind] in E. inversion E. unfold se_inv. cbn [se_period se_wsize se_max se_alpha se_window Window_init wd_size wd_items]. rewrite lastn_nil. auto 10. }
  pose proof (model_run_inv _ Y R _ (SeasonalESD (Y := Y) eps cs ppf stl) (fun o => flat_map (fun c : list R * option Y => match fst c with [v] => [v] | _ => [] end) (call_fit o)) (se_inv period w m alpha)) as G.
  unfold se_stored, fitted_calls. replace (flat_map (fun c : list R * option Y => match fst c with [v] => [v] | _ => [] end) (flat_map call_fit h)) with ([] ++ flat_map (fun o => flat_map (fun c : list R * option Y => match fst c with [v] => [v] | _ => [] end) (call_fit o)) h).
  2: { cbn [app]. clear. induction h as [|o h IH]; auto. cbn [flat_map]. rewrite flat_map_app, IH. reflexivity. }
  apply G; auto. clear. intros o l s I. unfold model_do, exec. destruct o as [x y|x|x y]; cbn [model_call call_fit flat_map fst md_fit md_score md_fit_score SeasonalESD]; rewrite ?app_nil_r.
  - destruct (se_fit_step _ _ _ _ _ _ x I) as (s' & E & I'). rewrite E. exact I'.
  - unfold bind, gets, lift. destruct (se_value x); [|exact I]. destruct (se_score_window _ _ _ _ _ _); exact I.
  - destruct (se_fit_step _ _ _ _ _ _ x I) as (s' & E & I'). unfold bind at 1. rewrite E. destruct x as [|v [|? ?]]; cbn [snd]; auto. unfold bind, gets, lift. destruct (se_score_window _ _ _ _ _ _); exact I'.
Qed.
(** On every reachable object score_partial(x) returns, or raises, what fit_score_partial(x) would, and changes nothing. *)
Theorem C79_preview : forall Y eps cs ppf stl period w m alpha s0 (h : list (mcall (list R) Y)) x y, SESD_init period w m alpha = Ok s0 ->
  let s := model_run (SeasonalESD (Y := Y) eps cs ppf stl) s0 h in
  eval (md_score (SeasonalESD (Y := Y) eps cs ppf stl) x) s = eval (md_fit_score (SeasonalESD (Y := Y) eps cs ppf stl) x y) s /\ exec (md_score (SeasonalESD (Y := Y) eps cs ppf stl) x) s = s.
Proof.
  intros Y eps cs ppf stl period w m alpha s0 h x y E s. pose proof (se_run Y eps cs ppf stl _ _ _ _ _ h E) as I. fold s in I. clearbody s. destruct (proj1 (C78_constructor period w m alpha)) as (H1 & H2 & _); [eauto|]. split.
  - destruct (se_fit_step _ _ _ _ _ _ x I) as (s' & E' & I'). unfold eval. cbn [md_score md_fit_score SeasonalESD]. unfold bind at 4. rewrite E'. unfold bind, gets, lift. destruct x as [|v [|? ?]]; cbn [se_value]; auto.
    destruct I as (I1 & I2 & I3 & I4 & I5 & I6). destruct I' as (J1 & J2 & J3 & J4 & J5 & J6). unfold py_last_slice. rewrite I2. destruct (Z.leb_spec w 0); [lia|]. rewrite I6, J6, lastn_app_lastn. unfold se_score_window. rewrite I1, I2, I3, I4, J1, J2, J3, J4. match goal with |- context [if ?b then Ok n0 else ?r] => destruct (if b then Ok n0 else r) end; reflexivity.
  - unfold exec. cbn [md_score SeasonalESD]. unfold bind, gets, lift. destruct (se_value x); auto. destruct (se_score_window _ _ _ _ _ _); auto.
Qed.
Print Assumptions C79_preview.
(** The score: 0 until the window is full; afterwards the studentised deviation of the newest residual if the newest
    value is one of the anomalies of the window's residuals, and 0 otherwise.  Never negative. *)
Theorem C79_score : forall Y eps cs CS ppf stl period w m alpha s0 (h : list (mcall (list R) Y)) v, SESD_init period w m alpha = Ok s0 -> 0 <= eps ->
  (forall l, (2 <= length l)%nat -> exists c s, cs l = Ok (c, s) /\ CS l c s) -> (forall x, exists sn, stl x = Ok sn /\ length sn = length x) ->
  let vs := se_stored h ++ [v] in let n := Z.to_nat w in let x := lastn n vs in
  exists r, eval (md_score (SeasonalESD (Y := Y) eps cs ppf stl) [v]) (model_run (SeasonalESD (Y := Y) eps cs ppf stl) s0 h) = Ok (VScalar r) /\ 0 <= r /\
  ((length vs < n)%nat -> r = 0) /\
  ((n <= length vs)%nat -> exists sn md res ds, stl x = Ok sn /\ is_median md x /\ res = map (fun i => nth i x 0 - nth i sn 0 - md) (seq 0 n) /\ anomalies CS eps ppf alpha (Z.to_nat m) res ds /\
     ((exists c, In (n - 1, r, c)%nat ds) \/ (r = 0 /\ ~ In (n - 1)%nat (map pos ds)))).
Proof.
  intros Y eps cs CS ppf stl period w m alpha s0 h v E He Hcs Hstl vs n x. pose proof (se_run Y eps cs ppf stl _ _ _ _ _ h E) as (I1 & I2 & I3 & I4 & I5 & I6). destruct (proj1 (C78_constructor period w m alpha)) as (H1 & H2 & H3 & H4 & H5); [eauto|].
  unfold eval. cbn [md_score SeasonalESD]. unfold bind, gets, lift. cbn [se_value]. unfold py_last_slice. rewrite I2. destruct (Z.leb_spec w 0); [lia|]. rewrite I6, lastn_app_lastn. fold n. change (se_stored h ++ [v]) with vs. fold x. unfold se_score_window. rewrite I1, I2, I3, I4.
  assert (Lx : length x = Nat.min n (length vs)) by (unfold x; rewrite lastn_length; lia).
  destruct (Z.ltb_spec (Z.of_nat (length x)) w) as [L|L].
  - exists 0. split; auto. split; [lra|]. split; auto. intros. lia.
  - assert (Ln : length x = n) by lia. destruct (Hstl x) as (sn & Esn & Lsn). unfold transform_window. cbn [as_univariate as_array rbind]. destruct (Z.ltb_spec (Z.of_nat (length x)) (2 * period)); [lia|]. rewrite Esn. cbn [rbind]. unfold np_zip. rewrite Lsn, Nat.eqb_refl. cbn [rbind]. assert (NE : x <> []) by (intros Q; rewrite Q in Ln; cbn in Ln; lia). rewrite np_median_R by auto. cbn [rbind].
    set (res := map (fun v0 => nsub v0 (median_fn x)) (map2 nsub x sn)).
    assert (Er : res = map (fun i => nth i x 0 - nth i sn 0 - median_fn x) (seq 0 n)). { unfold res, map2. rewrite map_map. rewrite <- Ln. clear - Lsn. revert sn Lsn. generalize (median_fn x). intros q. induction x as [|a x IH]; intros [|b sn] L; try discriminate; auto. cbn [combine map length seq nth fst snd]. f_equal. rewrite IH by (cbn in L; lia). rewrite <- (seq_shift (length x) 0), map_map. reflexivity. }
    assert (Lr : length res = n) by (rewrite Er, map_length, seq_length; auto). destruct (esd_ok CS eps cs ppf alpha m res Hcs H3) as (ds & Ed & An); [lia|]. rewrite Ed. cbn [rbind]. eexists. split; [reflexivity|]. destruct (C78_anomalies_bound CS eps ppf alpha _ res ds He An) as (_ & _ & Fd).
    rewrite Ln. match goal with |- context [find ?g ds] => set (g0 := g) end. destruct (find g0 ds) as [[[p st] c]|] eqn:F.
    + apply find_some in F. destruct F as [F1 F2]. cbn in F2. apply Nat.eqb_eq in F2. subst p. rewrite Forall_forall in Fd. destruct (Fd _ F1) as [_ Q]. split; [exact Q|]. split; [lia|]. intros _. exists sn, (median_fn x), res, ds. split; auto. split; [apply median_fn_spec; auto|]. split; auto. split; auto. left. exists c. auto.
    + split; [cbn; lra|]. split; [lia|]. intros _. exists sn, (median_fn x), res, ds. split; auto. split; [apply median_fn_spec; auto|]. split; auto. split; auto. right. split; auto. intros I. apply in_map_iff in I. destruct I as ([[p st] c] & Ep & I). cbn in Ep. subst p. pose proof (find_none _ _ F _ I) as Q. cbn in Q. rewrite Nat.eqb_refl in Q. discriminate.
Qed.
Print Assumptions C79_score.
(** Period 2, window 8, at most 3 anomalies; the sample and the robust centre/scale and a constant decomposition meet
    the hypotheses of C79_score. *)
Example C78_ex : exists s, SESD_init 2 8 3 (1 / 20) = Ok s.
Proof. apply C78_constructor. repeat split; try lia; lra. Qed.
Example C79_ex : forall v k, exists s0 r, SESD_init 2 8 3 (1 / 20) = Ok s0 /\
  eval (md_score (SeasonalESD (Y := unit) (1 / 10) (hybrid_center_scale k) (fun _ _ => 2) (fun x => Ok (map (fun _ => 0) x))) [v]) s0 = Ok (VScalar r).
Proof.
  intros v k. destruct C78_ex as (s0 & E).
  destruct (C79_score unit (1 / 10) (hybrid_center_scale k) (robust_center_scale k) (fun _ _ => 2) (fun x => Ok (map (fun _ => 0) x)) 2 8 3 (1 / 20) s0 [] v E ltac:(lra) (robust_cs_ok k)) as (r & Er & _). { intros x. eexists. split; [reflexivity|]. apply map_length. }
  exists s0, r. split; auto.
Qed.
(** The procedure at work (in floating point): with two outliers 9 and -7 among small values, both are found, the larger first. *)
Example C78_run : exists a b c d, se_esd (A := PrimFloat.float) 1e-10%float (hybrid_center_scale 1.4826%float) (fun _ _ => 2%float) 0.05%float 3
    [0.1; -0.2; 9; 0.3; 0.2; -7; -0.1; 0]%float = Ok [(2%nat, a, b); (5%nat, c, d)].
Proof. do 4 eexists. vm_compute. reflexivity. Qed.
