(** * Lemmas about Model_Metrics. *)
From Coq Require Import List ZArith Lia Bool Reals Lra Arith Permutation Sorted.
From Verif Require Import Base Num Spec Model_Stats Model_Eval Model_Metrics P_Lists.
Import ListNotations.
Open Scope R_scope.

(** Scores of the instances labelled 1, of those labelled 0, and the number of elements of a list that are at least [t]. *)
Definition positives (h : list (bool * R)) : list R := map snd (filter fst h).
Definition negatives (h : list (bool * R)) : list R := map snd (filter (fun q => negb (fst q)) h).
Definition at_least (t : R) (l : list R) : nat := length (filter (fun s => Rleb t s) l).

(** ** Sorting *)
Definition desc (a b : bool * R) : Prop := snd b <= snd a.
Lemma ss_app : forall A (Q : A -> A -> Prop) a b, StronglySorted Q a -> StronglySorted Q b -> (forall x y, In x a -> In y b -> Q x y) -> StronglySorted Q (a ++ b).
Proof.
  intros A Q a b Ha Hb. induction Ha as [|x a Ha IH F]; intros C; auto. cbn [app]. constructor.
  - apply IH. intros; apply C; auto. right; auto.
  - apply Forall_app. split; auto. apply Forall_forall. intros y I. apply C; auto. left; auto.
Qed.
Lemma ss_mid : forall A (Q : A -> A -> Prop) a x b, StronglySorted Q (a ++ x :: b) -> Forall (fun y => Q y x) a /\ Forall (Q x) b.
Proof.
  intros A Q a x b. induction a as [|y a IH]; cbn [app]; intros S; inversion S as [|? ? S' F]; subst.
  - split; auto.
  - destruct (IH S') as [I1 I2]. split; auto. constructor; auto. rewrite Forall_forall in F. apply F. apply in_or_app. right; left; auto.
Qed.
Lemma ss_rev : forall A (Q : A -> A -> Prop) l, StronglySorted Q l -> StronglySorted (fun a b => Q b a) (rev l).
Proof.
  intros A Q l S. induction S as [|x l S IH F]; [constructor|]. cbn [rev]. apply ss_app; auto.
  - repeat constructor.
  - intros a b Ia [<-|[]]. rewrite Forall_forall in F. apply F. apply in_rev. auto.
Qed.
Lemma ins_perm : forall (x : bool * R) l, Permutation (ins_score x l) (x :: l).
Proof.
  intros x l. induction l as [|y l IH]; cbn [ins_score]; auto. destruct (oleb (snd x) (snd y)); auto.
  etransitivity; [apply perm_skip, IH|]. apply perm_swap.
Qed.
Lemma ins_sorted : forall (x : bool * R) l, StronglySorted (fun a b => snd a <= snd b) l -> StronglySorted (fun a b => snd a <= snd b) (ins_score x l).
Proof.
  intros x l S. induction S as [|y l S IH F]; cbn [ins_score]; [repeat constructor|].
  destruct (oleb (snd x) (snd y)) eqn:E.
  - cbn in E. apply Rleb_le in E. constructor; [constructor; auto|]. constructor; auto. eapply Forall_impl; [|exact F]. intros z Hz. cbn in Hz. lra.
  - cbn in E. apply Rleb_nle in E. constructor; auto. apply Forall_forall. intros z Iz. apply (Permutation_in _ (ins_perm x l)) in Iz.
    destruct Iz as [<-|Iz]; [lra|]. rewrite Forall_forall in F. apply F; auto.
Qed.
Lemma by_score_perm : forall l : list (bool * R), Permutation (by_score_desc l) l.
Proof.
  intros l. unfold by_score_desc. etransitivity; [symmetry; apply Permutation_rev|]. induction l as [|x l IH]; cbn [fold_right]; auto.
  etransitivity; [apply ins_perm|]. apply perm_skip, IH.
Qed.
Lemma by_score_sorted : forall l : list (bool * R), StronglySorted desc (by_score_desc l).
Proof.
  intros l. unfold by_score_desc. apply (ss_rev _ (fun a b : bool * R => snd a <= snd b)). induction l as [|x l IH]; cbn [fold_right]; [constructor|]. apply ins_sorted, IH.
Qed.

(** ** Counting *)
Lemma filter_perm : forall A (f : A -> bool) l l', Permutation l l' -> Permutation (filter f l) (filter f l').
Proof.
  intros A f l l' H. induction H as [|x l l' H IH|x y l|l1 l2 l3 H1 IH1 H2 IH2]; cbn [filter]; auto.
  - destruct (f x); auto.
  - destruct (f x), (f y); auto using perm_swap.
  - etransitivity; eauto.
Qed.
Lemma positives_perm : forall h h', Permutation h h' -> Permutation (positives h) (positives h').
Proof. intros. unfold positives. apply Permutation_map, filter_perm; auto. Qed.
Lemma negatives_perm : forall h h', Permutation h h' -> Permutation (negatives h) (negatives h').
Proof. intros. unfold negatives. apply Permutation_map, filter_perm; auto. Qed.
Lemma at_least_perm : forall t l l', Permutation l l' -> at_least t l = at_least t l'.
Proof. intros. unfold at_least. apply Permutation_length, filter_perm; auto. Qed.
Lemma positives_app : forall a b, positives (a ++ b) = positives a ++ positives b.
Proof. intros. unfold positives. rewrite filter_app, map_app. reflexivity. Qed.
Lemma negatives_app : forall a b, negatives (a ++ b) = negatives a ++ negatives b.
Proof. intros. unfold negatives. rewrite filter_app, map_app. reflexivity. Qed.
Lemma at_least_app : forall t a b, at_least t (a ++ b) = (at_least t a + at_least t b)%nat.
Proof. intros. unfold at_least. rewrite filter_app, app_length. reflexivity. Qed.
Lemma at_least_all : forall t l, (forall s, In s l -> t <= s) -> at_least t l = length l.
Proof.
  intros t l H. unfold at_least. induction l as [|s l IH]; auto. cbn [filter]. replace (Rleb t s) with true.
  - cbn [length]. rewrite IH; auto. intros; apply H; right; auto.
  - symmetry. apply Rleb_le, H. left; auto.
Qed.
Lemma at_least_none : forall t l, (forall s, In s l -> s < t) -> at_least t l = 0%nat.
Proof.
  intros t l H. unfold at_least. induction l as [|s l IH]; auto. cbn [filter]. replace (Rleb t s) with false.
  - apply IH. intros; apply H; right; auto.
  - symmetry. apply Rleb_nle. specialize (H s (or_introl eq_refl)). lra.
Qed.
Lemma in_positives : forall h s, In s (positives h) <-> In (true, s) h.
Proof.
  intros h s. unfold positives. rewrite in_map_iff. split.
  - intros ([y u] & <- & I). apply filter_In in I. destruct I as [I E]. cbn in E. subst y. auto.
  - intros I. exists (true, s). split; auto. apply filter_In. auto.
Qed.
Lemma in_negatives : forall h s, In s (negatives h) <-> In (false, s) h.
Proof.
  intros h s. unfold negatives. rewrite in_map_iff. split.
  - intros ([y u] & <- & I). apply filter_In in I. destruct I as [I E]. cbn in E. destruct y; [discriminate|]. auto.
  - intros I. exists (false, s). split; auto. apply filter_In. auto.
Qed.
Lemma in_scores : forall h s, In s (map snd h) <-> In s (positives h) \/ In s (negatives h).
Proof.
  intros h s. rewrite in_positives, in_negatives, in_map_iff. split.
  - intros ([y u] & <- & I). destruct y; auto.
  - intros [I|I]; eexists; split; eauto; reflexivity.
Qed.

(** ** The curve: one point per distinct score *)
Fixpoint thr (l : list (bool * R)) : list R :=
  match l with
  | [] => []
  | (_, s) :: r => match r with [] => [s] | (_, s') :: _ => if Reqb s s' then thr r else s :: thr r end
  end.
Lemma thr_in : forall l t, In t (thr l) <-> In t (map snd l).
Proof.
  intros l t. induction l as [|[y s] r IH]; [tauto|]. cbn [thr map snd]. destruct r as [|[y' s'] r].
  - cbn. tauto.
  - destruct (Reqb s s') eqn:E.
    + apply Reqb_eq in E. subst s'. rewrite IH. cbn [map snd In]. tauto.
    + cbn [In]. rewrite IH. cbn [map snd In]. tauto.
Qed.
Lemma thr_sorted : forall l, StronglySorted desc l -> StronglySorted Rgt (thr l).
Proof.
  intros l S. induction S as [|[y s] r S IH F]; [constructor|]. cbn [thr]. destruct r as [|[y' s'] r]; [repeat constructor|].
  destruct (Reqb s s') eqn:E; auto. constructor; auto. apply Forall_forall. intros t It. apply thr_in in It. apply Reqb_neq in E.
  inversion S as [|? ? S' F']; subst. rewrite Forall_forall in F, F'. apply in_map_iff in It. destruct It as (q & <- & Iq).
  pose proof (F _ (or_introl eq_refl)) as H1. unfold desc in H1. cbn in H1. destruct Iq as [<-|Iq]; cbn.
  - lra.
  - pose proof (F' _ Iq) as H2. unfold desc in H2. cbn in H2. lra.
Qed.
Lemma curve_points : forall l pre, StronglySorted desc (pre ++ l) ->
  clf_curve l (length (negatives pre)) (length (positives pre)) = map (fun t => (at_least t (negatives (pre ++ l)), at_least t (positives (pre ++ l)))) (thr l).
Proof.
  intros l. induction l as [|[y s] r IH]; intros pre S; auto. cbn [clf_curve thr].
  assert (Eq : pre ++ (y, s) :: r = (pre ++ [(y, s)]) ++ r) by (rewrite <- app_assoc; reflexivity).
  pose proof (ss_mid _ _ _ _ _ S) as [F1 F2]. rewrite Forall_forall in F1, F2.
  rewrite Eq in S. specialize (IH _ S). rewrite <- Eq in IH, S.
  assert (EF : (if y then length (negatives pre) else Datatypes.S (length (negatives pre))) = length (negatives (pre ++ [(y, s)]))).
  { rewrite negatives_app, app_length. destruct y; cbn; lia. }
  assert (ET : (if y then Datatypes.S (length (positives pre)) else length (positives pre)) = length (positives (pre ++ [(y, s)]))).
  { rewrite positives_app, app_length. destruct y; cbn; lia. }
  rewrite EF, ET.
  assert (EP : (forall q, In q r -> snd q < s) -> (length (negatives (pre ++ [(y, s)])), length (positives (pre ++ [(y, s)]))) = (at_least s (negatives (pre ++ (y, s) :: r)), at_least s (positives (pre ++ (y, s) :: r)))).
  { intros Hr. rewrite Eq, (negatives_app _ r), (positives_app _ r), !at_least_app. f_equal.
    - rewrite at_least_all, at_least_none; [lia| |].
      + intros u Iu. apply in_negatives in Iu. apply (Hr _ Iu).
      + intros u Iu. apply in_negatives, in_app_or in Iu. destruct Iu as [Iu|[[= _ ->]|[]]]; [|lra]. apply (F1 _ Iu).
    - rewrite at_least_all, at_least_none; [lia| |].
      + intros u Iu. apply in_positives in Iu. apply (Hr _ Iu).
      + intros u Iu. apply in_positives, in_app_or in Iu. destruct Iu as [Iu|[[= _ ->]|[]]]; [|lra]. apply (F1 _ Iu). }
  destruct r as [|[y' s'] r].
  - cbn [map]. rewrite EP; auto. intros q [].
  - change (@oeqb R (@num_ord R NumR) s s') with (Reqb s s'). destruct (Reqb s s') eqn:E; auto.
    cbn [map]. rewrite EP, IH; auto. apply Reqb_neq in E. intros q Iq.
    pose proof (F2 _ (or_introl eq_refl)) as H1. unfold desc in H1. cbn in H1. destruct Iq as [<-|Iq]; [cbn; lra|].
    rewrite Eq in S. apply ss_mid in S. destruct S as [_ S]. rewrite Forall_forall in S. pose proof (S _ Iq) as H2. unfold desc in H2. cbn in H2. lra.
Qed.
Lemma curve_last : forall (l : list (bool * R)) fp tp d, l <> [] -> last (clf_curve l fp tp) d = ((fp + length (negatives l))%nat, (tp + length (positives l))%nat).
Proof.
  intros l. induction l as [|[y s] r IH]; intros fp tp d N; [contradiction|]. cbn [clf_curve].
  assert (G : forall r', (r' = (if y then (fp, Datatypes.S tp) else (Datatypes.S fp, tp))) -> r = [] -> last [r'] d = ((fp + length (negatives ((y, s) :: r)))%nat, (tp + length (positives ((y, s) :: r)))%nat)).
  { intros r' -> ->. destruct y; cbn; f_equal; lia. }
  destruct r as [|q r].
  - rewrite G; auto. destruct y; auto.
  - assert (C : clf_curve (q :: r) (if y then fp else Datatypes.S fp) (if y then Datatypes.S tp else tp) <> []).
    { intros E. assert (X : last (clf_curve (q :: r) (if y then fp else Datatypes.S fp) (if y then Datatypes.S tp else tp)) (0, 0)%nat = last (clf_curve (q :: r) (if y then fp else Datatypes.S fp) (if y then Datatypes.S tp else tp)) (1, 0)%nat) by (rewrite !IH; auto; discriminate).
      rewrite E in X. discriminate. }
    assert (L : last (clf_curve (q :: r) (if y then fp else Datatypes.S fp) (if y then Datatypes.S tp else tp)) d = ((fp + length (negatives ((y, s) :: q :: r)))%nat, (tp + length (positives ((y, s) :: q :: r)))%nat)).
    { rewrite IH by discriminate. change ((y, s) :: q :: r) with ([(y, s)] ++ q :: r). rewrite (negatives_app [_]), (positives_app [_]), !app_length. destruct y; cbn [negatives positives filter map length fst negb]; f_equal; lia. }
    destruct q as [y' s']. destruct (oeqb s s'); auto.
    cbn [last]. destruct (clf_curve ((y', s') :: r) _ _) eqn:E; [contradiction|]. exact L.
Qed.

(** ** Areas; dropping collinear points changes nothing *)
Definition tri (p q : nat * nat) : R := (INR (fst q) - INR (fst p)) * (INR (snd q) + INR (snd p)).
Fixpoint area (l : list (nat * nat)) : R := match l with p :: ((q :: _) as r) => tri p q + area r | _ => 0 end.
Lemma drop_area : forall rest k prev cur m,
  INR (fst prev) - INR (fst k) = m * (INR (fst cur) - INR (fst prev)) -> INR (snd prev) - INR (snd k) = m * (INR (snd cur) - INR (snd prev)) ->
  area (k :: drop_from prev cur rest) = tri k prev + area (prev :: cur :: rest).
Proof.
  assert (T : forall k prev cur m, INR (fst prev) - INR (fst k) = m * (INR (fst cur) - INR (fst prev)) -> INR (snd prev) - INR (snd k) = m * (INR (snd cur) - INR (snd prev)) -> tri k cur = tri k prev + tri prev cur).
  { intros k prev cur m H1 H2. unfold tri. replace (INR (fst k)) with (INR (fst prev) - m * (INR (fst cur) - INR (fst prev))) by lra.
    replace (INR (snd k)) with (INR (snd prev) - m * (INR (snd cur) - INR (snd prev))) by lra. ring. }
  intros rest. induction rest as [|n r IH]; intros k prev cur m H1 H2; cbn [drop_from].
  - cbn [area]. rewrite (T k prev cur m H1 H2). ring.
  - destruct (collinear prev cur n) eqn:C.
    + unfold collinear in C. apply andb_prop in C. destruct C as [C1 C2]. apply Nat.eqb_eq in C1, C2.
      apply (f_equal INR) in C1, C2. rewrite plus_INR, mult_INR in C1, C2. change (INR 2) with 2 in *.
      rewrite (IH k cur n (1 + m)).
      * rewrite (T k prev cur m H1 H2). cbn [area]. ring.
      * replace (INR (fst n) - INR (fst cur)) with (INR (fst cur) - INR (fst prev)) by lra. lra.
      * replace (INR (snd n) - INR (snd cur)) with (INR (snd cur) - INR (snd prev)) by lra. lra.
    + change (area (k :: cur :: drop_from cur n r)) with (tri k cur + area (cur :: drop_from cur n r)).
      rewrite (IH cur cur n 0) by lra. rewrite (T k prev cur m H1 H2).
      change (area (prev :: cur :: n :: r)) with (tri prev cur + area (cur :: n :: r)). unfold tri at 3. ring.
Qed.
Lemma drop_area_all : forall l z, area (z :: drop_intermediate l) = area (z :: l).
Proof.
  intros [|p [|c r]] z; auto. cbn [drop_intermediate].
  change (area (z :: p :: drop_from p c r)) with (tri z p + area (p :: drop_from p c r)). rewrite (drop_area r p p c 0) by lra.
  change (area (z :: p :: c :: r)) with (tri z p + area (p :: c :: r)). unfold tri at 2. ring.
Qed.
Lemma drop_last : forall l d, last (drop_intermediate l) d = last l d.
Proof.
  assert (N : forall r p c, drop_from p c r <> []) by (induction r as [|n r IH]; intros; cbn [drop_from]; [discriminate|]; destruct collinear; [auto|discriminate]).
  assert (L : forall r p c d, last (drop_from p c r) d = last (c :: r) d).
  { induction r as [|n r IH]; intros p c d; cbn [drop_from]; auto. destruct collinear.
    - rewrite IH. reflexivity.
    - cbn [last]. destruct (drop_from c n r) eqn:E; [destruct (N _ _ _ E)|]. rewrite <- E, IH. reflexivity. }
  intros [|p [|c r]] d; auto. cbn [drop_intermediate last]. destruct (drop_from p c r) eqn:E; [destruct (N _ _ _ E)|]. rewrite <- E, L. reflexivity.
Qed.
Lemma ratio_R : forall a b, @ratio R NumR a b = INR a / INR b.
Proof. intros. unfold ratio. cbn [ndiv nofZ NumR]. rewrite !INR_IZR_INZ. reflexivity. Qed.
Lemma trapezoid_area : forall l n p, (0 < n)%nat -> (0 < p)%nat -> trapezoid (map (fun q => (@ratio R NumR (fst q) n, ratio (snd q) p)) l) = area l / (2 * INR p * INR n).
Proof.
  intros l n p Hn Hp. apply lt_0_INR in Hn, Hp. induction l as [|a l IH]; [cbn; field; lra|]. destruct l as [|b l]; [cbn; field; lra|].
  change (area (a :: b :: l)) with (tri a b + area (b :: l)). cbn [map]. cbn [map] in IH. cbn [trapezoid]. cbn [trapezoid] in IH. rewrite IH.
  cbn [nadd nsub nmul ndiv nofZ NumR fst snd]. rewrite !ratio_R. unfold tri. field. lra.
Qed.

(** ** From areas to pairs *)
Definition number (f : R -> bool) (l : list R) : R := INR (length (filter f l)).
Lemma at_least_split : forall u t l, (forall s, In s l -> u <= s \/ s <= t) -> t < u ->
  INR (at_least t l) = INR (at_least u l) + number (fun s => Reqb s t) l.
Proof.
  intros u t l H Ht. unfold at_least, number. induction l as [|s l IH]; [cbn; lra|]. cbn [filter].
  assert (IH' : forall s0, In s0 l -> u <= s0 \/ s0 <= t) by (intros; apply H; right; auto). specialize (IH IH').
  destruct (H s (or_introl eq_refl)) as [Hs|Hs]; unfold Rleb, Reqb; destruct (Rle_dec t s), (Rle_dec u s), (Req_EM_T s t); subst; try lra;
    unfold Rleb, Reqb in IH; cbn [length]; rewrite ?S_INR; lra.
Qed.
Lemma sum_split : forall (w : R -> R) u t l, (forall s, In s l -> u <= s \/ s <= t) -> t < u ->
  Rsum (map w (filter (fun s => Rltb s u) l)) = number (fun s => Reqb s t) l * w t + Rsum (map w (filter (fun s => Rltb s t) l)).
Proof.
  intros w u t l H Ht. unfold number. induction l as [|s l IH]; [cbn; lra|]. cbn [filter].
  assert (IH' : forall s0, In s0 l -> u <= s0 \/ s0 <= t) by (intros; apply H; right; auto). specialize (IH IH'). unfold Rltb, Reqb in IH.
  destruct (H s (or_introl eq_refl)) as [Hs|Hs]; unfold Rltb, Reqb; destruct (Rlt_dec s u), (Rlt_dec s t), (Req_EM_T s t); subst; try lra;
    cbn [length map Rsum fold_right]; rewrite ?S_INR; fold (Rsum (map w (filter (fun s => if Rlt_dec s u then true else false) l))); fold (Rsum (map w (filter (fun s => if Rlt_dec s t then true else false) l))); try lra.
Qed.
Lemma below_sum : forall (w : R -> R) u l, (forall s, In s l -> s < u) -> Rsum (map w (filter (fun s => Rltb s u) l)) = Rsum (map w l).
Proof.
  intros w u l H. f_equal. f_equal. induction l as [|s l IH]; auto. cbn [filter]. replace (Rltb s u) with true.
  - f_equal. apply IH. intros; apply H; right; auto.
  - symmetry. apply Rltb_lt, H. left; auto.
Qed.
Lemma head_split : forall (ts : list R) u t (l : list R), StronglySorted Rgt (u :: t :: ts) -> (forall s, In s l -> u <= s \/ In s (t :: ts)) ->
  t < u /\ (forall s, In s l -> u <= s \/ s <= t) /\ (forall s, In s l -> t <= s \/ In s ts).
Proof.
  intros ts u t l S H. inversion S as [|? ? S1 F1]; subst. inversion S1 as [|? ? S2 F2]; subst. rewrite Forall_forall in F1, F2.
  assert (Ht : t < u) by (apply (F1 t); left; auto). split; auto. split.
  - intros s Is. destruct (H s Is) as [?|[<-|I]]; auto; right; [lra|]. pose proof (F2 s I). lra.
  - intros s Is. destruct (H s Is) as [?|[<-|I]]; auto; left; lra.
Qed.
(** Twice the number of positives above [s], ties counting one half. *)
Definition tied (P : list R) (s : R) : R := 2 * number (fun a => Rltb s a) P + number (fun a => Reqb a s) P.
Lemma above_number : forall u t l, (forall s, In s l -> u <= s \/ s <= t) -> t < u -> INR (at_least u l) = number (fun a => Rltb t a) l.
Proof.
  intros u t l H Ht. unfold at_least, number. do 2 f_equal. induction l as [|s l IH]; auto. cbn [filter]. rewrite IH by (intros; apply H; right; auto).
  replace (Rltb t s) with (Rleb u s); auto. destruct (H s (or_introl eq_refl)); unfold Rleb, Rltb; destruct (Rle_dec u s), (Rlt_dec t s); auto; lra.
Qed.
Lemma roc_area : forall (P N : list R) ts u, StronglySorted Rgt (u :: ts) -> (forall s, In s P -> u <= s \/ In s ts) -> (forall s, In s N -> u <= s \/ In s ts) ->
  area (map (fun t => (at_least t N, at_least t P)) (u :: ts)) = Rsum (map (tied P) (filter (fun s => Rltb s u) N)).
Proof.
  intros P N ts. induction ts as [|t ts IH]; intros u S HP HN.
  - cbn [map area]. replace (filter (fun s => Rltb s u) N) with (@nil R); auto. symmetry. clear - HN. induction N as [|s N IH]; auto. cbn [filter].
    replace (Rltb s u) with false; [apply IH; intros; apply HN; right; auto|]. symmetry. apply Rltb_nlt. destruct (HN s (or_introl eq_refl)) as [?|[]]. lra.
  - destruct (head_split ts u t P S HP) as (Ht & P1 & P2). destruct (head_split ts u t N S HN) as (_ & N1 & N2).
    change (area (map (fun t => (at_least t N, at_least t P)) (u :: t :: ts))) with (tri (at_least u N, at_least u P) (at_least t N, at_least t P) + area (map (fun t => (at_least t N, at_least t P)) (t :: ts))).
    inversion S as [|? ? S1 F1]; subst. rewrite IH; auto. rewrite (sum_split (tied P) u t N); auto. f_equal.
    unfold tri. cbn [fst snd]. rewrite (at_least_split u t N), (at_least_split u t P) by auto. rewrite (above_number u t P) by auto. unfold tied. ring.
Qed.
Lemma ap_area : forall (P N : list R) ts u p, (0 < p)%nat -> StronglySorted Rgt (u :: ts) -> (forall s, In s P -> u <= s \/ In s ts) ->
  ap_sum p (INR (at_least u P) / INR p) (map (fun t => (at_least t N, at_least t P)) ts) =
  Rsum (map (fun s => INR (at_least s P) / INR (at_least s N + at_least s P)) (filter (fun s => Rltb s u) P)) / INR p.
Proof.
  intros P N ts. induction ts as [|t ts IH]; intros u p Hp S HP; pose proof (lt_0_INR _ Hp) as Hp'.
  - cbn [map ap_sum]. replace (filter (fun s => Rltb s u) P) with (@nil R); [cbn; field; lra|]. symmetry. clear - HP. induction P as [|s N IH]; auto. cbn [filter].
    replace (Rltb s u) with false; [apply IH; intros; apply HP; right; auto|]. symmetry. apply Rltb_nlt. destruct (HP s (or_introl eq_refl)) as [?|[]]. lra.
  - destruct (head_split ts u t P S HP) as (Ht & P1 & P2). cbn [map ap_sum fst snd]. replace (p =? 0)%nat with false by (symmetry; apply Nat.eqb_neq; lia).
    rewrite !ratio_R. inversion S as [|? ? S1 F1]; subst. rewrite IH; auto. rewrite (sum_split _ u t P); auto.
    cbn [nadd nmul nsub NumR]. rewrite (at_least_split u t P) at 1 by auto. unfold Rdiv. ring.
Qed.
Lemma ap_area_none : forall (N : list R) (ts : list R) prev, prev = 0 \/ prev = 1 ->
  ap_sum 0 prev (map (fun t => (at_least t N, at_least t [])) ts) = 0.
Proof.
  intros N ts. induction ts as [|t ts IH]; intros prev H; auto. cbn [map ap_sum fst snd Nat.eqb]. rewrite IH by (right; reflexivity). rewrite ratio_R.
  cbn [nadd nmul nsub NumR at_least filter length INR]. unfold Rdiv. rewrite Rmult_0_l. ring.
Qed.
