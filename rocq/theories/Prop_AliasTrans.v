(** * C106: reusing the array passed to SeasonalTrendDecomposer. *)
From Coq Require Import List ZArith Lia Bool Arith Reals Lra.
From Verif Require Import Base Num Spec Model_Stats Model_Utils Model_Core Model_Trans Model_Alias P_Lists P_Utils P_Trans Prop_Trans Prop_Season.
Import ListNotations.
Open Scope nat_scope.

(** ** Specification *)
(** A client owns arrays, named by numbers; it overwrites one, or passes one to a method. *)
Inductive top (A : Type) : Type := TWrite (a : nat) (x : list A) | TFit (a : nat) | TTransform (a : nat) | TFitTransform (a : nat).
Arguments TWrite {A}.
Arguments TFit {A}.
Arguments TTransform {A}.
Arguments TFitTransform {A}.
(** The answers of all calls (exceptions included; None for fit_partial) of the object that keeps the arrays ... *)
Definition drop {B} (r : res B) : res (option B) := rmap Some r.
Definition drop_unit {B} (r : res unit) : res (option B) := rmap (fun _ => None) r.
Fixpoint kept_answers {A} `{Num A} (m : mem (list A)) (s : stdref A) (h : list (top A)) : list (res (option (pyval A))) :=
  match h with
  | [] => []
  | TWrite a x :: h' => kept_answers (mem_set a x m) s h'
  | TFit a :: h' => drop_unit (eval (stdref_fit m a) s) :: kept_answers m (exec (stdref_fit m a) s) h'
  | TTransform a :: h' => drop (eval (stdref_transform m a) s) :: kept_answers m (exec (stdref_transform m a) s) h'
  | TFitTransform a :: h' => drop (eval (stdref_fit_transform m a) s) :: kept_answers m (exec (stdref_fit_transform m a) s) h'
  end.
(** ... and of the object that would have copied them: the model of the other properties. *)
Fixpoint copied_answers {A} `{Num A} (m : mem (list A)) (s : stdst A) (h : list (top A)) : list (res (option (pyval A))) :=
  match h with
  | [] => []
  | TWrite a x :: h' => copied_answers (mem_set a x m) s h'
  | TFit a :: h' => drop_unit (eval (std_fit (AInst (m a))) s) :: copied_answers m (exec (std_fit (AInst (m a))) s) h'
  | TTransform a :: h' => drop (eval (std_transform (AInst (m a))) s) :: copied_answers m (exec (std_transform (AInst (m a))) s) h'
  | TFitTransform a :: h' => drop (eval (std_fit_transform (AInst (m a))) s) :: copied_answers m (exec (std_fit_transform (AInst (m a))) s) h'
  end.
(** The arrays handed over for training, in order. *)
Definition trained {A} (h : list (top A)) : list nat := flat_map (fun o => match o with TFit a | TFitTransform a => [a] | _ => [] end) h.
(** The client never overwrites one of the last k arrays it handed over. *)
Definition spared {A} (k : nat) (h : list (top A)) : Prop := forall h1 a x h2, h = h1 ++ TWrite a x :: h2 -> ~ In a (lastn k (trained h1)).

(** ** The window of the copying object *)
Section Window.
Context {A : Type} `{NA : Num A}.
Lemma ensure_window : forall (x : list A) s, st_window (exec (std_ensure x) s) = st_window s /\ st_trendw (exec (std_ensure x) s) = st_trendw s /\ fst (std_ensure x s) = Ok tt.
Proof. intros. unfold exec, std_ensure, modify. cbn [snd fst]. destruct (st_sums s); auto. Qed.
Lemma absorb_window : forall p (x : list A) s, st_window (exec (std_absorb p x) s) = deque_append (st_trendw s) x (st_window s) /\ st_trendw (exec (std_absorb p x) s) = st_trendw s.
Proof.
  intros p x s. unfold exec, std_absorb, bind, modify, gets, lift, ret, raise. cbn [st_window st_trendw st_sums st_counts].
  destruct (std_trend _) as [t|e]; cbn [snd st_window st_trendw]; auto.
  destruct (_ =? _)%Z; cbn [snd st_window st_trendw]; auto.
  destruct (py_index (match st_sums s with Some m => m | None => [] end) p); cbn [snd st_window st_trendw]; auto.
  destruct (sub_opt x t); cbn [snd st_window st_trendw]; auto.
  destruct (rbind _ _); cbn [snd st_window st_trendw]; auto.
  destruct (py_index (st_counts s) p); cbn [snd st_window st_trendw]; auto.
Qed.
Lemma fit_window : forall (x : list A) s, st_window (exec (std_fit (AInst x)) s) = deque_append (st_trendw s) x (st_window s) /\ st_trendw (exec (std_fit (AInst x)) s) = st_trendw s.
Proof.
  intros x s. destruct (ensure_window x s) as (E1 & E2 & E3). unfold std_fit. cbn [as_array]. unfold exec, bind. destruct (std_ensure x s) as [r s1] eqn:E. cbn [fst] in E3. subst r.
  unfold exec in E1, E2. rewrite E in E1, E2. cbn [snd] in *. unfold gets, std_tick, modify. destruct (absorb_window (std_phase s1) x s1) as [F1 F2]. unfold exec in F1, F2. rewrite <- E1, <- E2.
  destruct (std_absorb (std_phase s1) x s1) as [[t|e] s2]; cbn [snd st_window st_trendw] in *; auto.
Qed.
Lemma fit_transform_window : forall (x : list A) s, st_window (exec (std_fit_transform (AInst x)) s) = deque_append (st_trendw s) x (st_window s) /\ st_trendw (exec (std_fit_transform (AInst x)) s) = st_trendw s.
Proof.
  intros x s. destruct (ensure_window x s) as (E1 & E2 & E3). unfold std_fit_transform. cbn [as_array]. unfold exec, bind. destruct (std_ensure x s) as [r s1] eqn:E. cbn [fst] in E3. subst r.
  unfold exec in E1, E2. rewrite E in E1, E2. cbn [snd] in *. unfold gets, std_tick, modify, lift, ret. destruct (absorb_window (std_phase s1) x s1) as [F1 F2]. unfold exec in F1, F2. rewrite <- E1, <- E2.
  destruct (std_absorb (std_phase s1) x s1) as [[t|e] s2]; cbn [snd st_window st_trendw] in *; auto.
  destruct (std_seasonal s2 (std_phase s1)); cbn [snd]; auto. destruct (sub_opt x t) as [d|]; cbn [snd st_window st_trendw]; auto. destruct (sub_opt d _); cbn [snd st_window st_trendw]; auto.
Qed.
Lemma transform_window : forall (x : list A) s, st_window (exec (std_transform (AInst x)) s) = st_window s /\ st_trendw (exec (std_transform (AInst x)) s) = st_trendw s.
Proof.
  intros x s. destruct (ensure_window x s) as (E1 & E2 & E3). unfold std_transform. cbn [as_array]. unfold exec, bind. destruct (std_ensure x s) as [r s1] eqn:E. cbn [fst] in E3. subst r.
  unfold exec in E1, E2. rewrite E in E1, E2. cbn [snd] in *. unfold gets, lift, ret. rewrite <- E1, <- E2.
  destruct (std_trend _) as [t|]; cbn [snd]; auto. destruct (sub_opt x t) as [d|]; cbn [snd]; auto. destruct (std_seasonal _ _) as [q|]; cbn [snd]; auto. destruct (sub_opt d q); cbn [snd]; auto.
Qed.
Lemma deque_append_map : forall B C (f : B -> C) k x l, deque_append k (f x) (map f l) = map f (deque_append k x l).
Proof. intros. unfold deque_append. rewrite map_length. destruct (_ <? _)%Z; [rewrite map_app; reflexivity|]. destruct l; cbn [map skipn app]; rewrite ?map_app; reflexivity. Qed.
Lemma deque_append_keeps : forall B W (x : B) l, 1 <= W -> deque_append (Z.of_nat W) x (lastn W l) = lastn W (l ++ [x]).
Proof.
  intros B W x l HW. unfold deque_append. rewrite lastn_length. rewrite (lastn_step _ W l x), app_length, lastn_length. cbn [length].
  destruct (Z.ltb_spec (Z.of_nat (Nat.min W (length l))) (Z.of_nat W)); destruct (Nat.ltb_spec W (Nat.min W (length l) + 1)); try lia; auto.
  destruct (lastn W l) as [|y l'] eqn:E; [|reflexivity]. apply (f_equal (@length _)) in E. rewrite lastn_length in E. cbn in E. lia.
Qed.
End Window.

(** ** C106 *)
Lemma set_window_id : forall A (s : stdst A), std_set_window (st_window s) s = s.
Proof. intros A []. reflexivity. Qed.
Lemma kept_step : forall A B (NA : Num A) (keeps : bool) (f : pyarg (list A) -> M (stdst A) B) m a s t,
  (forall x s, st_window (exec (f (AInst x)) s) = (if keeps then deque_append (st_trendw s) x (st_window s) else st_window s) /\ st_trendw (exec (f (AInst x)) s) = st_trendw s) ->
  t = std_set_window (map m (sr_kept s)) (sr_rest s) ->
  eval (stdref_call keeps f m a) s = eval (f (AInst (m a))) t /\
  exec (f (AInst (m a))) t = std_set_window (map m (sr_kept (exec (stdref_call keeps f m a) s))) (sr_rest (exec (stdref_call keeps f m a) s)) /\
  sr_kept (exec (stdref_call keeps f m a) s) = (if keeps then deque_append (st_trendw (sr_rest s)) a (sr_kept s) else sr_kept s) /\
  st_trendw (sr_rest (exec (stdref_call keeps f m a) s)) = st_trendw (sr_rest s).
Proof.
  intros A B NA keeps f m a s t H E. destruct (H (m a) t) as [H1 H2]. unfold eval, exec, stdref_call in *. rewrite <- E.
  destruct (f (AInst (m a)) t) as [r t'] eqn:F. cbn [fst snd sr_kept sr_rest] in *.
  split; [reflexivity|]. split; [|split; [reflexivity|]].
  - rewrite <- (set_window_id _ t') at 1. f_equal. rewrite H1, E. cbn [std_set_window st_window st_trendw]. destruct keeps; auto. apply deque_append_map.
  - rewrite H2, E. reflexivity.
Qed.
(** The object behaves as if it had copied its input, provided the client leaves the last trend_window arrays alone. *)
Theorem C106_seasonal_trend_decomposer : forall A (NA : Num A) L w s0 k0 m (h : list (top A)),
  STD_init L w = Ok s0 -> STDR_init L w = Ok k0 -> spared (Z.to_nat (st_trendw s0)) h ->
  kept_answers m k0 h = copied_answers m s0 h.
Proof.
  intros A NA L w s0 k0 m h I K0 U. unfold STDR_init in K0. rewrite I in K0. injection K0 as <-.
  assert (W1 : (1 <= st_trendw s0)%Z /\ st_window s0 = []).
  { unfold STD_init in I. destruct (Z.ltb_spec L 1); [discriminate|]. destruct w as [w|]; [destruct (Z.ltb_spec w 1); [discriminate|]|]; injection I as <-; cbn; split; auto; lia. }
  destruct W1 as [W1 W2]. clear I. set (W := Z.to_nat (st_trendw s0)) in *. assert (HW : 1 <= W) by (unfold W; lia). assert (EW : st_trendw s0 = Z.of_nat W) by (unfold W; lia).
  assert (G : forall (h : list (top A)) m l s t, t = std_set_window (map m (sr_kept s)) (sr_rest s) -> st_trendw (sr_rest s) = Z.of_nat W -> sr_kept s = lastn W l ->
    (forall h1 a x h2, h = h1 ++ TWrite a x :: h2 -> ~ In a (lastn W (l ++ trained h1))) -> kept_answers m s h = copied_answers m t h).
  { clear h U m. induction h as [|o h IH]; intros m l s t E T K U; [reflexivity|].
    assert (N : forall a, trained (A := A) [o] = a -> forall h1 b x h2, h = h1 ++ TWrite b x :: h2 -> ~ In b (lastn W ((l ++ a) ++ trained h1))).
    { intros a Ea h1 b x h2 Eh. rewrite <- app_assoc, <- Ea. replace (trained [o] ++ trained h1) with (trained (o :: h1)) by (unfold trained; cbn [flat_map]; rewrite app_nil_r; reflexivity). apply (U (o :: h1) b x h2). rewrite Eh. reflexivity. }
    destruct o as [a x|a|a|a]; cbn [kept_answers copied_answers].
    - apply (IH _ l); auto.
      + rewrite E. f_equal. symmetry. apply map_ext_in. intros b Hb. unfold mem_set. destruct (Nat.eqb_spec b a) as [->|]; auto. exfalso.
        apply (U [] a x h eq_refl). cbn [trained flat_map]. rewrite app_nil_r, <- K. exact Hb.
      + intros h1 b x' h2 Eh. specialize (N [] eq_refl h1 b x' h2 Eh). rewrite app_nil_r in N. exact N.
    - destruct (kept_step A unit NA true std_fit m a s t fit_window E) as (Q1 & Q2 & Q3 & Q4). fold (stdref_fit (A := A)) in *. rewrite Q1. f_equal. apply (IH _ (l ++ [a])).
      + exact Q2.
      + congruence.
      + rewrite Q3, T, K. apply deque_append_keeps; auto.
      + exact (N [a] eq_refl).
    - destruct (kept_step A (pyval A) NA false std_transform m a s t transform_window E) as (Q1 & Q2 & Q3 & Q4). fold (stdref_transform (A := A)) in *. rewrite Q1. f_equal. apply (IH _ l).
      + exact Q2.
      + congruence.
      + congruence.
      + intros h1 b x' h2 Eh. specialize (N [] eq_refl h1 b x' h2 Eh). rewrite app_nil_r in N. exact N.
    - destruct (kept_step A (pyval A) NA true std_fit_transform m a s t fit_transform_window E) as (Q1 & Q2 & Q3 & Q4). fold (stdref_fit_transform (A := A)) in *. rewrite Q1. f_equal. apply (IH _ (l ++ [a])).
      + exact Q2.
      + congruence.
      + rewrite Q3, T, K. apply deque_append_keeps; auto.
      + exact (N [a] eq_refl). }
  apply (G h m [] _ _); auto.
  - cbn [sr_kept sr_rest map]. rewrite <- W2. symmetry. apply set_window_id.
Qed.
Print Assumptions C106_seasonal_trend_decomposer.

(** A client that reads the stream into one array: every residual is zero, whatever the data. *)
Definition through_one {A} (xs : list (list A)) : list (top A) := flat_map (fun x => [TWrite 0 x; TFitTransform 0]) xs.
Open Scope R_scope.
Lemma mean_repeat : forall (v : R) k, (1 <= k)%nat -> mean (repeat v k) = v.
Proof.
  intros v k K. unfold mean, Rlen. rewrite repeat_length.
  assert (E : forall j, Rsum (repeat v j) = INR j * v). { induction j as [|j IH]; [cbn; lra|]. change (Rsum (repeat v (S j))) with (v + Rsum (repeat v j)). rewrite IH, S_INR. lra. }
  rewrite E. field. apply not_0_INR. lia.
Qed.
Lemma col_repeat : forall j (x : list R) k, col j (repeat x k) = repeat (nth j x 0) k.
Proof. intros. unfold col. induction k; cbn [repeat map]; congruence. Qed.
Lemma trend_repeat : forall (x : list R) k, (1 <= k)%nat -> std_trend (repeat x k) = Ok (Some x).
Proof.
  intros x k K. rewrite (std_trend_R 1 1 (length x) ltac:(lia) ltac:(lia)).
  - do 2 f_equal. transitivity (map (fun j => nth j x 0) (seq 0 (length x))).
    + apply map_ext. intros j. rewrite col_repeat. apply mean_repeat; auto.
    + apply nth_ext with (d := 0) (d' := 0); [rewrite map_length, seq_length; reflexivity|]. intros i Hi. rewrite map_length, seq_length in Hi.
      rewrite nth_indep with (d' := nth (length x) x 0) by (rewrite map_length, seq_length; auto). rewrite (map_nth (fun j => nth j x 0)), seq_nth by auto. reflexivity.
  - apply Forall_forall. intros y Hy. apply repeat_spec in Hy. subst. reflexivity.
  - destruct k; [lia|discriminate].
Qed.
Definition zero_row (n : nat) : list R := repeat 0 n.
Lemma zip_same : forall (x : list R), np_zip nsub x x = Ok (zero_row (length x)).
Proof.
  intros x. unfold np_zip. rewrite Nat.eqb_refl. f_equal. unfold zero_row, map2. induction x as [|v x IH]; auto. cbn [combine map length repeat fst snd]. rewrite IH. f_equal. cbn. lra.
Qed.
Theorem C106_reused_array : forall L w k0 (m : mem (list R)) xs n, STDR_init L w = Ok k0 -> Forall (fun x => length x = n) xs ->
  kept_answers m k0 (through_one xs) = map (fun _ => Ok (Some (VArray (zero_row n)))) xs.
Proof.
  intros L w k0 m xs n K0 F. unfold STDR_init in K0. destruct (STD_init L w) as [s0|e] eqn:I; [|discriminate]. injection K0 as <-.
  assert (W1 : (1 <= st_trendw s0)%Z /\ (1 <= st_season s0)%Z /\ st_seen s0 = 0%Z /\ st_sums s0 = None).
  { unfold STD_init in I. destruct (Z.ltb_spec L 1); [discriminate|]. destruct w as [w|]; [destruct (Z.ltb_spec w 1); [discriminate|]|]; injection I as <-; cbn; repeat split; auto; lia. }
  destruct W1 as (W1 & L1 & S1 & N1). clear I.
  set (ok := fun s : stdref R => (exists k, sr_kept s = repeat 0%nat k) /\ (1 <= st_trendw (sr_rest s))%Z /\ (1 <= st_season (sr_rest s))%Z /\ (0 <= st_seen (sr_rest s))%Z /\
    match st_sums (sr_rest s) with None => True | Some sums => sums = repeat (zero_row n) (Z.to_nat (st_season (sr_rest s))) /\ length (st_counts (sr_rest s)) = Z.to_nat (st_season (sr_rest s)) /\ Forall (fun c => (0 <= c)%Z) (st_counts (sr_rest s)) end).
  assert (O : ok (mkSTDR [] s0)). { unfold ok. cbn [sr_kept sr_rest]. rewrite N1. split; [exists 0%nat; reflexivity|]. repeat split; auto. lia. }
  revert O. generalize (mkSTDR (@nil nat) s0). revert m F. induction xs as [|x xs IH]; intros m F s O; [reflexivity|].
  cbn [through_one flat_map app kept_answers map]. fold (through_one xs).
  set (m' := mem_set 0 x m). assert (X : length x = n) by (inversion F; auto). assert (F' : Forall (fun x => length x = n) xs) by (inversion F; auto).
  enough (Q : eval (stdref_fit_transform m' 0) s = Ok (VArray (zero_row n)) /\ ok (exec (stdref_fit_transform m' 0) s)).
  { destruct Q as [Q1 Q2]. rewrite Q1. unfold drop. cbn [rmap]. f_equal. apply IH; auto. }
  clear IH F F'. destruct O as ((k & K) & T & Ls & Sn & Sm). destruct s as [kept t]. cbn [sr_kept sr_rest] in *. subst kept.
  assert (MX : m' 0%nat = x) by reflexivity. assert (MR : forall j, map m' (repeat 0%nat j) = repeat x j) by (induction j; cbn [repeat map]; congruence).
  unfold stdref_fit_transform, stdref_call, eval, exec. cbn [sr_kept sr_rest]. rewrite MX, MR.
  (* the state after std_ensure *)
  set (t1 := exec (std_ensure x) (std_set_window (repeat x k) t)).
  assert (E1 : std_ensure x (std_set_window (repeat x k) t) = (Ok tt, t1)) by reflexivity.
  assert (P1 : st_window t1 = repeat x k /\ st_trendw t1 = st_trendw t /\ st_season t1 = st_season t /\ st_seen t1 = st_seen t /\ st_sums t1 = Some (repeat (zero_row n) (Z.to_nat (st_season t))) /\
    length (st_counts t1) = Z.to_nat (st_season t) /\ Forall (fun c => (0 <= c)%Z) (st_counts t1)).
  { unfold t1, exec, std_ensure, modify. cbn [snd std_set_window st_sums st_season st_trendw st_window st_seen st_counts]. destruct (st_sums t) as [sums|] eqn:ES; cbn [snd std_set_window st_sums st_season st_trendw st_window st_seen st_counts].
    - destruct Sm as (-> & S2 & S3). repeat split; auto.
    - rewrite X. repeat split; auto. { rewrite repeat_length; auto. } apply Forall_forall. intros c Hc. apply repeat_spec in Hc. subst c. lia. }
  destruct P1 as (Pw & Pt & Ps & Pn & Pm & Pc & Pf). clearbody t1.
  unfold std_fit_transform. cbn [as_array]. unfold bind, gets. rewrite E1.
  set (p := std_phase t1). assert (Hp : (p < Z.to_nat (st_season t))%nat).
  { unfold p, std_phase. rewrite Ps, Pn. pose proof (Z.mod_pos_bound (st_seen t) (st_season t) ltac:(lia)). lia. }
  assert (DA : exists k', (1 <= k')%nat /\ deque_append (st_trendw t) x (repeat x k) = repeat x k' /\ deque_append (st_trendw t) 0%nat (repeat 0%nat k) = repeat 0%nat k').
  { unfold deque_append. rewrite !repeat_length. destruct (Z.ltb_spec (Z.of_nat k) (st_trendw t)).
    - exists (k + 1)%nat. rewrite !repeat_app. repeat split; lia || reflexivity.
    - destruct k as [|k]; [lia|]. exists (k + 1)%nat. rewrite !repeat_app. repeat split; lia || reflexivity. }
  destruct DA as (k' & K' & DA & DB).
  assert (PI : forall (B : Type) (l : list B) d, (p < length l)%nat -> py_index l p = Ok (nth p l d)) by (intros; apply py_index_nth; auto).
  assert (NR : nth p (repeat (zero_row n) (Z.to_nat (st_season t))) [] = zero_row n) by (apply nth_repeat_lt || (apply (repeat_spec (Z.to_nat (st_season t)) (zero_row n)); apply nth_In; rewrite repeat_length; auto)).
  assert (ZZ : np_zip nadd (zero_row n) (zero_row n) = Ok (zero_row n)).
  { unfold np_zip. rewrite Nat.eqb_refl. f_equal. unfold zero_row, map2. clear. induction n as [|n IH]; auto. cbn [repeat combine map fst snd]. rewrite IH. f_equal. cbn. lra. }
  assert (ZS : np_zip nsub (zero_row n) (zero_row n) = Ok (zero_row n)). { rewrite zip_same. unfold zero_row. rewrite repeat_length. reflexivity. }
  assert (SN : set_nth p (zero_row n) (repeat (zero_row n) (Z.to_nat (st_season t))) = repeat (zero_row n) (Z.to_nat (st_season t))).
  { generalize (Z.to_nat (st_season t)). clear. induction p as [|p IH]; intros [|j]; cbn [repeat set_nth]; auto. f_equal. apply IH. }
  assert (AB : exists t2, std_absorb p x t1 = (Ok (Some x), t2) /\ st_window t2 = repeat x k' /\ st_trendw t2 = st_trendw t /\ st_season t2 = st_season t /\ st_seen t2 = st_seen t /\
    st_sums t2 = Some (repeat (zero_row n) (Z.to_nat (st_season t))) /\ length (st_counts t2) = Z.to_nat (st_season t) /\ Forall (fun c => (0 <= c)%Z) (st_counts t2)).
  { unfold std_absorb, bind, modify, gets, lift, ret. cbn [st_window st_trendw st_season st_sums st_counts st_seen]. rewrite Pw, Pt, DA, trend_repeat, Pm by auto. cbn [st_window st_trendw st_season st_sums st_counts st_seen].
    destruct (_ =? _)%Z.
    - rewrite (PI _ _ []) by (rewrite repeat_length; auto). rewrite NR. cbn [sub_opt]. rewrite zip_same, X, ZZ. cbn [rbind]. rewrite Nat.eqb_refl. rewrite (PI _ _ 0%Z) by (rewrite Pc; auto).
      eexists. split; [reflexivity|]. cbn [st_window st_trendw st_season st_sums st_counts st_seen]. rewrite SN, Ps, Pn. repeat split; auto.
      + rewrite set_nth_length; auto.
      + apply Forall_forall. intros c Hc. rewrite Forall_forall in Pf. apply In_nth with (d := 0%Z) in Hc. destruct Hc as (i & Hi & <-). rewrite set_nth_length in Hi. destruct (Nat.eq_dec i p) as [->|Ne].
        * rewrite nth_set_nth_eq by auto. specialize (Pf (nth p (st_counts t1) 0%Z) ltac:(apply nth_In; auto)). lia.
        * rewrite nth_set_nth_neq by auto. apply Pf, nth_In; auto.
    - eexists. split; [reflexivity|]. cbn [st_window st_trendw st_season st_sums st_counts st_seen]. repeat split; auto; congruence. }
  destruct AB as (t2 & AB & Qw & Qt & Qs & Qn & Qm & Qc & Qf). rewrite AB. unfold lift, std_tick, modify, ret.
  assert (SE : std_seasonal t2 p = Ok None \/ std_seasonal t2 p = Ok (Some (zero_row n))).
  { unfold std_seasonal. rewrite (PI _ _ 0%Z) by (rewrite Qc; auto). cbn [rbind]. destruct (_ =? _)%Z; auto. rewrite Qm, (PI _ _ []) by (rewrite repeat_length; auto). cbn [rbind]. right. rewrite NR. do 2 f_equal. unfold zero_row. clear. induction n as [|n IH]; auto. cbn [repeat map]. rewrite IH. f_equal. cbn. unfold Rdiv. lra. }
  assert (OK : ok (mkSTDR (deque_append (st_trendw t) 0%nat (repeat 0%nat k)) (mkSTD (st_season t2) (st_trendw t2) (st_window t2) (st_sums t2) (st_counts t2) (st_seen t2 + 1)))).
  { unfold ok. cbn [sr_kept sr_rest st_season st_trendw st_window st_sums st_counts st_seen]. rewrite DB, Qt, Qs, Qn, Qm. split; [exists k'; reflexivity|]. repeat split; auto; lia. }
  destruct SE as [SE|SE]; rewrite SE; cbn [sub_opt]; rewrite zip_same, X; cbn [sub_opt]; rewrite ?ZS; cbn [fst snd]; auto.
Qed.
Print Assumptions C106_reused_array.
(** The copying object answers 2 where the array-keeping one answers 0: reuse is visible. *)
Theorem C106_reuse_is_harmless_refuted : exists (s0 : stdst R) k0 (xs : list (list R)), STD_init 2 (Some 3%Z) = Ok s0 /\ STDR_init 2 (Some 3%Z) = Ok k0 /\
  kept_answers (fun _ => [0]) k0 (through_one xs) = [Ok (Some (VArray [0])); Ok (Some (VArray [0]))] /\
  copied_answers (fun _ => [0]) s0 (through_one xs) = [Ok (Some (VArray [0])); Ok (Some (VArray [2]))].
Proof.
  eexists. eexists. exists [[0]; [4]]. split; [reflexivity|]. split; [reflexivity|]. split.
  - rewrite (C106_reused_array 2 (Some 3%Z) _ _ _ 1); [reflexivity|reflexivity|repeat constructor].
  - lazy -[Rplus Rminus Rdiv Rmult IZR INR Rinv Ropp]. match goal with |- [Ok (Some (VArray [?a])); Ok (Some (VArray [?b]))] = _ => replace a with 0 by lra; replace b with 2 by lra end. reflexivity.
Qed.
Print Assumptions C106_reuse_is_harmless_refuted.

(** Two arrays used in turn meet the condition for trend_window = 1 but one array does not. *)
Example C106_ex : spared 1 [TWrite 0 [1]; TFitTransform 0; TWrite 1 [2]; TFitTransform 1; TWrite 0 [3]; TTransform 0] /\ ~ spared 1 (through_one [[0]; [4]]).
Proof.
  split.
  - intros h1 a x h2 E. destruct h1 as [|? [|? [|? [|? [|? [|? h1]]]]]]; cbn in E; inversion E; subst; cbn; try tauto; try lia.
    destruct h1; discriminate.
  - intros U. apply (U [TWrite 0 [0]; TFitTransform 0] 0%nat [4] [TFitTransform 0] eq_refl). cbn. auto.
Qed.
