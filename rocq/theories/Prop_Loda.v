(** * Properties of LODA (C68, C69, C84). *)
From Coq Require Import List ZArith Lia Bool Reals Lra Arith Permutation.
From Verif Require Import Base Num Spec Model_Stats Model_Utils Model_Core Model_Trans Model_Simple Model_Sketch Model_Loda P_Lists P_Stats P_Utils P_Core P_Post P_Trans P_Models Prop_Utils Prop_Trans Prop_RSHash Prop_HST Prop_XStream.
Import ListNotations.
Open Scope R_scope.

(** ** Specification *)
Notation Loda randn perms nb c := (LODA (1 / 2) (1 / 10 ^ 12) ln randn perms nb c).
(** Weight of feature j in cut i after n fits on d features: once one of the permutations drawn for the cut puts j among its
    first d - sqrt d entries, it is 0 for good; c is the number of cuts, n of them being drawn per fit. *)
Definition cut_weight (randn : nat -> nat -> R) (perms : nat -> list nat) (d c n i j : nat) : R :=
  if existsb (fun t => existsb (Nat.eqb j) (firstn (d - Nat.sqrt d) (perms (t * c + i)%nat))) (seq 0 n) then 0 else randn i j.
(** Position of an instance relative to the last fitted one along a cut. *)
Definition offset (W : nat -> nat -> R) (i : nat) (x xl : list R) : R := weighted W i x - weighted W i xl.
(** The index used for scoring, and whether it is the one of the only bin with a count. *)
Definition bin_index (nb : nat) (t : R) : nat := length (filter (fun i => Rltb (-1 / 2 + INR i / INR nb) t) (seq 0 (nb - 1))).
Definition density (nb : nat) (t : R) : R :=
  ((if (bin_index nb t =? nb / 2)%nat then 1 else 0) + 1 / 10 ^ 12) / (1 + INR nb / 10 ^ 12).

(** ** One cut *)
Lemma edges_eq : forall nb v, (1 <= nb)%nat -> lo_edges (1 / 2) nb v = map (fun i => v + (-1 / 2 + INR i / INR nb)) (seq 0 (S nb)).
Proof.
  intros nb v H. unfold lo_edges. apply map_ext. intros i. cbn [nadd nsub nmul ndiv nofZ NumR]. rewrite <- !INR_IZR_INZ. assert (INR nb <> 0) by (apply not_0_INR; lia). field. auto.
Qed.
Lemma edge_nth : forall nb v i, (1 <= nb)%nat -> (i <= nb)%nat -> nth i (lo_edges (1 / 2) nb v) 0 = v + (-1 / 2 + INR i / INR nb).
Proof. intros nb v i H Hi. rewrite edges_eq by auto. apply nth_map_seq. lia. Qed.
(** The bin with the count is number nb / 2. *)
Lemma centre_bin : forall nb i, (1 <= nb)%nat -> (i < nb)%nat ->
  (-1 / 2 + INR i / INR nb <= 0 /\ (if (i =? nb - 1)%nat then 0 <= -1 / 2 + INR (S i) / INR nb else 0 < -1 / 2 + INR (S i) / INR nb)) <-> i = (nb / 2)%nat.
Proof.
  intros nb i H Hi. assert (Hp : 0 < INR nb) by (apply lt_0_INR; lia).
  assert (E1 : -1 / 2 + INR i / INR nb <= 0 <-> (2 * i <= nb)%nat).
  { split; intros G.
    - apply INR_le. rewrite mult_INR. change (INR 2) with 2. apply Rmult_le_reg_r with (/ INR nb); [apply Rinv_0_lt_compat; auto|]. rewrite Rinv_r by lra. unfold Rdiv in *. lra.
    - apply le_INR in G. rewrite mult_INR in G. change (INR 2) with 2 in G. apply Rmult_le_compat_r with (r := / INR nb) in G; [|left; apply Rinv_0_lt_compat; auto]. rewrite Rinv_r in G by lra. unfold Rdiv in *. lra. }
  assert (E2 : 0 < -1 / 2 + INR (S i) / INR nb <-> (nb < 2 * S i)%nat).
  { split; intros G.
    - apply INR_lt. rewrite mult_INR. change (INR 2) with 2. apply Rmult_lt_reg_r with (/ INR nb); [apply Rinv_0_lt_compat; auto|]. rewrite Rinv_r by lra. unfold Rdiv in *. lra.
    - apply lt_INR in G. rewrite mult_INR in G. change (INR 2) with 2 in G. apply Rmult_lt_compat_r with (r := / INR nb) in G; [|apply Rinv_0_lt_compat; auto]. rewrite Rinv_r in G by lra. unfold Rdiv in *. lra. }
  assert (E3 : 0 <= -1 / 2 + INR (S i) / INR nb <-> (nb <= 2 * S i)%nat).
  { split; intros G.
    - apply INR_le. rewrite mult_INR. change (INR 2) with 2. apply Rmult_le_reg_r with (/ INR nb); [apply Rinv_0_lt_compat; auto|]. rewrite Rinv_r by lra. unfold Rdiv in *. lra.
    - apply le_INR in G. rewrite mult_INR in G. change (INR 2) with 2 in G. apply Rmult_le_compat_r with (r := / INR nb) in G; [|left; apply Rinv_0_lt_compat; auto]. rewrite Rinv_r in G by lra. unfold Rdiv in *. lra. }
  pose proof (Nat.div_mod nb 2 ltac:(lia)) as D. pose proof (Nat.mod_upper_bound nb 2 ltac:(lia)) as B.
  rewrite E1. destruct (Nat.eqb_spec i (nb - 1)); [rewrite E3|rewrite E2]; lia.
Qed.
Lemma counts_eq : forall nb v, (1 <= nb)%nat -> lo_counts (lo_edges (1 / 2) nb v) nb v = map (fun i => if (i =? nb / 2)%nat then 1 else 0) (seq 0 nb).
Proof.
  intros nb v H. unfold lo_counts. apply map_ext_in. intros i Hi. apply in_seq in Hi. change (@n0 R NumR) with 0. rewrite !edge_nth by lia. cbn [nofZ oleb oltb num_ord NumR OrdR].
  pose proof (centre_bin nb i H ltac:(lia)) as C. destruct (Nat.eqb_spec i (nb / 2)) as [E|E].
  - apply C in E. destruct E as [A1 A2]. replace (Rleb (v + (-1 / 2 + INR i / INR nb)) v) with true by (symmetry; apply Rleb_le; lra). cbn [andb].
    destruct (i =? nb - 1)%nat; [replace (Rleb v (v + (-1 / 2 + INR (S i) / INR nb))) with true by (symmetry; apply Rleb_le; lra)|replace (Rltb v (v + (-1 / 2 + INR (S i) / INR nb))) with true by (symmetry; apply Rltb_lt; lra)]; reflexivity.
  - match goal with |- (if ?b then _ else _) = _ => destruct b eqn:Eb end; auto. exfalso. apply E. apply C. apply andb_prop in Eb. destruct Eb as [B1 B2]. apply Rleb_le in B1. split; [lra|].
    destruct (i =? nb - 1)%nat; [apply Rleb_le in B2|apply Rltb_lt in B2]; lra.
Qed.
Lemma sum_one_hot : forall k n e st, Rsum (map (fun i => (if (i =? k)%nat then 1 else 0) + e) (seq st n)) = (if ((st <=? k)%nat && (k <? st + n)%nat)%bool then 1 else 0) + INR n * e.
Proof.
  intros k n e. induction n as [|n IH]; intros st.
  - cbn [seq map]. rewrite Rsum_nil. destruct (Nat.leb_spec st k), (Nat.ltb_spec k (st + 0)); cbn [andb INR]; try lra; lia.
  - cbn [seq map]. rewrite Rsum_cons, IH, S_INR. destruct (Nat.eqb_spec st k), (Nat.leb_spec (S st) k), (Nat.leb_spec st k), (Nat.ltb_spec k (S st + n)), (Nat.ltb_spec k (st + S n)); cbn [andb]; try lra; lia.
Qed.
Lemma half_lt : forall nb, (1 <= nb)%nat -> (nb / 2 < nb)%nat.
Proof. intros nb H. apply Nat.div_lt; lia. Qed.
Lemma hist_eq : forall nb v, (1 <= nb)%nat -> lo_normalise (1 / 10 ^ 12) (lo_counts (lo_edges (1 / 2) nb v) nb v) =
  map (fun i => ((if (i =? nb / 2)%nat then 1 else 0) + 1 / 10 ^ 12) / (1 + INR nb / 10 ^ 12)) (seq 0 nb).
Proof.
  intros nb v H. rewrite counts_eq by auto. unfold lo_normalise. rewrite !map_map. cbn [nadd ndiv NumR]. rewrite Prop_XStream.nsum_Rsum, sum_one_hot. cbn [Nat.leb andb Nat.add].
  pose proof (half_lt nb H). destruct (Nat.ltb_spec (nb / 2) nb); [|lia]. apply map_ext. intros i. f_equal. unfold Rdiv. ring.
Qed.
Lemma filter_map_comm : forall B C (g : B -> C) (q : C -> bool) l, filter q (map g l) = map g (filter (fun b => q (g b)) l).
Proof. intros B C g q l. induction l as [|a l IH]; cbn [map filter]; auto. destruct (q (g a)); cbn [map]; congruence. Qed.
Lemma index_eq : forall nb v a, (1 <= nb)%nat -> searchsorted_left (firstn (nb - 1) (lo_edges (1 / 2) nb v)) a = bin_index nb (a - v).
Proof.
  intros nb v a H. rewrite edges_eq by auto. rewrite firstn_map. replace (firstn (nb - 1) (seq 0 (S nb))) with (seq 0 (nb - 1)).
  - unfold searchsorted_left, bin_index. rewrite filter_map_comm, map_length. f_equal. apply filter_ext. intros i. cbn [oltb num_ord NumR OrdR]. unfold Rltb. destruct (Rlt_dec _ _), (Rlt_dec _ _); auto; lra.
  - replace (S nb) with (nb - 1 + 2)%nat by lia. rewrite seq_app. rewrite firstn_app, seq_length, Nat.sub_diag. cbn [firstn]. rewrite app_nil_r, firstn_all2; [auto|rewrite seq_length; lia].
Qed.
Lemma bin_index_lt : forall nb t, (1 <= nb)%nat -> (bin_index nb t < nb)%nat.
Proof. intros nb t H. unfold bin_index. pose proof (filter_length_le _ (fun i => Rltb (-1 / 2 + INR i / INR nb) t) (seq 0 (nb - 1))) as L. rewrite seq_length in L. lia. Qed.
Lemma zero_eq : forall (g : nat -> R) d idx, lo_zero (map g (seq 0 d)) idx = map (fun j => if existsb (Nat.eqb j) idx then 0 else g j) (seq 0 d).
Proof.
  intros g d idx. revert g. induction idx as [|a idx IH]; intros g; cbn [lo_zero fold_left existsb]; [reflexivity|].
  assert (E : set_nth a (@n0 R NumR) (map g (seq 0 d)) = map (fun j => if (j =? a)%nat then 0 else g j) (seq 0 d)).
  { apply (nth_ext _ _ 0 0); [rewrite set_nth_length, !map_length; auto|]. intros i Hi. rewrite set_nth_length, map_length, seq_length in Hi. rewrite nth_map_seq by auto. destruct (Nat.eqb_spec i a) as [->|N].
    - rewrite nth_set_nth_eq by (rewrite map_length, seq_length; auto). reflexivity.
    - rewrite nth_set_nth_neq by auto. apply nth_map_seq; auto. }
  rewrite E. change (lo_zero (map (fun j => if (j =? a)%nat then 0 else g j) (seq 0 d)) idx = map (fun j => if ((j =? a)%nat || existsb (Nat.eqb j) idx)%bool then 0 else g j) (seq 0 d)). rewrite IH. apply map_ext. intros j. destruct (j =? a)%nat, (existsb (Nat.eqb j) idx); reflexivity.
Qed.
Lemma dot_weighted : forall (W : nat -> nat -> R) i x, dot (map (W i) (seq 0 (length x))) x = weighted W i x.
Proof. intros W i x. rewrite dot_sum by (rewrite map_length, seq_length; auto). rewrite map_length, seq_length. unfold weighted. f_equal. apply map_ext_in. intros j Hj. apply in_seq in Hj. rewrite nth_map_seq by lia. ring. Qed.

(** ** Invariant *)
Section LO.
Variables (Y : Type) (randn : nat -> nat -> R) (perms : nat -> list nat) (nb c d : nat).
Hypothesis Hnb : (1 <= nb)%nat.
Notation W := (cut_weight randn perms d c).
Definition row (n i : nat) : list R := map (W n i) (seq 0 d).
Lemma row_step : forall n i, lo_zero (row n i) (firstn (d - Nat.sqrt d) (perms (n * c + i)%nat)) = row (S n) i.
Proof.
  intros n i. unfold row. rewrite zero_eq. apply map_ext. intros j. unfold cut_weight. rewrite seq_S, existsb_app. cbn [existsb Nat.add]. rewrite orb_false_r. destruct (existsb (fun t => _) (seq 0 n)), (existsb (Nat.eqb j) _); reflexivity.
Qed.
Definition during (n k : nat) (xl : list R) (s : lodast R) : Prop := exists hist limits,
  s = mkLoda (Some (mkLo d (map (fun i => row (if (i <? k)%nat then S n else n) i) (seq 0 c)) hist limits)) (n * c + k) /\
  length hist = c /\ length limits = c /\
  forall i, (i < k)%nat -> (i < c)%nat -> nth i hist [] = map (fun i => ((if (i =? nb / 2)%nat then 1 else 0) + 1 / 10 ^ 12) / (1 + INR nb / 10 ^ 12)) (seq 0 nb) /\
    nth i limits [] = lo_edges (1 / 2) nb (weighted (W (S n)) i xl).
Lemma cut_step : forall n k xl s, (k < c)%nat -> length xl = d -> during n k xl s ->
  exists s', loda_cut (1 / 2) (1 / 10 ^ 12) perms nb xl k s = (Ok tt, s') /\ during n (S k) xl s'.
Proof.
  intros n k xl s Hk Hl (hist & limits & -> & L1 & L2 & H). unfold loda_cut, bind, gets, modify. cbn [loda_obj loda_draws lo_dim lo_proj lo_hist lo_limits]. rewrite Hl, Nat.eqb_refl. cbn [negb].
  destruct (Nat.eqb_spec nb 0) as [|_]; [lia|]. rewrite nth_map_seq by auto. rewrite Nat.ltb_irrefl, row_step. eexists. split; [reflexivity|]. unfold during. eexists _, _. split; [f_equal; [|lia]|].
  - f_equal. f_equal. apply (nth_ext _ _ [] []); [rewrite set_nth_length, !map_length; auto|]. intros i Hi. rewrite set_nth_length, map_length, seq_length in Hi. rewrite nth_map_seq by auto. destruct (Nat.eq_dec i k) as [->|N].
    + rewrite nth_set_nth_eq by (rewrite map_length, seq_length; auto). destruct (Nat.ltb_spec k (S k)); [auto|lia].
    + rewrite nth_set_nth_neq by auto. rewrite nth_map_seq by auto. destruct (Nat.ltb_spec i k), (Nat.ltb_spec i (S k)); auto; lia.
  - rewrite !set_nth_length. split; auto. split; auto. intros i Hi Hc. assert (Ev : dot (row (S n) k) xl = weighted (W (S n)) k xl) by (unfold row; rewrite <- Hl; rewrite (dot_weighted (cut_weight randn perms (length xl) c (S n))); reflexivity).
    destruct (Nat.eq_dec i k) as [->|N].
    + rewrite !nth_set_nth_eq by (rewrite ?L1, ?L2; auto). rewrite Ev. split; auto. apply hist_eq; auto.
    + rewrite !nth_set_nth_neq by auto. apply H; auto. lia.
Qed.
Lemma cuts_step : forall m n k xl s, (k + m = c)%nat -> length xl = d -> during n k xl s ->
  exists s', iterM (loda_cut (1 / 2) (1 / 10 ^ 12) perms nb xl) (seq k m) s = (Ok tt, s') /\ during n c xl s'.
Proof.
  induction m as [|m IH]; intros n k xl s Hk Hl D; cbn [seq iterM].
  - rewrite Nat.add_0_r in Hk. subst k. exists s. split; auto.
  - destruct (cut_step n k xl s ltac:(lia) Hl D) as (s1 & E & D1). destruct (IH n (S k) xl s1 ltac:(lia) Hl D1) as (s2 & E2 & D2). exists s2. split; auto. unfold bind. rewrite E. auto.
Qed.
Definition lo_inv (xs : list (list R)) (s : lodast R) : Prop := Forall (fun x => length x = d) xs ->
  match xs with [] => s = LODA_init | _ => during (length xs - 1) c (last xs []) s end.
Lemma lo_fit_step : forall xs s x (y : option Y), Forall (fun x => length x = d) (xs ++ [x]) -> lo_inv xs s ->
  exists s', md_fit (Loda randn perms nb c) x y s = (Ok tt, s') /\ during (length xs) c x s'.
Proof.
  intros xs s x y F I. apply Forall_app in F. destruct F as [F Fx]. apply Forall_inv in Fx. specialize (I F). cbn [md_fit LODA plain_model]. unfold bind at 1, modify.
  assert (D : during (length xs) 0 x (match loda_obj s with Some _ => s | None => mkLoda (Some (loda_setup randn nb c (length x))) (loda_draws s) end)).
  { destruct xs as [|x0 xs]; cbn [length].
    - subst s. cbn [LODA_init loda_obj loda_draws]. unfold loda_setup. rewrite Fx. exists (repeat (repeat 0 nb) c), (repeat (repeat 0 (S nb)) c). split; [|split; [apply repeat_length|split; [apply repeat_length|intros; lia]]]. f_equal. 
    - destruct I as (hist & limits & -> & L1 & L2 & H). cbn [loda_obj]. exists hist, limits. split; [f_equal; [|cbn [length]; lia]|split; auto; split; auto; intros; lia]. f_equal. f_equal. apply map_ext_in. intros i Hi. apply in_seq in Hi. cbn [length]. destruct (Nat.ltb_spec i c), (Nat.ltb_spec i 0); try lia. replace (S (S (length xs) - 1)) with (S (length xs)) by lia. reflexivity. }
  apply (cuts_step c (length xs) 0 x _ ltac:(lia) Fx D).
Qed.
Lemma lo_score_state : forall x s, exec (md_score (LODA (Y := Y) (1 / 2) (1 / 10 ^ 12) ln randn perms nb c) x) s = s.
Proof. intros x s. unfold exec. cbn [md_score LODA plain_model]. unfold bind, gets, lift, ret, raise. destruct (loda_obj s); auto. destruct (res_map _ _); reflexivity. Qed.
Lemma lo_run : forall (h : list (mcall (list R) Y)), lo_inv (fitted_instances h) (model_run (Loda randn perms nb c) LODA_init h).
Proof.
  intros h. refine (plain_run_all _ _ _ _ _ _ lo_inv _ _ h _ _).
  - intros xs s x y H F. destruct (lo_fit_step xs s x y F H) as (s' & E & D). unfold exec. cbn [md_fit LODA plain_model] in E. rewrite E. rewrite app_length. cbn [length snd]. rewrite last_last. replace (length xs + 1 - 1)%nat with (length xs) by lia. destruct (xs ++ [x]) eqn:Ee; [apply app_eq_nil in Ee; destruct Ee; discriminate|auto].
  - intros xs s x H. change (lo_inv xs (exec (md_score (LODA (Y := Y) (1 / 2) (1 / 10 ^ 12) ln randn perms nb c) x) s)). rewrite lo_score_state. auto.
  - intros _. reflexivity.
Qed.
Lemma lo_score_value : forall n xl s x, length xl = d -> length x = d -> (1 <= c)%nat -> during n c xl s ->
  md_score (LODA (Y := Y) (1 / 2) (1 / 10 ^ 12) ln randn perms nb c) x s = (Ok (VArray [mean (map (fun i => - ln (density nb (offset (W (S n)) i x xl))) (seq 0 c)) / INR c]), s).
Proof.
  intros n xl s x Hl Hx Hc (hist & limits & -> & L1 & L2 & H). cbn [md_score LODA plain_model]. unfold bind, gets, lift. cbn [loda_obj].
  assert (E : res_map (loda_cut_score ln nb c (mkLo d (map (fun i => row (if (i <? c)%nat then S n else n) i) (seq 0 c)) hist limits) x) (seq 0 c) = Ok (map (fun i => - (1 / INR c) * ln (density nb (offset (W (S n)) i x xl))) (seq 0 c))).
  { assert (G : forall l, (forall i, In i l -> (i < c)%nat) -> res_map (loda_cut_score ln nb c (mkLo d (map (fun i => row (if (i <? c)%nat then S n else n) i) (seq 0 c)) hist limits) x) l = Ok (map (fun i => - (1 / INR c) * ln (density nb (offset (W (S n)) i x xl))) l)).
    { induction l as [|i l IH]; intros Hl'; [reflexivity|]. cbn [res_map map]. assert (Hi : (i < c)%nat) by (apply Hl'; left; auto). unfold loda_cut_score at 1. cbn [lo_dim lo_proj lo_hist lo_limits]. rewrite Hx, Nat.eqb_refl. cbn [negb]. rewrite nth_map_seq by auto. destruct (Nat.ltb_spec i c); [|lia].
      destruct (H i Hi Hi) as [H1 H2]. rewrite H1, H2. assert (Ev : dot (row (S n) i) x = weighted (W (S n)) i x) by (unfold row; rewrite <- Hx; rewrite (dot_weighted (cut_weight randn perms (length x) c (S n))); reflexivity). rewrite Ev, index_eq by auto.
      fold (offset (W (S n)) i x xl). set (t := offset (W (S n)) i x xl). unfold py_index. rewrite (nth_error_nth' _ 0) by (rewrite map_length, seq_length; apply bin_index_lt; auto). rewrite nth_map_seq by (apply bin_index_lt; auto).
      cbn [rmap rbind]. rewrite IH by (intros; apply Hl'; right; auto). cbn [rmap]. f_equal. f_equal. cbn [nmul nneg ndiv nofZ NumR]. rewrite <- INR_IZR_INZ. reflexivity. }
    apply G. intros i Hi. apply in_seq in Hi. lia. }
  rewrite E. unfold ret. f_equal. f_equal. f_equal. f_equal. cbn [ndiv nofZ NumR]. rewrite <- INR_IZR_INZ. f_equal. rewrite Prop_XStream.nsum_Rsum. unfold mean, Rlen. rewrite map_length, seq_length.
  assert (INR c <> 0) by (apply not_0_INR; lia). clear - H0. induction (seq 0 c) as [|i l IH]; cbn [map]; [rewrite Rsum_nil; field; auto|]. rewrite !Rsum_cons, IH. field. auto.
Qed.
End LO.

(** ** C68 *)
(** The score after any history of instances with d features: it depends on the past through the number of fits, which
    determines the weights, and on the last fitted instance.  It is defined for every instance: the bin index is valid. *)
Theorem C68_score : forall Y randn perms nb c d (h : list (mcall (list R) Y)) xs xl x, (1 <= nb)%nat -> (1 <= c)%nat -> fitted_instances h = xs ++ [xl] ->
  Forall (fun x => length x = d) (xs ++ [xl]) -> length x = d ->
  eval (md_score (Loda randn perms nb c) x) (model_run (Loda randn perms nb c) LODA_init h) =
  Ok (VArray [mean (map (fun i => - ln (density nb (offset (cut_weight randn perms d c (length (xs ++ [xl]))) i x xl))) (seq 0 c)) / INR c]).
Proof.
  intros Y randn perms nb c d h xs xl x Hnb Hc E F Hx. pose proof (lo_run Y randn perms nb c d Hnb h) as I. unfold lo_inv in I. rewrite E in I. specialize (I F). rewrite last_last, app_length in I. cbn [length] in I.
  assert (D : during randn perms nb c d (length xs) c xl (model_run (Loda randn perms nb c) LODA_init h)). { replace (length xs + 1 - 1)%nat with (length xs) in I by lia. destruct (xs ++ [xl]) eqn:Ee; [apply app_eq_nil in Ee; destruct Ee; discriminate|auto]. }
  apply Forall_app in F. destruct F as [_ F]. apply Forall_inv in F. unfold eval. rewrite (lo_score_value Y randn perms nb c d Hnb (length xs) xl _ x F Hx Hc D). rewrite app_length. cbn [length fst]. rewrite Nat.add_1_r. reflexivity.
Qed.
Print Assumptions C68_score.
(** Two histories with equally many fits and the same last instance give the same scores to everything. *)
Theorem C68_only_last_instance_matters : forall Y randn perms nb c d (h h' : list (mcall (list R) Y)) xs xs' xl x, (1 <= nb)%nat -> (1 <= c)%nat ->
  fitted_instances h = xs ++ [xl] -> fitted_instances h' = xs' ++ [xl] -> length xs = length xs' -> Forall (fun x => length x = d) (xs ++ xs' ++ [xl]) -> length x = d ->
  eval (md_score (Loda randn perms nb c) x) (model_run (Loda randn perms nb c) LODA_init h) = eval (md_score (Loda randn perms nb c) x) (model_run (Loda randn perms nb c) LODA_init h').
Proof.
  intros Y randn perms nb c d h h' xs xs' xl x Hnb Hc E E' L F Hx. apply Forall_app in F. destruct F as [F1 F]. apply Forall_app in F. destruct F as [F2 F3].
  rewrite (C68_score Y randn perms nb c d h xs xl x), (C68_score Y randn perms nb c d h' xs' xl x); auto; try (apply Forall_app; auto). rewrite !app_length, L. reflexivity.
Qed.
Print Assumptions C68_only_last_instance_matters.
Lemma NoDup_filter_app : forall (l l' : list nat), NoDup (l ++ l') -> NoDup l'.
Proof. induction l as [|a l IH]; intros l' H; auto. inversion H; subst. auto. Qed.
(** From the first fit on a cut has at most sqrt d non-zero weights, weights never come back, and a weight that is not zero
    is the initial one. *)
Theorem C68_weights : forall randn perms d c n i, (forall k, Permutation (perms k) (seq 0 d)) -> (1 <= n)%nat ->
  (length (filter (fun j => negb (Reqb (cut_weight randn perms d c n i j) 0)) (seq 0 d)) <= Nat.sqrt d)%nat /\
  (forall j, cut_weight randn perms d c n i j = 0 \/ cut_weight randn perms d c n i j = randn i j) /\
  forall j n', (n <= n')%nat -> cut_weight randn perms d c n i j = 0 -> cut_weight randn perms d c n' i j = 0.
Proof.
  intros randn perms d c n i HP Hn. split; [|split].
  - set (z := (d - Nat.sqrt d)%nat). set (pm := perms (0 * c + i)%nat). assert (Hs : (Nat.sqrt d <= d)%nat) by (apply Nat.sqrt_le_lin).
    assert (Lp : length pm = d) by (unfold pm; rewrite (Permutation_length (HP _)), seq_length; auto).
    assert (Inc : incl (filter (fun j => negb (Reqb (cut_weight randn perms d c n i j) 0)) (seq 0 d)) (skipn z pm)).
    { intros j Hj. apply filter_In in Hj. destruct Hj as [Hj B]. assert (Ip : In j pm) by (apply (Permutation_in j (Permutation_sym (HP _))); auto). rewrite <- (firstn_skipn z pm) in Ip. apply in_app_or in Ip. destruct Ip as [Ip|]; auto. exfalso.
      assert (Ew : cut_weight randn perms d c n i j = 0). { unfold cut_weight. replace (existsb _ (seq 0 n)) with true; auto. symmetry. apply existsb_exists. exists 0%nat. split; [apply in_seq; lia|]. apply existsb_exists. exists j. split; auto. apply Nat.eqb_refl. }
      rewrite Ew in B. destruct (Reqb 0 0) eqn:Q; [discriminate|]. apply Reqb_neq in Q. congruence. }
    apply NoDup_incl_length in Inc; [|apply NoDup_filter, seq_NoDup]. rewrite skipn_length, Lp in Inc. unfold z in Inc. lia.
  - intros j. unfold cut_weight. destruct (existsb _ _); auto.
  - intros j n' Hn' E. unfold cut_weight in *. destruct (existsb (fun t => existsb (Nat.eqb j) (firstn (d - Nat.sqrt d) (perms (t * c + i)%nat))) (seq 0 n)) eqn:Q.
    + apply existsb_exists in Q. destruct Q as (t & It & Ht). replace (existsb _ (seq 0 n')) with true; auto. symmetry. apply existsb_exists. exists t. split; auto. apply in_seq in It. apply in_seq. lia.
    + rewrite E. match goal with |- (if ?b then _ else _) = _ => destruct b; reflexivity end.
Qed.
Print Assumptions C68_weights.
(** Every score lies between the values of a cut that hits the occupied bin and one that misses it. *)
Lemma density_cases : forall nb t, (1 <= nb)%nat -> let lo := (1 / 10 ^ 12) / (1 + INR nb / 10 ^ 12) in let hi := (1 + 1 / 10 ^ 12) / (1 + INR nb / 10 ^ 12) in
  0 < lo /\ lo < hi /\ hi <= 1 /\ (density nb t = lo \/ density nb t = hi).
Proof.
  intros nb t H lo hi. assert (1 <= INR nb) by (change 1 with (INR 1); apply le_INR; lia). assert (Hd : 0 < 1 + INR nb / 10 ^ 12) by lra. split; [|split; [|split]].
  - unfold lo. apply Rdiv_lt_0_compat; lra.
  - unfold lo, hi. apply Rmult_lt_compat_r; [apply Rinv_0_lt_compat; auto|lra].
  - unfold hi. apply Rmult_le_reg_r with (1 + INR nb / 10 ^ 12); auto. unfold Rdiv at 1. rewrite Rmult_assoc, Rinv_l by lra. lra.
  - unfold density, lo, hi. destruct (bin_index nb t =? nb / 2)%nat; [right|left]; f_equal; lra.
Qed.
Theorem C68_score_range : forall Y randn perms nb c d (h : list (mcall (list R) Y)) xs xl x, (1 <= nb)%nat -> (1 <= c)%nat -> fitted_instances h = xs ++ [xl] ->
  Forall (fun x => length x = d) (xs ++ [xl]) -> length x = d ->
  exists v, eval (md_score (Loda randn perms nb c) x) (model_run (Loda randn perms nb c) LODA_init h) = Ok (VArray [v]) /\
    0 <= - ln ((1 + 1 / 10 ^ 12) / (1 + INR nb / 10 ^ 12)) / INR c <= v /\ v <= - ln ((1 / 10 ^ 12) / (1 + INR nb / 10 ^ 12)) / INR c.
Proof.
  intros Y randn perms nb c d h xs xl x Hnb Hc E F Hx. eexists. split; [apply (C68_score Y randn perms nb c d h xs xl x); auto|].
  destruct (density_cases nb 0 Hnb) as (P1 & P2 & P3 & _). set (lo := 1 / 10 ^ 12 / (1 + INR nb / 10 ^ 12)) in *. set (hi := (1 + 1 / 10 ^ 12) / (1 + INR nb / 10 ^ 12)) in *. assert (Hp : 0 < INR c) by (apply lt_0_INR; lia).
  match goal with |- context [mean ?l] => assert (M : - ln hi <= mean l <= - ln lo) end.
  { apply mean_range; [destruct c; [lia|discriminate]|]. intros v Hv. apply in_map_iff in Hv. destruct Hv as (i & <- & _). destruct (density_cases nb (offset (cut_weight randn perms d c (length (xs ++ [xl]))) i x xl) Hnb) as (_ & _ & _ & D). fold lo in D. fold hi in D. assert (ln lo < ln hi) by (apply ln_increasing; auto). destruct D as [-> | ->]; lra. }
  assert (ln hi <= 0) by (rewrite <- ln_1; apply ln_le; lra). unfold Rdiv. split; [split|].
  - apply Rmult_le_pos; [lra|left; apply Rinv_0_lt_compat; auto].
  - apply Rmult_le_compat_r; [left; apply Rinv_0_lt_compat; auto|]. apply M.
  - apply Rmult_le_compat_r; [left; apply Rinv_0_lt_compat; auto|]. apply M.
Qed.
Print Assumptions C68_score_range.
(** Scoring before the first fit fails, and so do instances with another number of features; fitting such an instance also
    zeroes weights of the first cut before it fails. *)
Theorem C68_failures : forall Y randn perms nb c d (h : list (mcall (list R) Y)) x, (1 <= nb)%nat -> (1 <= c)%nat -> Forall (fun x => length x = d) (fitted_instances h) ->
  let s := model_run (Loda randn perms nb c) LODA_init h in
  (fitted_instances h = [] -> eval (md_score (Loda randn perms nb c) x) s = Raise AttributeError) /\
  (fitted_instances h <> [] -> length x <> d -> eval (md_score (Loda randn perms nb c) x) s = Raise ValueError /\
     forall y, eval (md_fit (Loda randn perms nb c) x y) s = Raise ValueError).
Proof.
  intros Y randn perms nb c d h x Hnb Hc F s. pose proof (lo_run Y randn perms nb c d Hnb h F) as I. fold s in I. split.
  - intros E. rewrite E in I. unfold eval. rewrite I. reflexivity.
  - intros Ne Hx. destruct (fitted_instances h) as [|a l]; [congruence|]. destruct I as (hist & limits & Es & _). destruct c as [|c']; [lia|]. split.
    + unfold eval. rewrite Es. cbn [md_score LODA plain_model]. unfold bind, gets, lift. cbn [loda_obj]. change (seq 0 (S c')) with (0%nat :: seq 1 c') at 2. cbn [res_map]. unfold loda_cut_score at 1. cbn [lo_dim]. destruct (Nat.eqb_spec (length x) d); [congruence|]. reflexivity.
    + intros y. unfold eval. rewrite Es. cbn [md_fit LODA plain_model]. unfold bind at 1, modify. cbn [loda_obj]. change (seq 0 (S c')) with (0%nat :: seq 1 c') at 1. cbn [iterM]. unfold bind at 1. unfold loda_cut at 1. unfold bind, gets, modify. cbn [loda_obj lo_dim]. destruct (Nat.eqb_spec (length x) d); [congruence|]. reflexivity.
Qed.
Print Assumptions C68_failures.

(** ** C69 *)
(** For two or more features there are permutations for which the weights vanish after d fits: from then on every instance
    gets the same score, whatever is fitted. *)
Definition rotation (d k : nat) : list nat := map (fun j => ((k + j) mod d)%nat) (seq 0 d).
Lemma NoDup_map_in : forall B C (g : B -> C) l, (forall a b, In a l -> In b l -> g a = g b -> a = b) -> NoDup l -> NoDup (map g l).
Proof.
  intros B C g l H N. induction N as [|a l Ha N IH]; cbn [map]; constructor.
  - intros I. apply in_map_iff in I. destruct I as (b & E & Hb). apply Ha. rewrite <- (H b a); auto; [right|left]; auto.
  - apply IH. intros; apply H; auto; right; auto.
Qed.
Lemma rotation_perm : forall d k, (1 <= d)%nat -> Permutation (rotation d k) (seq 0 d).
Proof.
  intros d k Hd. apply NoDup_Permutation_bis.
  - unfold rotation. apply NoDup_map_in; [|apply seq_NoDup]. intros a b Ha Hb E. apply in_seq in Ha. apply in_seq in Hb.
    pose proof (Nat.div_mod (k + a) d ltac:(lia)) as Da. pose proof (Nat.div_mod (k + b) d ltac:(lia)) as Db. rewrite E in Da. set (qa := ((k + a) / d)%nat) in *. set (qb := ((k + b) / d)%nat) in *. clearbody qa qb. destruct (lt_eq_lt_dec qa qb) as [[L|L]|L]; [| subst; lia |]; [assert (d * (qa + 1) <= d * qb)%nat by (apply Nat.mul_le_mono_l; lia) | assert (d * (qb + 1) <= d * qa)%nat by (apply Nat.mul_le_mono_l; lia)]; lia.
  - unfold rotation. rewrite map_length. lia.
  - intros a Ha. unfold rotation in Ha. apply in_map_iff in Ha. destruct Ha as (j & <- & _). apply in_seq. pose proof (Nat.mod_upper_bound (k + j) d ltac:(lia)). lia.
Qed.
Lemma weighted_zero : forall W i x, (forall j, W i j = 0) -> weighted W i x = 0.
Proof. intros W i x H. unfold weighted. induction (seq 0 (length x)) as [|j l IH]; cbn [map]; [apply Rsum_nil|]. rewrite Rsum_cons, IH, H. ring. Qed.
Lemma weighted_zero_in : forall W i x, (forall j, (j < length x)%nat -> W i j = 0) -> weighted W i x = 0.
Proof.
  intros W i x H. unfold weighted. assert (G : forall l, (forall j, In j l -> (j < length x)%nat) -> Rsum (map (fun j => nth j x 0 * W i j) l) = 0).
  { induction l as [|j l IH]; intros Hl; cbn [map]; [apply Rsum_nil|]. rewrite Rsum_cons, IH by (intros; apply Hl; right; auto). rewrite H by (apply Hl; left; auto). ring. }
  apply G. intros j Hj. apply in_seq in Hj. lia.
Qed.
Theorem C69_projections_stay_informative_refuted : forall d c nb, (2 <= d)%nat -> (1 <= c)%nat -> (1 <= nb)%nat -> exists perms v, (forall k, Permutation (perms k) (seq 0 d)) /\
  forall Y randn (h : list (mcall (list R) Y)) x, (d <= length (fitted_instances h))%nat -> Forall (fun x => length x = d) (fitted_instances h) -> length x = d ->
  eval (md_score (Loda randn perms nb c) x) (model_run (Loda randn perms nb c) LODA_init h) = Ok (VArray [v]).
Proof.
  intros d c nb Hd Hc Hnb. exists (fun k => rotation d (k / c)), (mean (map (fun i => - ln (density nb 0)) (seq 0 c)) / INR c). split; [intros k; apply rotation_perm; lia|].
  intros Y randn h x Hn F Hx. destruct (fitted_instances h) as [|a l] eqn:E; [cbn in Hn; lia|]. destruct (exists_last (l := a :: l)) as (xs & xl & Ex); [discriminate|]. rewrite Ex in *.
  rewrite (C68_score Y randn _ nb c d h xs xl x Hnb Hc E F Hx). f_equal. f_equal. f_equal. f_equal. f_equal. apply map_ext_in. intros i Hi. apply in_seq in Hi. f_equal. f_equal. f_equal.
  assert (Z : forall j, (j < d)%nat -> cut_weight randn (fun k => rotation d (k / c)) d c (length (xs ++ [xl])) i j = 0).
  { intros j Hj. unfold cut_weight. replace (existsb _ _) with true; auto. symmetry. apply existsb_exists. exists j. split; [apply in_seq; lia|]. apply existsb_exists. exists j. split; [|apply Nat.eqb_refl].
    replace ((j * c + i) / c)%nat with j by (apply (Nat.div_unique _ _ _ i); lia). assert (Nat.sqrt d < d)%nat by (apply Nat.sqrt_lt_lin; lia). unfold rotation. destruct d as [|d']; [lia|].
    replace (S d' - Nat.sqrt (S d'))%nat with (S (d' - Nat.sqrt (S d')))%nat by lia. change (seq 0 (S d')) with (0%nat :: seq 1 d'). cbn [map firstn]. left. rewrite Nat.add_0_r. apply Nat.mod_small. auto. }
  unfold offset. apply Forall_app in F. destruct F as [_ F]. apply Forall_inv in F. rewrite !weighted_zero_in; [ring| |]; intros j Hj; apply Z; lia.
Qed.
Print Assumptions C69_projections_stay_informative_refuted.
(** For a single feature nothing is ever zeroed. *)
Theorem C69_single_feature_kept : forall randn perms c n i j, cut_weight randn perms 1 c n i j = randn i j.
Proof. intros. unfold cut_weight. change (1 - Nat.sqrt 1)%nat with 0%nat. cbn [firstn existsb]. induction (seq 0 n); auto. Qed.
Print Assumptions C69_single_feature_kept.

(** ** C84 *)
Lemma filter_lt_seq : forall m n st, length (filter (fun i => (i <? m)%nat) (seq st n)) = Nat.min n (m - st).
Proof.
  intros m n. induction n as [|n IH]; intros st; [reflexivity|]. cbn [seq filter]. destruct (Nat.ltb_spec st m); cbn [length]; rewrite IH; lia.
Qed.
Lemma bin_index_0 : forall nb, (1 <= nb)%nat -> bin_index nb 0 = Nat.min (nb - 1) (S nb / 2).
Proof.
  intros nb H. unfold bin_index. rewrite (filter_ext_in _ (fun i => (i <? S nb / 2)%nat)); [rewrite filter_lt_seq; lia|]. intros i Hi. assert (Hp : 0 < INR nb) by (apply lt_0_INR; lia).
  pose proof (Nat.div_mod (S nb) 2 ltac:(lia)) as D. pose proof (Nat.mod_upper_bound (S nb) 2 ltac:(lia)) as B.
  assert (G : -1 / 2 + INR i / INR nb < 0 <-> (2 * i < nb)%nat).
  { split; intros G.
    - apply INR_lt. rewrite mult_INR. change (INR 2) with 2. apply Rmult_lt_reg_r with (/ INR nb); [apply Rinv_0_lt_compat; auto|]. rewrite Rinv_r by lra. unfold Rdiv in *. lra.
    - apply lt_INR in G. rewrite mult_INR in G. change (INR 2) with 2 in G. apply Rmult_lt_compat_r with (r := / INR nb) in G; [|apply Rinv_0_lt_compat; auto]. rewrite Rinv_r in G by lra. unfold Rdiv in *. lra. }
  unfold Rltb. destruct (Rlt_dec _ _) as [L|L]; destruct (Nat.ltb_spec i (S nb / 2)); auto; exfalso.
  - apply G in L. lia.
  - apply L. apply G. lia.
Qed.
Lemma mean_const : forall (a : R) c, (1 <= c)%nat -> mean (map (fun _ => a) (seq 0 c)) = a.
Proof.
  intros a c H. unfold mean, Rlen. rewrite map_length, seq_length. assert (INR c <> 0) by (apply not_0_INR; lia). replace (Rsum (map (fun _ => a) (seq 0 c))) with (INR c * a); [field; auto|]. generalize 0%nat. clear. induction c as [|c IH]; intros st; cbn [seq map]; [rewrite Rsum_nil; cbn; ring|]. rewrite Rsum_cons, <- IH, S_INR. ring.
Qed.
(** With an even number of bins (and with a single one) the instance just fitted gets the least possible score ... *)
Theorem C84_even_bins : forall Y randn perms nb c d (h : list (mcall (list R) Y)) xs xl, (1 <= nb)%nat -> (1 <= c)%nat -> fitted_instances h = xs ++ [xl] ->
  Forall (fun x => length x = d) (xs ++ [xl]) -> Nat.Even nb \/ nb = 1%nat ->
  eval (md_score (Loda randn perms nb c) xl) (model_run (Loda randn perms nb c) LODA_init h) = Ok (VArray [- ln ((1 + 1 / 10 ^ 12) / (1 + INR nb / 10 ^ 12)) / INR c]).
Proof.
  intros Y randn perms nb c d h xs xl Hnb Hc E F Hev. pose proof F as F'. apply Forall_app in F'. destruct F' as [_ F']. apply Forall_inv in F'. rewrite (C68_score Y randn perms nb c d h xs xl xl Hnb Hc E F F'). f_equal. f_equal. f_equal. f_equal.
  rewrite (map_ext _ (fun _ => - ln ((1 + 1 / 10 ^ 12) / (1 + INR nb / 10 ^ 12)))); [apply mean_const; auto|]. intros i. unfold offset. rewrite Rminus_diag_eq by auto. unfold density. rewrite bin_index_0 by auto.
  replace (Nat.min (nb - 1) (S nb / 2)) with (nb / 2)%nat; [rewrite Nat.eqb_refl; reflexivity|]. destruct Hev as [[k ->]| ->]; [|reflexivity].
  replace (2 * k / 2)%nat with k by (apply (Nat.div_unique _ _ _ 0); lia). replace (S (2 * k) / 2)%nat with k by (apply (Nat.div_unique _ _ _ 1); lia). lia.
Qed.
Print Assumptions C84_even_bins.
(** ... but with an odd number >= 3 of bins it gets the largest possible one: the index is one too high. *)
Theorem C84_odd_bins_refuted : forall Y randn perms nb c d (h : list (mcall (list R) Y)) xs xl, (3 <= nb)%nat -> (1 <= c)%nat -> fitted_instances h = xs ++ [xl] ->
  Forall (fun x => length x = d) (xs ++ [xl]) -> Nat.Odd nb ->
  eval (md_score (Loda randn perms nb c) xl) (model_run (Loda randn perms nb c) LODA_init h) = Ok (VArray [- ln ((1 / 10 ^ 12) / (1 + INR nb / 10 ^ 12)) / INR c]).
Proof.
  intros Y randn perms nb c d h xs xl Hnb Hc E F [k Hk]. pose proof F as F'. apply Forall_app in F'. destruct F' as [_ F']. apply Forall_inv in F'. rewrite (C68_score Y randn perms nb c d h xs xl xl ltac:(lia) Hc E F F'). f_equal. f_equal. f_equal. f_equal.
  rewrite (map_ext _ (fun _ => - ln ((1 / 10 ^ 12) / (1 + INR nb / 10 ^ 12)))); [apply mean_const; auto|]. intros i. unfold offset. rewrite Rminus_diag_eq by auto. unfold density. rewrite bin_index_0 by lia.
  replace (S nb / 2)%nat with (S k) by (apply (Nat.div_unique _ _ _ 0); lia). replace (nb / 2)%nat with k by (apply (Nat.div_unique _ _ _ 1); lia). destruct (Nat.eqb_spec (Nat.min (nb - 1) (S k)) k); [lia|]. rewrite Rplus_0_l. reflexivity.
Qed.
Print Assumptions C84_odd_bins_refuted.
(** Hypotheses of C68 and C84: two fits on two features; rotations are permutations. *)
Example C68_ex : let h := [CFit [1; 2] None; CScore [0; 0]; CFitScore [3; 4] (Some tt)] in
  fitted_instances h = [[1; 2]] ++ [[3; 4]] /\ Forall (fun x => length x = 2%nat) ([[1; 2]] ++ [[3; 4]]) /\ (forall k, Permutation (rotation 2 k) (seq 0 2)) /\ Nat.Even 10 /\ Nat.Odd 3.
Proof. cbv zeta. split; [reflexivity|]. split; [repeat constructor|]. split; [intros; apply rotation_perm; lia|]. split; [exists 5%nat; reflexivity|exists 1%nat; reflexivity]. Qed.
