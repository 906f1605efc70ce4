(** * The helper functions of kitnet_model/utils.py (C101). *)
From Coq Require Import List ZArith Lia Bool Arith Permutation.
From Coq Require Import Reals Lra.
From Verif Require Import Base Num Spec Model_Stats Model_Utils Model_Core Model_Trans P_Lists Model_KitNET Model_DA Prop_KitNET Prop_KitNET2 Prop_KitGrad.
From Verif Require Prop_XStream.
Import ListNotations.
Open Scope R_scope.

(** ** softmax *)
Lemma softmax_entry : forall (l : list R) m v, exp (v - m) / Rsum (map (fun v => exp (v - m)) l) = exp v / Rsum (map exp l).
Proof.
  intros l m v. assert (E : forall l, Rsum (map (fun v => exp (v - m)) l) = exp (- m) * Rsum (map exp l)).
  { clear. induction l as [|a l IH]; cbn [map Rsum fold_right]; [ring|]. change (fold_right Rplus 0 (map (fun v => exp (v - m)) l)) with (Rsum (map (fun v => exp (v - m)) l)). rewrite IH. unfold Rminus. rewrite exp_plus. change (fold_right Rplus 0 (map exp l)) with (Rsum (map exp l)). ring. }
  rewrite E. unfold Rminus. rewrite exp_plus. pose proof (exp_pos (- m)). unfold Rdiv. destruct (Req_dec (Rsum (map exp l)) 0) as [Z|Z].
  - rewrite Z, Rmult_0_r, Rinv_0. ring.
  - field. lra.
Qed.
Lemma np_max_ok : forall A (O : Ord A) (l : list A), l <> [] -> exists m, np_max l = Ok m.
Proof. intros A O [|a l] H; [contradiction|]. eexists. reflexivity. Qed.
Lemma Rsum_exp_pos : forall x l, In x l -> exp x <= Rsum (map exp l) /\ 0 < Rsum (map exp l).
Proof.
  assert (G : forall l, 0 <= Rsum (map exp l)). { induction l as [|a l IH]; [unfold Rsum; cbn; lra|]. change (Rsum (map exp (a :: l))) with (exp a + Rsum (map exp l)). pose proof (exp_pos a). lra. }
  intros x l H. induction l as [|a l IH]; [contradiction|]. change (Rsum (map exp (a :: l))) with (exp a + Rsum (map exp l)). pose proof (exp_pos a). pose proof (G l). destruct H as [->|H]; [lra|]. specialize (IH H). lra.
Qed.
(** The components are exp x_i over the sum of all exp x_j: positive numbers that add up to 1, unchanged when the same number
    is added to all x_i, and ordered as the x_i.  An empty array is rejected. *)
Theorem C101_softmax : forall x : list R, x <> [] -> exists s, ku_softmax exp x = Ok s /\
  s = map (fun v => exp v / Rsum (map exp x)) x /\ Forall (fun v => 0 < v <= 1) s /\ Rsum s = 1 /\
  (forall c, ku_softmax exp (map (fun v => v + c) x) = Ok s) /\
  (forall i j, (i < length x)%nat -> (j < length x)%nat -> (nth i s 0 < nth j s 0 <-> nth i x 0 < nth j x 0)).
Proof.
  intros x NE.
  assert (G : forall x : list R, x <> [] -> ku_softmax exp x = Ok (map (fun v => exp v / Rsum (map exp x)) x)).
  { clear. intros x NE. unfold ku_softmax. destruct (np_max_ok R (@num_ord R NumR) x NE) as [m ->]. cbn [rbind]. f_equal. rewrite map_map. apply map_ext. intros v. rewrite Prop_XStream.nsum_Rsum. cbn [ndiv nsub NumR]. apply (softmax_entry x m v). }
  assert (P : 0 < Rsum (map exp x)) by (destruct x as [|a x]; [contradiction|]; apply (Rsum_exp_pos a); left; reflexivity).
  eexists. split; [apply G; exact NE|]. split; [reflexivity|]. split; [|split; [|split]].
  - apply Forall_forall. intros v Hv. apply in_map_iff in Hv. destruct Hv as (a & <- & Ha). pose proof (exp_pos a). destruct (Rsum_exp_pos a x Ha) as [L _]. split; [apply Rdiv_lt_0_compat; auto|].
    apply Rmult_le_reg_r with (Rsum (map exp x)); [auto|]. unfold Rdiv. rewrite Rmult_assoc, Rinv_l by lra. lra.
  - assert (E : forall c l, Rsum (map (fun v => exp v / c) l) = Rsum (map exp l) / c). { clear. intros c. induction l as [|a l IH]; [unfold Rsum; cbn; unfold Rdiv; ring|]. change (Rsum (map (fun v => exp v / c) (a :: l))) with (exp a / c + Rsum (map (fun v => exp v / c) l)). rewrite IH. change (Rsum (map exp (a :: l))) with (exp a + Rsum (map exp l)). unfold Rdiv. ring. }
    rewrite E. field. lra.
  - intros c. rewrite G by (destruct x; [contradiction|discriminate]). f_equal. rewrite !map_map. apply map_ext. intros v. pose proof (softmax_entry x (- c) v) as S. unfold Rminus in S. rewrite Ropp_involutive in S. exact S.
  - intros i j Hi Hj. rewrite !(nth_map_any _ _ _ _ _ 0) by auto. split.
    + intros L. destruct (Rlt_le_dec (nth i x 0) (nth j x 0)) as [|C]; auto. exfalso. assert (exp (nth j x 0) <= exp (nth i x 0)) by (destruct C as [C|C]; [left; apply exp_increasing; auto|right; f_equal; auto]).
      apply (Rlt_irrefl (exp (nth i x 0) / Rsum (map exp x))). eapply Rlt_le_trans; [exact L|]. unfold Rdiv. apply Rmult_le_compat_r; [left; apply Rinv_0_lt_compat; auto|auto].
    + intros L. apply exp_increasing in L. unfold Rdiv. apply Rmult_lt_compat_r; [apply Rinv_0_lt_compat; auto|auto].
Qed.
Theorem C101_softmax_empty : forall A (N : Num A) (e : A -> A), ku_softmax e [] = Raise ValueError.
Proof. reflexivity. Qed.
(** A matrix is treated row by row. *)
Theorem C101_softmax_rows : forall x : list (list R), concat x <> [] -> Forall (fun r => r <> []) x -> exists s, ku_softmax2 exp x = Ok s /\ Forall2 (fun r t => ku_softmax exp r = Ok t) x s.
Proof.
  intros x NE F. unfold ku_softmax2. destruct (np_max_ok R (@num_ord R NumR) _ NE) as [m ->]. cbn [rbind]. eexists. split; [reflexivity|]. clear NE. induction F as [|r x Hr F IH]; cbn [map]; constructor; auto.
  destruct (C101_softmax r Hr) as (s & -> & -> & _). f_equal. rewrite map_map. apply map_ext. intros v. rewrite Prop_XStream.nsum_Rsum. symmetry. apply (softmax_entry r m v).
Qed.
(** exp is only asked for numbers that are not positive, so it cannot overflow, and once for 0. *)
Lemma np_max_max : forall (l : list R) m, @np_max R (@num_ord R NumR) l = Ok m -> In m l /\ forall v, In v l -> v <= m.
Proof.
  intros [|a l] m H; [discriminate|]. injection H as <-. revert a. induction l as [|b l IH]; intros a; cbn [fold_left].
  - split; [left; reflexivity|]. intros v [->|[]]. lra.
  - cbn [oltb num_ord NumR OrdR]. destruct (Rltb a b) eqn:E.
    + apply Rltb_lt in E. destruct (IH b) as [I U]. split; [right; exact I|]. intros v [->|Hv]; [pose proof (U b (or_introl eq_refl)); lra|auto].
    + apply Rltb_nlt in E. destruct (IH a) as [I U]. split; [destruct I as [I|I]; [left; auto|right; right; auto]|]. intros v [->|[->|Hv]]; [apply U; left; auto| |apply U; right; auto]. pose proof (U a (or_introl eq_refl)). lra.
Qed.
Theorem C101_softmax_no_overflow : forall (e e' : R -> R) x, (forall r, r <= 0 -> e r = e' r) -> ku_softmax e x = ku_softmax e' x.
Proof.
  intros e e' x H. unfold ku_softmax. destruct (@np_max R (@num_ord R NumR) x) as [m|] eqn:E; [|reflexivity]. cbn [rbind]. destruct (np_max_max x m E) as [_ U].
  assert (G : map (fun v => e (nsub v m)) x = map (fun v => e' (nsub v m)) x). { apply map_ext_in. intros v Hv. apply H. cbn [nsub NumR]. specialize (U v Hv). lra. }
  rewrite G. reflexivity.
Qed.
Print Assumptions C101_softmax.
Print Assumptions C101_softmax_empty.
Print Assumptions C101_softmax_rows.
Print Assumptions C101_softmax_no_overflow.

(** ** Derivatives: those of sigmoid and tanh take the value of the function, not its argument. *)
Theorem C101_derivatives : forall x,
  derivable_pt_lim (sigmoid exp) x (ku_dsigmoid (sigmoid exp x)) /\ derivable_pt_lim (ku_tanh tanh) x (ku_dtanh (ku_tanh tanh x)) /\
  (x <> 0 -> derivable_pt_lim ku_ReLU x (ku_dReLU x)) /\ ku_dReLU (ku_ReLU x) = ku_dReLU x /\ ku_ReLU x = Rmax 0 x.
Proof.
  intros x. split; [|split; [|split; [|split]]].
  - apply (derivable_pt_lim_ext logistic); [reflexivity|]. eapply dlim_eq; [apply derivable_logistic|reflexivity].
  - unfold ku_tanh, ku_dtanh. cbn [nsub nmul nofZ NumR]. assert (P : cosh x <> 0) by (unfold cosh; pose proof (exp_pos x); pose proof (exp_pos (- x)); lra).
    eapply dlim_eq; [apply (derivable_pt_lim_div sinh cosh x _ _ (derivable_pt_lim_sinh x) (derivable_pt_lim_cosh x) P)|]. unfold tanh, Rsqr. field. exact P.
  - intros N. unfold ku_ReLU, ku_dReLU. cbn [nmul oltb num_ord NumR OrdR n0 nofZ]. destruct (Rltb 0 x) eqn:E.
    + apply Rltb_lt in E. intros eps He. assert (D : 0 < Rmin x 1) by (unfold Rmin; destruct (Rle_dec _ _); lra). exists (mkposreal _ D). intros h Hh Hb. cbn [pos] in Hb. assert (0 < x + h). { assert (Rabs h < x) by (unfold Rmin in Hb; destruct (Rle_dec _ _); lra). apply Rabs_def2 in H. lra. }
      destruct (Rltb 0 (x + h)) eqn:E2; [|apply Rltb_nlt in E2; lra]. destruct (Rltb 0 x) eqn:E3; [|apply Rltb_nlt in E3; lra]. replace (((x + h) * 1 - x * 1) / h - 1 * 1) with 0 by (field; auto). rewrite Rabs_R0. exact He.
    + apply Rltb_nlt in E. assert (X : x < 0) by lra. intros eps He. assert (D : 0 < - x) by lra. exists (mkposreal _ D). intros h Hh Hb. cbn [pos] in Hb. apply Rabs_def2 in Hb.
      destruct (Rltb 0 (x + h)) eqn:E2; [apply Rltb_lt in E2; lra|]. destruct (Rltb 0 x) eqn:E3; [apply Rltb_lt in E3; lra|]. replace (((x + h) * 0 - x * 0) / h - 1 * 0) with 0 by (field; auto). rewrite Rabs_R0. exact He.
  - unfold ku_ReLU, ku_dReLU. cbn [nmul oltb num_ord NumR OrdR n0 nofZ]. destruct (Rltb 0 x) eqn:E; [rewrite Rmult_1_r, E; reflexivity|]. rewrite Rmult_0_r. destruct (Rltb 0 0) eqn:E2; [apply Rltb_lt in E2; lra|reflexivity].
  - unfold ku_ReLU. cbn [nmul oltb num_ord NumR OrdR n0 nofZ]. unfold Rmax. destruct (Rltb 0 x) eqn:E; [apply Rltb_lt in E|apply Rltb_nlt in E]; destruct (Rle_dec 0 x); lra.
Qed.
Print Assumptions C101_derivatives.
(** Passing the argument instead of the value gives something else. *)
Theorem C101_derivative_of_argument_refuted : exists x, ~ derivable_pt_lim (sigmoid exp) x (ku_dsigmoid x).
Proof.
  exists 0. intros D. pose proof (proj1 (C101_derivatives 0)) as D'. pose proof (uniqueness_limite _ _ _ _ D D') as U. unfold ku_dsigmoid, sigmoid in U. cbn [nmul nsub nofZ nadd ndiv nneg NumR] in U. rewrite Ropp_0, exp_0 in U. lra.
Qed.
Print Assumptions C101_derivative_of_argument_refuted.

(** ** pdf and invLogCDF *)
Theorem C101_pdf : forall x x' mu sigma, 0 < sigma ->
  let f := fun x => ku_pdf exp (sqrt (2 * PI)) x mu sigma in
  f x = exp (- ((x - mu) / sigma) ^ 2 / 2) / (sqrt (2 * PI) * sigma) /\ 0 < f x /\ f (mu + (mu - x)) = f x /\ (Rabs (x - mu) < Rabs (x' - mu) <-> f x' < f x).
Proof.
  intros x x' mu sigma Hs f. assert (Q : 0 < sqrt (2 * PI)) by (apply sqrt_lt_R0; pose proof PI_RGT_0; lra). assert (K : 0 < sqrt (2 * PI) * sigma) by (apply Rmult_lt_0_compat; auto).
  assert (E : forall x, f x = exp (- ((x - mu) / sigma) ^ 2 / 2) / (sqrt (2 * PI) * sigma)) by (intros v; unfold f, ku_pdf, nsq; cbn [ndiv nneg nmul nsub nofZ NumR]; do 2 f_equal; unfold Rdiv; ring).
  split; [apply E|]. split; [rewrite E; apply Rdiv_lt_0_compat; [apply exp_pos|auto]|]. split; [rewrite !E; do 2 f_equal; field; lra|].
  assert (I : 0 < / sigma) by (apply Rinv_0_lt_compat; auto).
  assert (L : forall a b, Rabs (a - mu) < Rabs (b - mu) <-> ((a - mu) / sigma) ^ 2 < ((b - mu) / sigma) ^ 2).
  { intros a b. rewrite <- !(pow2_abs ((_ - mu) / sigma)). unfold Rdiv. rewrite !Rabs_mult, (Rabs_right (/ sigma)) by lra. pose proof (Rabs_pos (a - mu)). pose proof (Rabs_pos (b - mu)). split; intros H1.
    - assert (Rabs (a - mu) * / sigma < Rabs (b - mu) * / sigma) by (apply Rmult_lt_compat_r; auto). assert (0 <= Rabs (a - mu) * / sigma) by (apply Rmult_le_pos; lra). nra.
    - apply Rmult_lt_reg_r with (/ sigma); auto. assert (0 <= Rabs (a - mu) * / sigma) by (apply Rmult_le_pos; lra). assert (0 <= Rabs (b - mu) * / sigma) by (apply Rmult_le_pos; lra). nra. }
  rewrite L, !E. unfold Rdiv at 5 8. split.
  - intros H. apply Rmult_lt_compat_r; [apply Rinv_0_lt_compat; auto|]. apply exp_increasing. lra.
  - intros H. apply Rmult_lt_reg_r in H; [|apply Rinv_0_lt_compat; auto]. apply exp_lt_inv in H. lra.
Qed.
(** With a symmetric distribution function, invLogCDF is the logarithm of the probability of exceeding x. *)
Theorem C101_invLogCDF : forall Phi x mu sigma, (forall z, Phi (- z) = 1 - Phi z) -> ku_invLogCDF (fun z => ln (Phi z)) x mu sigma = ln (1 - Phi ((x - mu) / sigma)).
Proof. intros Phi x mu sigma S. unfold ku_invLogCDF. cbn [nneg ndiv nsub NumR]. rewrite S. reflexivity. Qed.
Print Assumptions C101_pdf.
Print Assumptions C101_invLogCDF.

(** ** rollmean *)
Lemma roll_step : forall k (L : list R) w p v, (1 <= k)%nat -> length w = k -> (p < k)%nat -> skipn p w ++ firstn p w = lastn k L ->
  let w' := set_nth p v w in let p' := (S p mod k)%nat in length w' = k /\ (p' < k)%nat /\ skipn p' w' ++ firstn p' w' = lastn k (L ++ [v]).
Proof.
  intros k L w p v Hk Lw Hp E w' p'. unfold w'. rewrite set_nth_length. split; [exact Lw|]. split; [apply Nat.mod_upper_bound; lia|].
  assert (R1 : lastn k (L ++ [v]) = skipn (S p) w ++ firstn p w ++ [v]).
  { destruct k as [|k]; [lia|]. rewrite lastn_snoc. rewrite <- (lastn_lastn R k (S k) L) by lia. rewrite <- E. unfold lastn. rewrite app_length, skipn_length, firstn_length, Lw. replace (S k - p + Nat.min p (S k) - k)%nat with 1%nat by lia.
    rewrite skipn_app, skipn_skipn, skipn_length, Lw. replace (1 - (S k - p))%nat with 0%nat by lia. rewrite skipn_O, app_assoc. reflexivity. }
  rewrite R1, set_nth_split by lia. unfold p'. destruct (Nat.eq_dec (S p) k) as [Q|Q].
  - rewrite Q, Nat.mod_same by lia. rewrite skipn_O, firstn_O, app_nil_r. rewrite (skipn_all2 w) by lia. reflexivity.
  - rewrite Nat.mod_small by lia. assert (LF : length (firstn p w) = p) by (rewrite firstn_length; lia). change (firstn p w ++ v :: skipn (S p) w) with (firstn p w ++ [v] ++ skipn (S p) w). rewrite app_assoc.
    rewrite skipn_app, firstn_app, app_length, LF. cbn [length]. replace (S p - (p + 1))%nat with 0%nat by lia. rewrite skipn_O, firstn_O, app_nil_r. rewrite (skipn_all2 (firstn p w ++ [v])) by (rewrite app_length, LF; cbn; lia). rewrite (firstn_all2 (firstn p w ++ [v])) by (rewrite app_length, LF; cbn; lia). reflexivity.
Qed.
Definition apply_all {A} `{Num A} (vs : list A) (s : rollst A) : rollst A := fold_left (fun s v => snd (rollmean_apply v s)) vs s.
Lemma roll_inv : forall k vs (s : rollst R), (1 <= k)%Z -> rollmean_init k = Ok s -> let s' := apply_all vs s in let n := Z.to_nat k in
  length (rl_window s') = n /\ (rl_pointer s' < n)%nat /\ skipn (rl_pointer s') (rl_window s') ++ firstn (rl_pointer s') (rl_window s') = lastn n (repeat 0 n ++ vs).
Proof.
  intros k vs s Hk E. unfold rollmean_init in E. destruct (Z.ltb_spec k 0); [lia|]. injection E as <-. cbv zeta. set (n := Z.to_nat k). change (@n0 R NumR) with 0. assert (Hn : (1 <= n)%nat) by (unfold n; lia).
  induction vs as [|v vs IH] using rev_ind.
  - cbn [apply_all fold_left rl_window rl_pointer]. rewrite repeat_length, skipn_O, firstn_O, !app_nil_r. split; [auto|]. split; [lia|]. rewrite lastn_all by (rewrite repeat_length; lia). reflexivity.
  - unfold apply_all. rewrite fold_left_app. cbn [fold_left]. fold (apply_all vs (mkRoll (repeat 0 n) 0)). set (s := apply_all vs (mkRoll (repeat 0 n) 0)) in *. destruct IH as (L & P & Q). unfold rollmean_apply. rewrite L. destruct (Nat.ltb_spec (rl_pointer s) n); [|lia]. cbn [snd rl_window rl_pointer]. rewrite app_assoc. apply (roll_step n); auto.
Qed.
(** The mean of the last k values, where before the k-th value the missing ones count as 0. *)
Theorem C101_rollmean : forall k vs v (s : rollst R), (1 <= k)%Z -> rollmean_init k = Ok s ->
  fst (rollmean_apply v (apply_all vs s)) = Ok (Rsum (lastn (Z.to_nat k) (vs ++ [v])) / IZR k).
Proof.
  intros k vs v s Hk E. destruct (roll_inv k vs s Hk E) as (L & P & Q). set (n := Z.to_nat k) in *. set (t := apply_all vs s) in *. assert (Hn : (1 <= n)%nat) by (unfold n; lia).
  unfold rollmean_apply. rewrite L. destruct (Nat.ltb_spec (rl_pointer t) n); [|lia]. cbn [fst]. f_equal.
  destruct (roll_step n (repeat 0 n ++ vs) (rl_window t) (rl_pointer t) v Hn L P Q) as (L' & P' & Q'). set (w := set_nth (rl_pointer t) v (rl_window t)) in *. set (p := (S (rl_pointer t) mod n)%nat) in *.
  unfold vec_mean. rewrite Prop_XStream.nsum_Rsum. cbn [ndiv nofZ NumR]. rewrite L'. replace (Z.of_nat n) with k by (unfold n; rewrite Z2Nat.id by lia; reflexivity). f_equal.
  transitivity (Rsum (skipn p w ++ firstn p w)); [rewrite Rsum_app; rewrite <- (firstn_skipn p w) at 1; rewrite Rsum_app; ring|]. rewrite Q', <- app_assoc.
  destruct (Nat.le_gt_cases n (length (vs ++ [v]))) as [C|C]; [rewrite lastn_app_ge by auto; reflexivity|]. rewrite (lastn_all _ n (vs ++ [v])) by lia.
  assert (Z : forall a (l : list R), Rsum (lastn n (repeat 0 a ++ l)) = Rsum l \/ (n < length l)%nat).
  { intros a l. destruct (Nat.le_gt_cases (length l) n) as [D|D]; [left|right; auto]. unfold lastn. rewrite skipn_app, repeat_length, app_length, repeat_length. replace (a + length l - n - a)%nat with 0%nat by lia. rewrite skipn_O, Rsum_app. enough (forall m, Rsum (skipn m (repeat 0 a)) = 0) as -> by ring.
    clear. induction a as [|a IH]; intros [|m]; [reflexivity|reflexivity| |apply IH]. cbn [skipn]. pose proof (IH 0%nat) as I. rewrite skipn_O in I. change (Rsum (repeat 0 (S a))) with (0 + Rsum (repeat 0 a)). rewrite I. ring. }
  destruct (Z n (vs ++ [v])) as [-> | D]; [reflexivity|lia].
Qed.
Theorem C101_rollmean_bad_size : forall (s : rollst R), (forall k, (k < 0)%Z -> rollmean_init (A := R) k = Raise ValueError) /\ (rollmean_init 0 = Ok s -> forall v, rollmean_apply v s = (Raise IndexError, s)).
Proof. intros s. split; [intros k H; unfold rollmean_init; destruct (Z.ltb_spec k 0); [reflexivity|lia]|]. intros E v. injection E as <-. reflexivity. Qed.
(** So it is not the mean of the values seen so far. *)
Theorem C101_rollmean_warm_up_refuted : exists s : rollst R, rollmean_init 3 = Ok s /\ fst (rollmean_apply 6 s) = Ok 2.
Proof.
  eexists. split; [reflexivity|]. pose proof (C101_rollmean 3 [] 6 (mkRoll (repeat n0 (Z.to_nat 3)) 0) ltac:(lia) eq_refl) as G. cbn [apply_all fold_left] in G. rewrite G. f_equal. cbn [app]. rewrite lastn_all by (cbn; lia). unfold Rsum. cbn [fold_right]. lra.
Qed.
Print Assumptions C101_rollmean.
Print Assumptions C101_rollmean_bad_size.
Print Assumptions C101_rollmean_warm_up_refuted.
Example C101_ex : (exists s, ku_softmax exp [0; 1; 0] = Ok s /\ nth 0 s 0 < nth 1 s 0) /\ (exists s : rollst R, rollmean_init 2 = Ok s /\ fst (rollmean_apply 5 (apply_all [1; 2; 3] s)) = Ok 4).
Proof.
  split.
  - destruct (C101_softmax [0; 1; 0] ltac:(discriminate)) as (s & E & _ & _ & _ & _ & O). exists s. split; [exact E|]. apply O; cbn; lia || lra.
  - eexists. split; [reflexivity|]. rewrite (C101_rollmean 2) by (lia || reflexivity). f_equal. change (lastn (Z.to_nat 2) ([1; 2; 3] ++ [5])) with [3; 5]. unfold Rsum. cbn [fold_right]. lra.
Qed.
