(** * KitNET's autoencoders: what they compute and what a training step does (C89). *)
From Coq Require Import List ZArith Lia Bool Arith Permutation.
From Coq Require Import Reals Lra FunctionalExtensionality.
From Verif Require Import Base Num Spec Model_Stats Model_Utils Model_Core Model_Trans Model_Simple P_Lists P_Models Model_KitNET Prop_KitNET Prop_KitNET2.
From Verif Require P_Utils Prop_Post Prop_XStream Prop_RSHash.
Import ListNotations.
Open Scope R_scope.

(** ** Specification: an autoencoder with tied weights, nv visible and nh hidden units, on an input t *)
Definition sum (n : nat) (f : nat -> R) : R := Rsum (map f (seq 0 n)).
Definition logistic (r : R) : R := 1 / (1 + exp (- r)).
Definition activation (nv : nat) (t : nat -> R) (W : nat -> nat -> R) (hb : nat -> R) (j : nat) : R := logistic (sum nv (fun i => t i * W i j) + hb j).
Definition reconstruction (nv nh : nat) (t : nat -> R) (W : nat -> nat -> R) (hb vb : nat -> R) (i : nat) : R :=
  logistic (sum nh (fun j => activation nv t W hb j * W i j) + vb i).
(** The cross-entropy reconstruction loss. *)
Definition cross_entropy (nv nh : nat) (t : nat -> R) (W : nat -> nat -> R) (hb vb : nat -> R) : R :=
  - sum nv (fun i => t i * ln (reconstruction nv nh t W hb vb i) + (1 - t i) * ln (1 - reconstruction nv nh t W hb vb i)).
(** One parameter changed. *)
Definition with1 (f : nat -> R) (j : nat) (v : R) (k : nat) : R := if (k =? j)%nat then v else f k.
Definition with2 (W : nat -> nat -> R) (i j : nat) (v : R) (k l : nat) : R := if ((k =? i) && (l =? j))%nat then v else W k l.
(** The components of a vector scaled to the range of the training data. *)
Definition scaled (eps : R) (lo hi : nat -> R) (x : list R) (i : nat) : R := (nth i x 0 - lo i) / (hi i - lo i + eps).
Definition extremes (nv : nat) (xs : list (list R)) (lo hi : nat -> R) : Prop := forall i, (i < nv)%nat -> is_min (lo i) (feature xs i) /\ is_max (hi i) (feature xs i).

(** ** Sums *)
Lemma sum_S : forall n f, sum (S n) f = sum n f + f n.
Proof. intros. unfold sum. rewrite seq_S, map_app, Rsum_app. cbn [map Rsum fold_right plus]. ring. Qed.
Lemma sum_0 : forall f, sum 0 f = 0.
Proof. reflexivity. Qed.
Lemma sum_ext : forall n f g, (forall i, (i < n)%nat -> f i = g i) -> sum n f = sum n g.
Proof. intros n f g H. unfold sum. f_equal. apply map_ext_in. intros i Hi. apply in_seq in Hi. apply H. lia. Qed.
Lemma sum_plus : forall n f g, sum n (fun i => f i + g i) = sum n f + sum n g.
Proof. intros. unfold sum. apply Rsum_map_plus. Qed.
Lemma sum_scal : forall n c f, sum n (fun i => c * f i) = c * sum n f.
Proof. intros. unfold sum. apply Rsum_map_scal. Qed.
Lemma sum_scal_r : forall n c f, sum n (fun i => f i * c) = sum n f * c.
Proof. intros. rewrite Rmult_comm, <- sum_scal. apply sum_ext. intros. ring. Qed.
Lemma sum_const : forall n c, sum n (fun _ => c) = INR n * c.
Proof. intros. unfold sum. rewrite Rsum_map_const, seq_length. reflexivity. Qed.
Lemma sum_zero : forall n f, (forall i, (i < n)%nat -> f i = 0) -> sum n f = 0.
Proof. intros n f H. rewrite (sum_ext n f (fun _ => 0)) by auto. rewrite sum_const. ring. Qed.
Lemma sum_delta : forall n k f, (k < n)%nat -> sum n (fun i => if (i =? k)%nat then f i else 0) = f k.
Proof.
  induction n as [|n IH]; intros k f H; [lia|]. rewrite sum_S. destruct (Nat.eqb_spec n k) as [->|N].
  - rewrite sum_zero; [ring|]. intros i Hi. destruct (Nat.eqb_spec i k); [lia|auto].
  - rewrite IH by lia. ring.
Qed.
Lemma sum_swap : forall n m f, sum n (fun i => sum m (fun j => f i j)) = sum m (fun j => sum n (fun i => f i j)).
Proof.
  induction n as [|n IH]; intros m f.
  - rewrite sum_0. symmetry. apply sum_zero. intros. apply sum_0.
  - rewrite sum_S, IH, <- sum_plus. apply sum_ext. intros. rewrite sum_S. ring.
Qed.
Lemma sum_le0 : forall n f, (forall i, (i < n)%nat -> 0 <= f i) -> 0 <= sum n f.
Proof. intros n f H. unfold sum. apply Rsum_nonneg. intros v Hv. apply in_map_iff in Hv. destruct Hv as (i & <- & Hi). apply in_seq in Hi. apply H. lia. Qed.
Lemma derivable_sum : forall n (f : nat -> R -> R) (g : nat -> R) r, (forall i, (i < n)%nat -> derivable_pt_lim (f i) r (g i)) -> derivable_pt_lim (fun s => sum n (fun i => f i s)) r (sum n g).
Proof.
  induction n as [|n IH]; intros f g r H.
  - apply (derivable_pt_lim_ext (fun _ => 0)); [intros; rewrite sum_0; auto|]. apply derivable_pt_lim_const.
  - rewrite sum_S. apply (derivable_pt_lim_ext ((fun s => sum n (fun i => f i s)) + f n)%F); [intros; unfold plus_fct; rewrite sum_S; auto|]. apply derivable_pt_lim_plus; auto.
Qed.
Lemma dlim_eq : forall f r a b, derivable_pt_lim f r a -> a = b -> derivable_pt_lim f r b.
Proof. intros; subst; auto. Qed.
Lemma logistic_unit : forall r, 0 < logistic r < 1.
Proof. intros r. unfold logistic. pose proof (exp_pos (- r)). split; [apply Rdiv_lt_0_compat; lra|]. apply Rmult_lt_reg_r with (1 + exp (- r)); [lra|]. unfold Rdiv. rewrite Rmult_assoc, Rinv_l by lra. lra. Qed.
Lemma derivable_logistic : forall r, derivable_pt_lim logistic r (logistic r * (1 - logistic r)).
Proof.
  intros r. pose proof (exp_pos (- r)) as P. unfold logistic at 1.
  apply (derivable_pt_lim_ext ((fct_cte 1 / (fct_cte 1 + comp exp (- id)))%F)); [intros; unfold div_fct, plus_fct, comp, opp_fct, fct_cte, id; auto|].
  assert (D : derivable_pt_lim (fct_cte 1 + comp exp (- id))%F r (0 + exp (- r) * - 1)).
  { apply derivable_pt_lim_plus; [apply derivable_pt_lim_const|]. apply derivable_pt_lim_comp; [apply derivable_pt_lim_opp, derivable_pt_lim_id|apply derivable_pt_lim_exp]. }
  eapply dlim_eq; [apply (derivable_pt_lim_div (fct_cte 1) _ r 0 _ (derivable_pt_lim_const 1 r) D); unfold plus_fct, comp, opp_fct, fct_cte, id; lra|].
  unfold plus_fct, comp, opp_fct, fct_cte, id, logistic, Rsqr. field. lra.
Qed.
(** Chain rule through the logistic function. *)
Lemma derivable_logistic_comp : forall f r g, derivable_pt_lim f r g -> derivable_pt_lim (fun s => logistic (f s)) r (logistic (f r) * (1 - logistic (f r)) * g).
Proof. intros f r g D. apply (derivable_pt_lim_comp f logistic r g _ D). apply derivable_logistic. Qed.
(** The derivative of the loss of one output with respect to its preactivation. *)
Lemma derivable_loss : forall t f r g, derivable_pt_lim f r g -> derivable_pt_lim (fun s => - (t * ln (logistic (f s)) + (1 - t) * ln (1 - logistic (f s)))) r ((logistic (f r) - t) * g).
Proof.
  intros t f r g D. pose proof (derivable_logistic_comp f r g D) as DL. set (z := logistic (f r)) in *. assert (Hz : 0 < z < 1) by apply logistic_unit.
  assert (D1 : derivable_pt_lim (fun s => ln (logistic (f s))) r (/ z * (z * (1 - z) * g))) by (apply (derivable_pt_lim_comp (fun s => logistic (f s)) ln r _ _ DL); apply derivable_pt_lim_ln; apply Hz).
  assert (D2 : derivable_pt_lim (fun s => 1 - logistic (f s)) r (0 - z * (1 - z) * g)) by (apply (derivable_pt_lim_minus (fct_cte 1) _ r _ _ (derivable_pt_lim_const 1 r) DL)).
  assert (D3 : derivable_pt_lim (fun s => ln (1 - logistic (f s))) r (/ (1 - z) * (0 - z * (1 - z) * g))) by (apply (derivable_pt_lim_comp (fun s => 1 - logistic (f s)) ln r _ _ D2); apply derivable_pt_lim_ln; fold z; lra).
  eapply dlim_eq; [apply (derivable_pt_lim_opp (fun s => t * ln (logistic (f s)) + (1 - t) * ln (1 - logistic (f s)))); apply (derivable_pt_lim_plus (mult_real_fct t (fun s => ln (logistic (f s)))) (mult_real_fct (1 - t) (fun s => ln (1 - logistic (f s))))); apply derivable_pt_lim_scal; [exact D1|exact D3]|].
  field. lra.
Qed.

(** ** The directional derivative of the loss *)
Section Direction.
Variables (nv nh : nat) (t : nat -> R) (W : R -> nat -> nat -> R) (hb vb : R -> nat -> R) (r : R) (dW : nat -> nat -> R) (dh dv : nat -> R).
Hypothesis HW : forall i j, derivable_pt_lim (fun s => W s i j) r (dW i j).
Hypothesis Hh : forall j, derivable_pt_lim (fun s => hb s j) r (dh j).
Hypothesis Hv : forall i, derivable_pt_lim (fun s => vb s i) r (dv i).
Let y j := activation nv t (W r) (hb r) j.
Let z i := reconstruction nv nh t (W r) (hb r) (vb r) i.
Definition hidden_error (k : nat) : R := sum nv (fun i => (t i - z i) * W r i k) * y k * (1 - y k).
Lemma derivable_direction : derivable_pt_lim (fun s => cross_entropy nv nh t (W s) (hb s) (vb s)) r
  (- (sum nv (fun i => sum nh (fun j => (t i * hidden_error j + (t i - z i) * y j) * dW i j)) + sum nh (fun j => hidden_error j * dh j) + sum nv (fun i => (t i - z i) * dv i))).
Proof.
  assert (Dy : forall j, derivable_pt_lim (fun s => activation nv t (W s) (hb s) j) r (y j * (1 - y j) * (sum nv (fun i => t i * dW i j) + dh j))).
  { intros j. apply (derivable_logistic_comp (fun s => sum nv (fun i => t i * W s i j) + hb s j)). apply (derivable_pt_lim_plus (fun s => sum nv (fun i => t i * W s i j)) (fun s => hb s j)); auto. apply (derivable_sum nv (fun i s => t i * W s i j)). intros i _. apply (derivable_pt_lim_scal (fun s => W s i j)). auto. }
  assert (Db : forall i, derivable_pt_lim (fun s => sum nh (fun j => activation nv t (W s) (hb s) j * W s i j) + vb s i) r
    (sum nh (fun j => y j * (1 - y j) * (sum nv (fun k => t k * dW k j) + dh j) * W r i j + y j * dW i j) + dv i)).
  { intros i. apply (derivable_pt_lim_plus (fun s => sum nh (fun j => activation nv t (W s) (hb s) j * W s i j)) (fun s => vb s i)); auto. apply (derivable_sum nh (fun j s => activation nv t (W s) (hb s) j * W s i j)). intros j _. apply (derivable_pt_lim_mult (fun s => activation nv t (W s) (hb s) j) (fun s => W s i j)); auto. }
  eapply dlim_eq.
  - apply (derivable_pt_lim_ext (fun s => sum nv (fun i => - (t i * ln (reconstruction nv nh t (W s) (hb s) (vb s) i) + (1 - t i) * ln (1 - reconstruction nv nh t (W s) (hb s) (vb s) i))))).
    { intros s. unfold cross_entropy. replace (- sum nv (fun i => t i * ln (reconstruction nv nh t (W s) (hb s) (vb s) i) + (1 - t i) * ln (1 - reconstruction nv nh t (W s) (hb s) (vb s) i))) with (-1 * sum nv (fun i => t i * ln (reconstruction nv nh t (W s) (hb s) (vb s) i) + (1 - t i) * ln (1 - reconstruction nv nh t (W s) (hb s) (vb s) i))) by ring. rewrite <- sum_scal. apply sum_ext. intros. ring. }
    apply (derivable_sum nv (fun i s => - (t i * ln (reconstruction nv nh t (W s) (hb s) (vb s) i) + (1 - t i) * ln (1 - reconstruction nv nh t (W s) (hb s) (vb s) i)))). intros i _. apply (derivable_loss (t i) (fun s => sum nh (fun j => activation nv t (W s) (hb s) j * W s i j) + vb s i)). apply Db.
  - cbv beta.
    rewrite (sum_ext nv _ (fun i => -1 * (sum nh (fun j => (t i - z i) * W r i j * y j * (1 - y j) * (sum nv (fun k => t k * dW k j) + dh j)) + sum nh (fun j => (t i - z i) * y j * dW i j) + (t i - z i) * dv i))).
    2: { intros i _. fold (reconstruction nv nh t (W r) (hb r) (vb r) i). fold (z i). rewrite sum_plus.
         rewrite (sum_ext nh (fun j => (t i - z i) * W r i j * y j * (1 - y j) * (sum nv (fun k => t k * dW k j) + dh j)) (fun j => (t i - z i) * (y j * (1 - y j) * (sum nv (fun k => t k * dW k j) + dh j) * W r i j))) by (intros; ring).
         rewrite (sum_ext nh (fun j => (t i - z i) * y j * dW i j) (fun j => (t i - z i) * (y j * dW i j))) by (intros; ring). rewrite !sum_scal. ring. }
    rewrite sum_scal, !sum_plus. replace (-1) with (- (1)) by ring. rewrite Ropp_mult_distr_l_reverse, Rmult_1_l. f_equal. f_equal.
    rewrite (sum_swap nv nh (fun i j => (t i - z i) * W r i j * y j * (1 - y j) * (sum nv (fun k => t k * dW k j) + dh j))).
    rewrite (sum_ext nh _ (fun j => sum nv (fun i => t i * hidden_error j * dW i j) + hidden_error j * dh j)).
    2: { intros j _. unfold hidden_error. rewrite (sum_ext nv (fun i => (t i - z i) * W r i j * y j * (1 - y j) * (sum nv (fun k => t k * dW k j) + dh j)) (fun i => (t i - z i) * W r i j * (y j * (1 - y j) * (sum nv (fun k => t k * dW k j) + dh j)))) by (intros; ring). rewrite sum_scal_r.
         set (E := sum nv (fun i => (t i - z i) * W r i j)). rewrite (sum_ext nv (fun i => t i * (E * y j * (1 - y j)) * dW i j) (fun i => (E * y j * (1 - y j)) * (t i * dW i j))) by (intros; ring). rewrite sum_scal. ring. }
    rewrite sum_plus. rewrite (sum_ext nv (fun i => sum nh (fun j => (t i * hidden_error j + (t i - z i) * y j) * dW i j)) (fun i => sum nh (fun j => t i * hidden_error j * dW i j) + sum nh (fun j => (t i - z i) * y j * dW i j))) by (intros; rewrite <- sum_plus; apply sum_ext; intros; ring).
    rewrite sum_plus, (sum_swap nv nh (fun i j => t i * hidden_error j * dW i j)). ring.
Qed.
End Direction.

(** ** From lists to components *)
Lemma Rsum_nth : forall l n, length l = n -> Rsum l = sum n (fun i => nth i l 0).
Proof. intros l n <-. unfold sum. rewrite (P_Utils.map_nth_seq _ l 0). reflexivity. Qed.
Lemma dot_sum : forall a b n, length a = n -> length b = n -> dot a b = sum n (fun i => nth i a 0 * nth i b 0).
Proof.
  intros a b n Ha Hb. unfold dot. rewrite Prop_XStream.nsum_Rsum, (Rsum_nth _ n) by (rewrite map2_length; lia). apply sum_ext. intros i Hi. rewrite (nth_map2 _ _ _ _ _ _ i 0 0) by lia. reflexivity.
Qed.
Lemma vec_mean_sum : forall l n, length l = n -> vec_mean l = sum n (fun i => nth i l 0) / INR n.
Proof. intros l n <-. unfold vec_mean. rewrite Prop_XStream.nsum_Rsum, (Rsum_nth l (length l)) by auto. cbn [ndiv nofZ NumR]. rewrite <- INR_IZR_INZ. reflexivity. Qed.
Definition shape (nv nh : nat) (d : dast R) : Prop :=
  length (da_max d) = nv /\ length (da_min d) = nv /\ length (da_W d) = nv /\ Forall (fun row => length row = nh) (da_W d) /\ length (da_hb d) = nh /\ length (da_vb d) = nv.
Lemma row_length : forall nv nh d i, shape nv nh d -> (i < nv)%nat -> length (nth i (da_W d) []) = nh.
Proof. intros nv nh d i (_ & _ & L & F & _) H. rewrite Forall_forall in F. apply F. apply nth_In. lia. Qed.
Section Bridge.
Variables (p : kitpar R) (nv nh : nat) (d : dast R).
Hypothesis He : kp_exp p = exp.
Hypothesis Hs : shape nv nh d.
Let W := entry (da_W d).
Let hb j := nth j (da_hb d) 0.
Let vb i := nth i (da_vb d) 0.
Lemma hidden_length : forall x, length (da_hidden p d x) = nh.
Proof. destruct Hs as (_ & _ & L & F & Lh & _). intros x. unfold da_hidden, vec_mat. rewrite map_length, map2_length, map_length, seq_length, Lh. lia. Qed.
Lemma decode_length : forall y, length (da_decode p d y) = nv.
Proof. destruct Hs as (_ & _ & L & F & Lh & Lv). intros y. unfold da_decode, vec_matT. rewrite map_length, map2_length, map_length. lia. Qed.
Lemma normalise_length : forall x, length x = nv -> length (da_normalise p d x) = nv.
Proof. destruct Hs as (L1 & L2 & _). intros x Hx. unfold da_normalise. repeat (rewrite ?map2_length, ?map_length). lia. Qed.
Lemma vec_mat_nth : forall x j, length x = nv -> (j < nh)%nat -> nth j (vec_mat (length (da_hb d)) x (da_W d)) 0 = sum nv (fun i => nth i x 0 * W i j).
Proof.
  destruct Hs as (_ & _ & L & F & Lh & Lv). intros x j Hx Hj. unfold vec_mat. rewrite Lh, Prop_XStream.nth_map_seq by lia. rewrite (dot_sum _ _ nv) by (rewrite ?map_length; lia).
  apply sum_ext. intros i Hi. rewrite (nth_map_any _ _ _ _ i []) by lia. reflexivity.
Qed.
Lemma hidden_nth : forall x j, length x = nv -> (j < nh)%nat -> nth j (da_hidden p d x) 0 = activation nv (fun i => nth i x 0) W hb j.
Proof.
  intros x j Hx Hj. pose proof (hidden_length x) as HL. unfold da_hidden in *. rewrite map_length in HL. rewrite (nth_map_any _ _ _ _ j 0) by lia.
  destruct Hs as (_ & _ & L & F & Lh & Lv). rewrite (nth_map2 _ _ _ _ _ _ j 0 0) by (unfold vec_mat; rewrite ?map_length, ?seq_length; lia). rewrite vec_mat_nth by auto. unfold sigmoid. rewrite He. reflexivity.
Qed.
Lemma decode_nth : forall y i, length y = nh -> (i < nv)%nat -> nth i (da_decode p d y) 0 = logistic (sum nh (fun j => nth j y 0 * W i j) + vb i).
Proof.
  intros y i Hy Hi. pose proof (decode_length y) as HL. unfold da_decode in *. rewrite map_length in HL. rewrite (nth_map_any _ _ _ _ i 0) by lia.
  pose proof (row_length nv nh d i Hs Hi) as HR. destruct Hs as (_ & _ & L & F & Lh & Lv). unfold vec_matT. rewrite (nth_map2 _ _ _ _ _ _ i 0 0) by (rewrite ?map_length; lia). rewrite (nth_map_any _ _ _ _ i []) by lia. rewrite (dot_sum _ _ nh) by auto. unfold sigmoid. rewrite He. reflexivity.
Qed.
Lemma reconstruction_nth : forall x i, length x = nv -> (i < nv)%nat -> nth i (da_decode p d (da_hidden p d x)) 0 = reconstruction nv nh (fun i => nth i x 0) W hb vb i.
Proof.
  intros x i Hx Hi. rewrite decode_nth by (auto using hidden_length). unfold reconstruction. f_equal. f_equal. apply sum_ext. intros j Hj. rewrite hidden_nth by auto. reflexivity.
Qed.
Lemma normalise_nth : forall x i, length x = nv -> (i < nv)%nat -> nth i (da_normalise p d x) 0 = scaled (kp_eps p) (fun i => nth i (da_min d) 0) (fun i => nth i (da_max d) 0) x i.
Proof.
  destruct Hs as (L1 & L2 & _). intros x i Hx Hi. unfold da_normalise. rewrite (nth_map2 _ _ _ _ _ _ i 0 0) by (repeat (rewrite ?map2_length, ?map_length); lia). rewrite (nth_map_any _ _ _ _ i 0) by (rewrite map2_length; lia). rewrite !(nth_map2 _ _ _ _ _ _ i 0 0) by lia. reflexivity.
Qed.
Lemma rmse_sum : forall l, length l = nv -> rmse l = sqrt (sum nv (fun i => nth i l 0 ^ 2) / INR nv).
Proof.
  intros l L. unfold rmse. cbn [nsqrt NumR]. rewrite (vec_mean_sum _ nv) by (rewrite map_length; auto). f_equal. f_equal. apply sum_ext. intros i Hi. rewrite (nth_map_any _ _ _ _ i 0) by lia. unfold nsq. cbn [nmul NumR]. ring.
Qed.
End Bridge.
Lemma activation_ext : forall nv t t' W W' hb hb' j, (forall i, (i < nv)%nat -> t i = t' i) -> (forall i, (i < nv)%nat -> W i j = W' i j) -> hb j = hb' j -> activation nv t W hb j = activation nv t' W' hb' j.
Proof. intros. unfold activation. rewrite (sum_ext nv _ (fun i => t' i * W' i j)) by (intros i Hi; rewrite H, H0 by auto; auto). rewrite H1. reflexivity. Qed.
Lemma reconstruction_ext : forall nv nh t t' W W' hb hb' vb vb' i, (i < nv)%nat -> (forall i, (i < nv)%nat -> t i = t' i) -> (forall i j, (i < nv)%nat -> (j < nh)%nat -> W i j = W' i j) -> (forall j, (j < nh)%nat -> hb j = hb' j) -> vb i = vb' i ->
  reconstruction nv nh t W hb vb i = reconstruction nv nh t' W' hb' vb' i.
Proof.
  intros. unfold reconstruction. rewrite (sum_ext nh _ (fun j => activation nv t' W' hb' j * W' i j)); [rewrite H3; auto|]. intros j Hj. rewrite H1 by auto. f_equal. apply activation_ext; auto.
Qed.
Lemma trained_full_shape : forall p nv xs d, Forall (fun x => length x = nv) xs -> trained p nv xs d -> shape nv (kp_hidden p nv) d.
Proof.
  intros p nv xs d F T. destruct (trained_shape R NumR p nv xs d F T) as (L1 & L2 & _ & Hnv & L5 & L6). unfold shape. repeat (split; [auto; fail|]). enough (Forall (fun row => length row = kp_hidden p nv) (da_W d) /\ length (da_hb d) = kp_hidden p nv) by tauto.
  clear L1 L2 L5 L6. revert d T. induction xs as [|x xs IH] using rev_ind; intros d T.
  - destruct T as (d0 & E & ->). cbn [fold_left]. unfold da_init in E. destruct (Nat.eqb_spec nv 0); [lia|]. inversion E. cbn [da_W da_hb]. rewrite repeat_length. split; auto. apply Forall_forall. intros row Hr. apply in_map_iff in Hr. destruct Hr as (i & <- & _). rewrite map_length, seq_length. auto.
  - apply Forall_app in F. destruct F as [F Fx]. apply Forall_inv in Fx. apply trained_snoc in T. destruct T as (d' & T & ->). destruct (IH F d' T) as [Rw Hb]. destruct (trained_shape R NumR p nv xs d' F T) as (L1 & L2 & _ & _ & L5 & L6). unfold da_train. cbn [snd da_W da_hb]. split; [|cbn [da_norms da_hb]; rewrite map_length; auto].
    set (dn := da_norms d' x). assert (Sh : shape nv (kp_hidden p nv) dn) by (unfold dn, da_norms, shape; cbn [da_max da_min da_W da_hb da_vb]; rewrite !map2_length; repeat split; auto; lia).
    set (xn := da_normalise p dn x). assert (Lxn : length xn = nv) by (apply (normalise_length p nv (kp_hidden p nv)); auto). set (y := da_hidden p dn xn). assert (Ly : length y = kp_hidden p nv) by (apply (hidden_length p nv); auto).
    apply Forall_forall. intros row Hr. unfold map2 at 1 in Hr. apply in_map_iff in Hr. destruct Hr as ([a b] & <- & Hr). cbn [fst snd]. pose proof (in_combine_l _ _ _ _ Hr) as Ia. pose proof (in_combine_r _ _ _ _ Hr) as Ib. cbn [dn da_norms da_W] in Ia. rewrite Forall_forall in Rw. apply Rw in Ia. rewrite map2_length, Ia.
    apply in_map_iff in Ib. destruct Ib as (b' & <- & Ib). rewrite map_length. unfold map2 at 1 in Ib. apply in_map_iff in Ib. destruct Ib as ([u v] & <- & Iuv). cbn [fst snd]. rewrite map2_length. pose proof (in_combine_l _ _ _ _ Iuv) as Iu. pose proof (in_combine_r _ _ _ _ Iuv) as Iv. unfold outer in Iu, Iv. apply in_map_iff in Iu. apply in_map_iff in Iv. destruct Iu as (u' & <- & _). destruct Iv as (v' & <- & _).
    rewrite !map_length, !map2_length, !map_length. unfold vec_mat. rewrite map_length, seq_length. change (da_hb dn) with (da_hb d'). lia.
Qed.

(** ** One training step, by components *)
Definition bias (l : list R) (i : nat) : R := nth i l 0.
Definition hidden_err nv nh t W hb vb k : R := hidden_error nv nh t (fun _ => W) (fun _ => hb) (fun _ => vb) 0 k.
Lemma step_nth : forall p nv nh d x, kp_exp p = exp -> shape nv nh d -> length x = nv ->
  let dn := da_norms d x in let t := fun i => nth i (da_normalise p dn x) 0 in let W := entry (da_W d) in let hb := bias (da_hb d) in let vb := bias (da_vb d) in let d' := snd (da_train p d x) in
  let y := activation nv t W hb in let z := reconstruction nv nh t W hb vb in let e := hidden_err nv nh t W hb vb in
  (forall i j, (i < nv)%nat -> (j < nh)%nat -> entry (da_W d') i j = W i j + kp_lr p * (t i * e j + (t i - z i) * y j)) /\
  (forall j, (j < nh)%nat -> bias (da_hb d') j = hb j + kp_lr p * (sum nh e / INR nh)) /\
  (forall i, (i < nv)%nat -> bias (da_vb d') i = vb i + kp_lr p * (sum nv (fun k => t k - z k) / INR nv)) /\
  fst (da_train p d x) = sqrt (sum nv (fun i => (t i - z i) ^ 2) / INR nv).
Proof.
  intros p nv nh d x He Hs Hx. intros dn t W hb vb d' y z e.
  assert (Sh : shape nv nh dn) by (destruct Hs as (L1 & L2 & L3 & L4 & L5 & L6); unfold dn, da_norms, shape; cbn [da_max da_min da_W da_hb da_vb]; rewrite !map2_length; repeat split; auto; lia).
  set (xn := da_normalise p dn x) in *. assert (Lxn : length xn = nv) by (apply (normalise_length p nv nh); auto).
  set (yl := da_hidden p dn xn). assert (Ly : length yl = nh) by (apply (hidden_length p nv); auto).
  set (zl := da_decode p dn yl). assert (Lz : length zl = nv) by (apply (decode_length p nv nh); auto).
  assert (Ey : forall j, (j < nh)%nat -> nth j yl 0 = y j) by (intros j Hj; unfold yl; rewrite (hidden_nth p nv nh dn He Sh) by auto; reflexivity).
  assert (Ez : forall i, (i < nv)%nat -> nth i zl 0 = z i) by (intros i Hi; unfold zl, yl; rewrite (reconstruction_nth p nv nh dn He Sh) by auto; reflexivity).
  set (h2 := map2 nsub xn zl). assert (L2 : length h2 = nv) by (unfold h2; rewrite map2_length; lia).
  assert (E2 : forall i, (i < nv)%nat -> nth i h2 0 = t i - z i) by (intros i Hi; unfold h2; rewrite (nth_map2 _ _ _ _ _ _ i 0 0) by lia; rewrite Ez by auto; reflexivity).
  set (vm := vec_mat (length (da_hb dn)) h2 (da_W dn)). assert (Lvm : length vm = nh) by (unfold vm, vec_mat; rewrite map_length, seq_length; apply Sh).
  set (h1 := map2 nmul (map2 nmul vm yl) (map (nsub (nofZ 1)) yl)). assert (L1 : length h1 = nh) by (unfold h1; rewrite !map2_length, map_length; lia).
  assert (E1 : forall j, (j < nh)%nat -> nth j h1 0 = e j).
  { intros j Hj. unfold h1. rewrite (nth_map2 _ _ _ _ _ _ j 0 0) by (repeat (rewrite ?map_length, ?map2_length); lia). rewrite (nth_map2 _ _ _ _ _ _ j 0 0) by lia. rewrite (nth_map_any _ _ _ _ j 0) by lia. rewrite Ey by auto. unfold vm. rewrite (vec_mat_nth nv nh dn Sh) by auto. unfold e, hidden_err, hidden_error. cbn [nmul nsub nofZ NumR]. rewrite (sum_ext nv _ (fun i => (t i - z i) * W i j)); [reflexivity|]. intros i Hi. rewrite E2 by auto. reflexivity. }
  assert (ET : da_train p d x = (rmse h2, mkDA (da_max dn) (da_min dn) (da_n dn) (map2 (map2 nadd) (da_W dn) (map (map (nmul (kp_lr p))) (map2 (map2 nadd) (outer xn h1) (outer h2 yl))))
        (map (fun b => nadd b (nmul (kp_lr p) (vec_mean h1))) (da_hb dn)) (map (fun b => nadd b (nmul (kp_lr p) (vec_mean h2))) (da_vb dn)))) by reflexivity.
  unfold d'. rewrite ET. cbn [fst snd da_W da_hb da_vb]. repeat split.
  - intros i j Hi Hj. pose proof (row_length nv nh dn i Sh Hi) as HR. destruct Sh as (_ & _ & LW & _ & Lh & Lv). unfold entry.
    assert (LO1 : length (outer xn h1) = nv) by (unfold outer; rewrite map_length; auto). assert (LO2 : length (outer h2 yl) = nv) by (unfold outer; rewrite map_length; auto).
    rewrite (nth_map2 _ _ _ _ _ _ i [] []) by (repeat (rewrite ?map_length, ?map2_length); lia). rewrite (nth_map_any _ _ _ _ i []) by (repeat (rewrite ?map_length, ?map2_length); lia). rewrite (nth_map2 _ _ _ _ _ _ i [] []) by lia.
    unfold outer. rewrite !(nth_map_any _ _ _ _ i 0) by lia. rewrite (nth_map2 _ _ _ _ _ _ j 0 0) by (repeat (rewrite ?map_length, ?map2_length); lia). rewrite (nth_map_any _ _ _ _ j 0) by (repeat (rewrite ?map_length, ?map2_length); lia). rewrite (nth_map2 _ _ _ _ _ _ j 0 0) by (repeat (rewrite ?map_length, ?map2_length); lia). rewrite !(nth_map_any _ _ _ _ j 0) by lia.
    rewrite E1, E2, Ey by auto. reflexivity.
  - intros j Hj. destruct Sh as (_ & _ & LW & _ & Lh & Lv). unfold bias. rewrite (nth_map_any _ _ _ _ j 0) by lia. rewrite (vec_mean_sum h1 nh) by auto. rewrite (sum_ext nh (fun i => nth i h1 0) e) by auto. reflexivity.
  - intros i Hi. destruct Sh as (_ & _ & LW & _ & Lh & Lv). unfold bias. rewrite (nth_map_any _ _ _ _ i 0) by lia. rewrite (vec_mean_sum h2 nv) by auto. rewrite (sum_ext nv (fun i => nth i h2 0) (fun k => t k - z k)) by auto. reflexivity.
  - rewrite (rmse_sum nv) by auto. f_equal. f_equal. apply sum_ext. intros i Hi. rewrite E2 by auto. reflexivity.
Qed.
Lemma extreme_unique : forall l a b, (is_min a l -> is_min b l -> a = b) /\ (is_max a l -> is_max b l -> a = b).
Proof. intros l a b. split; intros [I1 H1] [I2 H2]; specialize (H1 _ I2); specialize (H2 _ I1); lra. Qed.
(** The gradient by components. *)
Lemma gradient_W : forall nv nh t W hb vb i j, (i < nv)%nat -> (j < nh)%nat ->
  derivable_pt_lim (fun w => cross_entropy nv nh t (with2 W i j w) hb vb) (W i j) (- (t i * hidden_err nv nh t W hb vb j + (t i - reconstruction nv nh t W hb vb i) * activation nv t W hb j)).
Proof.
  intros nv nh t W hb vb i j Hi Hj. assert (EW : with2 W i j (W i j) = W). { apply functional_extensionality. intros k. apply functional_extensionality. intros l. unfold with2. destruct (Nat.eqb_spec k i) as [->|]; auto. destruct (Nat.eqb_spec l j) as [->|]; auto. }
  pose proof (derivable_direction nv nh t (fun w => with2 W i j w) (fun _ => hb) (fun _ => vb) (W i j) (fun k l => if ((k =? i) && (l =? j))%nat then 1 else 0) (fun _ => 0) (fun _ => 0)) as D. cbv beta in D.
  eapply dlim_eq; [apply D|].
  - intros k l. unfold with2. destruct ((k =? i) && (l =? j))%nat; [apply derivable_pt_lim_id|apply derivable_pt_lim_const].
  - intros k. apply derivable_pt_lim_const.
  - intros k. apply derivable_pt_lim_const.
  - f_equal. unfold hidden_err, hidden_error. rewrite EW. set (e := fun k => sum nv (fun i0 => (t i0 - reconstruction nv nh t W hb vb i0) * W i0 k) * activation nv t W hb k * (1 - activation nv t W hb k)).
    rewrite (sum_zero nh) by (intros; ring). rewrite (sum_zero nv (fun i0 => _ * 0)) by (intros; ring).
    rewrite (sum_ext nv _ (fun k => if (k =? i)%nat then t k * e j + (t k - reconstruction nv nh t W hb vb k) * activation nv t W hb j else 0)).
    + rewrite sum_delta by auto. unfold e. ring.
    + intros k _. destruct (Nat.eqb_spec k i) as [->|N]; cbn [andb].
      * rewrite (sum_ext nh _ (fun l => if (l =? j)%nat then t i * e l + (t i - reconstruction nv nh t W hb vb i) * activation nv t W hb l else 0)); [rewrite sum_delta; auto|]. intros l _. unfold e. destruct (l =? j)%nat; ring.
      * apply sum_zero. intros. ring.
Qed.
Lemma gradient_hb : forall nv nh t W hb vb j, (j < nh)%nat -> derivable_pt_lim (fun b => cross_entropy nv nh t W (with1 hb j b) vb) (hb j) (- hidden_err nv nh t W hb vb j).
Proof.
  intros nv nh t W hb vb j Hj. assert (EW : with1 hb j (hb j) = hb). { apply functional_extensionality. intros k. unfold with1. destruct (Nat.eqb_spec k j) as [->|]; auto. }
  pose proof (derivable_direction nv nh t (fun _ => W) (fun b => with1 hb j b) (fun _ => vb) (hb j) (fun _ _ => 0) (fun l => if (l =? j)%nat then 1 else 0) (fun _ => 0)) as D. cbv beta in D.
  eapply dlim_eq; [apply D|].
  - intros. apply derivable_pt_lim_const.
  - intros l. unfold with1. destruct (l =? j)%nat; [apply derivable_pt_lim_id|apply derivable_pt_lim_const].
  - intros. apply derivable_pt_lim_const.
  - f_equal. unfold hidden_err, hidden_error. rewrite EW. rewrite (sum_zero nv (fun i => sum nh _)) by (intros; apply sum_zero; intros; ring). rewrite (sum_zero nv (fun i => _ * 0)) by (intros; ring).
    set (e := fun k => sum nv (fun i0 => (t i0 - reconstruction nv nh t W hb vb i0) * W i0 k) * activation nv t W hb k * (1 - activation nv t W hb k)).
    rewrite (sum_ext nh _ (fun l => if (l =? j)%nat then e l else 0)); [rewrite sum_delta by auto; unfold e; ring|]. intros l _. unfold e. destruct (l =? j)%nat; ring.
Qed.
Lemma gradient_vb : forall nv nh t W hb vb i, (i < nv)%nat -> derivable_pt_lim (fun b => cross_entropy nv nh t W hb (with1 vb i b)) (vb i) (- (t i - reconstruction nv nh t W hb vb i)).
Proof.
  intros nv nh t W hb vb i Hi. assert (EW : with1 vb i (vb i) = vb). { apply functional_extensionality. intros k. unfold with1. destruct (Nat.eqb_spec k i) as [->|]; auto. }
  pose proof (derivable_direction nv nh t (fun _ => W) (fun _ => hb) (fun b => with1 vb i b) (vb i) (fun _ _ => 0) (fun _ => 0) (fun l => if (l =? i)%nat then 1 else 0)) as D. cbv beta in D.
  eapply dlim_eq; [apply D|].
  - intros. apply derivable_pt_lim_const.
  - intros. apply derivable_pt_lim_const.
  - intros l. unfold with1. destruct (l =? i)%nat; [apply derivable_pt_lim_id|apply derivable_pt_lim_const].
  - f_equal. rewrite EW. rewrite (sum_zero nv (fun i => sum nh _)) by (intros; apply sum_zero; intros; ring). rewrite (sum_zero nh (fun i => _ * 0)) by (intros; ring).
    rewrite (sum_ext nv _ (fun l => if (l =? i)%nat then t l - reconstruction nv nh t W hb vb l else 0)); [rewrite sum_delta by auto; ring|]. intros l _. destruct (l =? i)%nat; ring.
Qed.
Lemma scaled_by_extremes : forall p nv xs d x, Forall (fun x => length x = nv) xs -> Forall (bounded p) xs -> xs <> [] -> trained p nv xs d -> length x = nv -> forall lo hi, extremes nv xs lo hi ->
  forall i, (i < nv)%nat -> nth i (da_normalise p d x) 0 = scaled (kp_eps p) lo hi x i.
Proof.
  intros p nv xs d x F B NE T Hx lo hi E i Hi. pose proof (trained_full_shape p nv xs d F T) as Sh. rewrite (normalise_nth p nv (kp_hidden p nv) d Sh) by auto. destruct (E i Hi) as [m M]. destruct (C64_normalisation_limits p nv xs d i F B T NE Hi) as [M' m'].
  unfold scaled. rewrite (proj1 (extreme_unique _ _ _) m' m), (proj2 (extreme_unique _ _ _) M' M). reflexivity.
Qed.
Lemma cross_entropy_ext : forall nv nh t t' W hb vb, (forall i, (i < nv)%nat -> t i = t' i) -> cross_entropy nv nh t W hb vb = cross_entropy nv nh t' W hb vb.
Proof. intros. unfold cross_entropy. f_equal. apply sum_ext. intros i Hi. rewrite (reconstruction_ext nv nh t t' W W hb hb vb vb i) by auto. rewrite H by auto. reflexivity. Qed.
Lemma hidden_err_ext : forall nv nh t t' W hb vb j, (forall i, (i < nv)%nat -> t i = t' i) -> hidden_err nv nh t W hb vb j = hidden_err nv nh t' W hb vb j.
Proof.
  intros. unfold hidden_err, hidden_error. rewrite (activation_ext nv t t' W W hb hb j) by auto. f_equal. f_equal. apply sum_ext. intros i Hi. rewrite (reconstruction_ext nv nh t t' W W hb hb vb vb i) by auto. rewrite H by auto. reflexivity.
Qed.

(** ** C89 *)
(** The anomaly score of an autoencoder is the root mean square of the differences between the scaled input and its
    reconstruction by the learned network. *)
Theorem C89_score : forall p nv xs d x lo hi, kp_exp p = exp -> Forall (fun x => length x = nv) xs -> Forall (bounded p) xs -> xs <> [] -> trained p nv xs d -> length x = nv -> extremes nv xs lo hi ->
  let t := scaled (kp_eps p) lo hi x in
  da_execute p d x = sqrt (sum nv (fun i => (t i - reconstruction nv (kp_hidden p nv) t (entry (da_W d)) (bias (da_hb d)) (bias (da_vb d)) i) ^ 2) / INR nv).
Proof.
  intros p nv xs d x lo hi He F B NE T Hx E t. pose proof (trained_full_shape p nv xs d F T) as Sh. unfold da_execute. pose proof (scaled_by_extremes p nv xs d x F B NE T Hx lo hi E) as Et.
  pose proof (normalise_length p nv _ d Sh x Hx) as Ln. pose proof (decode_length p nv _ d Sh (da_hidden p d (da_normalise p d x))) as Ld. rewrite (rmse_sum nv) by (rewrite map2_length; lia). f_equal. f_equal. apply sum_ext. intros i Hi. rewrite (nth_map2 _ _ _ _ _ _ i 0 0) by lia. rewrite (reconstruction_nth p nv _ d He Sh) by auto. rewrite Et by auto.
  rewrite (reconstruction_ext nv _ _ t _ (entry (da_W d)) _ (bias (da_hb d)) _ (bias (da_vb d)) i) by auto. reflexivity.
Qed.
Print Assumptions C89_score.
(** A training step on x after the vectors xs: everything is said about the loss of the input x, scaled to the range of
    xs and x. *)
Section Step.
Variables (p : kitpar R) (nv : nat) (xs : list (list R)) (d : dast R) (x : list R) (lo hi : nat -> R).
Hypothesis He : kp_exp p = exp.
Hypothesis F : Forall (fun x => length x = nv) (xs ++ [x]).
Hypothesis B : Forall (bounded p) (xs ++ [x]).
Hypothesis T : trained p nv xs d.
Hypothesis E : extremes nv (xs ++ [x]) lo hi.
Let nh := kp_hidden p nv.
Let t := scaled (kp_eps p) lo hi x.
Let W := entry (da_W d).
Let hb := bias (da_hb d).
Let vb := bias (da_vb d).
Let d' := snd (da_train p d x).
Let y := activation nv t W hb.
Let z := reconstruction nv nh t W hb vb.
Let e := hidden_err nv nh t W hb vb.
Lemma step_components :
  (forall i j, (i < nv)%nat -> (j < nh)%nat -> entry (da_W d') i j = W i j + kp_lr p * (t i * e j + (t i - z i) * y j)) /\
  (forall j, (j < nh)%nat -> bias (da_hb d') j = hb j + kp_lr p * (sum nh e / INR nh)) /\
  (forall i, (i < nv)%nat -> bias (da_vb d') i = vb i + kp_lr p * (sum nv (fun k => t k - z k) / INR nv)) /\
  fst (da_train p d x) = sqrt (sum nv (fun i => (t i - z i) ^ 2) / INR nv).
Proof.
  pose proof (proj1 (Forall_app _ _ _) F) as [F1 F2]. apply Forall_inv in F2. pose proof (trained_full_shape p nv xs d F1 T) as Sh. pose proof (step_nth p nv nh d x He Sh F2) as G. cbv zeta in G. fold W hb vb d' in G.
  assert (T' : trained p nv (xs ++ [x]) d'). { destruct T as (d0 & E0 & E1). exists d0. split; auto. rewrite fold_left_app. unfold d'. rewrite E1. reflexivity. }
  assert (Et : forall i, (i < nv)%nat -> nth i (da_normalise p (da_norms d x) x) 0 = t i). { intros i Hi. exact (scaled_by_extremes p nv (xs ++ [x]) d' x F B ltac:(destruct xs; discriminate) T' F2 lo hi E i Hi). }
  destruct G as (G1 & G2 & G3 & G4). assert (Ez : forall i, (i < nv)%nat -> reconstruction nv nh (fun i => nth i (da_normalise p (da_norms d x) x) 0) W hb vb i = z i) by (intros i Hi; apply reconstruction_ext; auto).
  assert (Ey : forall j, activation nv (fun i => nth i (da_normalise p (da_norms d x) x) 0) W hb j = y j) by (intros j; apply activation_ext; auto).
  assert (Ee : forall j, hidden_err nv nh (fun i => nth i (da_normalise p (da_norms d x) x) 0) W hb vb j = e j) by (intros j; apply hidden_err_ext; auto).
  repeat split.
  - intros i j Hi Hj. rewrite G1, Ee, Ez, Ey, Et by auto. reflexivity.
  - intros j Hj. rewrite G2 by auto. rewrite (sum_ext nh _ e) by auto. reflexivity.
  - intros i Hi. rewrite G3 by auto. rewrite (sum_ext nv _ (fun k => t k - z k)); auto. intros k Hk. rewrite Ez, Et by auto. reflexivity.
  - rewrite G4. f_equal. f_equal. apply sum_ext. intros i Hi. rewrite Ez, Et by auto. reflexivity.
Qed.
(** The reported error is the score of the network before the step. *)
Theorem C89_training_error : fst (da_train p d x) = sqrt (sum nv (fun i => (t i - z i) ^ 2) / INR nv).
Proof. apply step_components. Qed.
(** Every weight moves by the learning rate against the partial derivative of the cross-entropy. *)
Theorem C89_weights_descend_the_gradient : forall i j, (i < nv)%nat -> (j < nh)%nat ->
  exists g, derivable_pt_lim (fun w => cross_entropy nv nh t (with2 W i j w) hb vb) (W i j) g /\ entry (da_W d') i j = W i j - kp_lr p * g.
Proof.
  intros i j Hi Hj. eexists. split; [apply gradient_W; auto|]. rewrite (proj1 step_components) by auto. unfold e, y, z. ring.
Qed.
(** Every bias moves against the mean of the partial derivatives of the biases of its layer. *)
Theorem C89_biases_descend_the_mean_gradient : exists gh gv : nat -> R,
  (forall j, (j < nh)%nat -> derivable_pt_lim (fun b => cross_entropy nv nh t W (with1 hb j b) vb) (hb j) (gh j)) /\
  (forall i, (i < nv)%nat -> derivable_pt_lim (fun b => cross_entropy nv nh t W hb (with1 vb i b)) (vb i) (gv i)) /\
  (forall j, (j < nh)%nat -> bias (da_hb d') j = hb j - kp_lr p * (sum nh gh / INR nh)) /\
  (forall i, (i < nv)%nat -> bias (da_vb d') i = vb i - kp_lr p * (sum nv gv / INR nv)).
Proof.
  exists (fun j => -1 * e j), (fun i => -1 * (t i - z i)). destruct step_components as (_ & G2 & G3 & _). split; [|split; [|split]].
  - intros j Hj. eapply dlim_eq; [apply gradient_hb; auto|]. unfold e. ring.
  - intros i Hi. eapply dlim_eq; [apply gradient_vb; auto|]. unfold z. ring.
  - intros j Hj. rewrite G2, sum_scal by auto. unfold Rdiv. ring.
  - intros i Hi. rewrite G3, sum_scal by auto. unfold Rdiv. ring.
Qed.
(** The step goes downhill: moving all parameters together from the old to the new ones, the loss starts out with a slope
    that is minus the squared length of the step over the learning rate. *)
Theorem C89_downhill : exists g,
  derivable_pt_lim (fun s => cross_entropy nv nh t (fun i j => W i j + s * (entry (da_W d') i j - W i j)) (fun j => hb j + s * (bias (da_hb d') j - hb j)) (fun i => vb i + s * (bias (da_vb d') i - vb i))) 0 g /\
  kp_lr p * g = - (sum nv (fun i => sum nh (fun j => (entry (da_W d') i j - W i j) ^ 2)) + sum nh (fun j => (bias (da_hb d') j - hb j) ^ 2) + sum nv (fun i => (bias (da_vb d') i - vb i) ^ 2)).
Proof.
  destruct step_components as (G1 & G2 & G3 & _). eexists. split.
  - pose proof (derivable_direction nv nh t (fun s i j => W i j + s * (entry (da_W d') i j - W i j)) (fun s j => hb j + s * (bias (da_hb d') j - hb j)) (fun s i => vb i + s * (bias (da_vb d') i - vb i)) 0
      (fun i j => entry (da_W d') i j - W i j) (fun j => bias (da_hb d') j - hb j) (fun i => bias (da_vb d') i - vb i)) as D. cbv beta in D. apply D.
    + intros i j. eapply dlim_eq; [apply (derivable_pt_lim_plus (fct_cte (W i j)) (id * fct_cte (entry (da_W d') i j - W i j))%F); [apply derivable_pt_lim_const|apply derivable_pt_lim_mult; [apply derivable_pt_lim_id|apply derivable_pt_lim_const]]|]. unfold fct_cte, id. ring.
    + intros j. eapply dlim_eq; [apply (derivable_pt_lim_plus (fct_cte (hb j)) (id * fct_cte (bias (da_hb d') j - hb j))%F); [apply derivable_pt_lim_const|apply derivable_pt_lim_mult; [apply derivable_pt_lim_id|apply derivable_pt_lim_const]]|]. unfold fct_cte, id. ring.
    + intros i. eapply dlim_eq; [apply (derivable_pt_lim_plus (fct_cte (vb i)) (id * fct_cte (bias (da_vb d') i - vb i))%F); [apply derivable_pt_lim_const|apply derivable_pt_lim_mult; [apply derivable_pt_lim_id|apply derivable_pt_lim_const]]|]. unfold fct_cte, id. ring.
  - unfold hidden_error. assert (EW : (fun i j => W i j + 0 * (entry (da_W d') i j - W i j)) = W) by (apply functional_extensionality; intros i; apply functional_extensionality; intros j; ring).
    assert (Eh : (fun j => hb j + 0 * (bias (da_hb d') j - hb j)) = hb) by (apply functional_extensionality; intros j; ring). assert (Ev : (fun j => vb j + 0 * (bias (da_vb d') j - vb j)) = vb) by (apply functional_extensionality; intros j; ring). rewrite EW, Eh, Ev. fold y z. assert (Ee : forall j, sum nv (fun i => (t i - z i) * (W i j + 0 * (entry (da_W d') i j - W i j))) * y j * (1 - y j) = e j) by (intros j; rewrite (sum_ext nv _ (fun i => (t i - z i) * W i j)) by (intros; ring); reflexivity).
    rewrite <- Ropp_mult_distr_r. f_equal. rewrite !Rmult_plus_distr_l. f_equal; [f_equal|].
    + rewrite <- sum_scal. apply sum_ext. intros i Hi. rewrite <- sum_scal. apply sum_ext. intros j Hj. rewrite Ee, G1 by auto. ring.
    + assert (G2' : forall j, (j < nh)%nat -> bias (da_hb d') j - hb j = kp_lr p * (sum nh e / INR nh)) by (intros j Hj; rewrite G2 by auto; ring). set (c := kp_lr p * (sum nh e / INR nh)) in *.
      rewrite <- sum_scal. rewrite (sum_ext nh _ (fun j => kp_lr p * c * e j)). 2: { intros j Hj. rewrite Ee, G2' by auto. ring. }
      rewrite (sum_ext nh (fun j => (_ - _) ^ 2) (fun j => c ^ 2)) by (intros j Hj; rewrite G2' by auto; reflexivity). rewrite sum_scal, sum_const. unfold c. clear. destruct nh; [rewrite sum_0; cbn [INR]; ring|]. field. apply not_0_INR. lia.
    + rewrite <- sum_scal. rewrite (sum_ext nv _ (fun j => kp_lr p * (kp_lr p * (sum nv (fun k => t k - z k) / INR nv)) * (t j - z j))) by (intros j Hj; rewrite G3 by auto; ring).
      rewrite (sum_ext nv (fun j => (_ - _) ^ 2) (fun j => (kp_lr p * (sum nv (fun k => t k - z k) / INR nv)) ^ 2)) by (intros j Hj; rewrite G3 by auto; ring). rewrite sum_scal, sum_const. clear. destruct nv; [rewrite sum_0; cbn [INR]; ring|]. field. apply not_0_INR. lia.
Qed.
End Step.
Print Assumptions C89_training_error.
Print Assumptions C89_weights_descend_the_gradient.
Print Assumptions C89_biases_descend_the_mean_gradient.
Print Assumptions C89_downhill.
(** An untrained network: small weights and no biases. *)
Theorem C89_initial : forall p nv d i j, (forall k, 0 <= kp_u p k < 1) -> trained p nv [] d -> (i < nv)%nat -> (j < kp_hidden p nv)%nat ->
  entry (da_W d) i j = (2 * kp_u p (i * kp_hidden p nv + j) - 1) / INR nv /\ - / INR nv <= entry (da_W d) i j < / INR nv /\ bias (da_hb d) j = 0 /\ bias (da_vb d) i = 0.
Proof.
  intros p nv d i j U (d0 & E0 & ->) Hi Hj. cbn [fold_left]. unfold da_init in E0. destruct (Nat.eqb_spec nv 0); [lia|]. inversion E0. cbn [da_W da_hb da_vb]. unfold entry, bias. rewrite (nth_map_any _ _ _ _ i 0%nat) by (rewrite seq_length; lia). rewrite (nth_map_any _ _ _ _ j 0%nat) by (rewrite seq_length; lia). rewrite !seq_nth by lia. rewrite !Prop_XStream.nth_repeat_any by lia.
  cbn [nadd nneg ndiv nofZ nmul nsub NumR plus n0]. rewrite <- INR_IZR_INZ. assert (P : 0 < INR nv) by (apply lt_0_INR; lia). specialize (U (i * kp_hidden p nv + j)%nat). set (u := kp_u p (i * kp_hidden p nv + j)) in *. pose proof (Rinv_0_lt_compat _ P) as I. set (a := / INR nv) in *. unfold Rdiv. fold a. repeat split; auto; nra.
Qed.
Print Assumptions C89_initial.
Example C89_ex : let xs := [[1; 2]] in let x := [3; 0] in let lo := fun i => nth i [1; 0] 0 in let hi := fun i => nth i [3; 2] 0 in
  kp_exp kit_par = exp /\ Forall (fun x => length x = 2%nat) (xs ++ [x]) /\ Forall (bounded kit_par) (xs ++ [x]) /\ (exists d, trained kit_par 2 xs d /\ trained kit_par 2 (xs ++ [x]) (snd (da_train kit_par d x))) /\
  extremes 2 (xs ++ [x]) lo hi /\ kp_hidden kit_par 2 = 2%nat /\ kp_lr kit_par > 0 /\ (forall k, 0 <= kp_u kit_par k < 1).
Proof.
  cbv zeta. split; [reflexivity|]. split; [repeat constructor|]. split; [unfold bounded; cbn; repeat constructor; lra|]. split; [eexists; split; [eexists; split; reflexivity|]; eexists; split; reflexivity|]. split; [|split; [reflexivity|split; [cbn [kit_par kp_lr]; lra|intros k; cbn [kit_par kp_u]; lra]]].
  intros [|[|i]] Hi; [| |lia]; cbn [nth feature map app]; (split; (split; [cbn; auto|intros w [<-|[<-|[]]]; lra])).
Qed.
