(** * The denoising autoencoder used on its own (C100) and the helper functions shipped with it (C101). *)
From Coq Require Import List ZArith Lia Bool Arith.
From Coq Require Import Reals Lra FunctionalExtensionality.
From Verif Require Import Base Num Spec Model_Stats Model_Utils Model_Core Model_Trans Model_Simple P_Lists P_Models Model_KitNET Model_DA Prop_KitNET Prop_KitNET2 Prop_KitGrad.
From Verif Require P_Utils Prop_Post Prop_XStream Prop_RSHash.
Import ListNotations.
Open Scope R_scope.

(** ** C100: specification *)
(** Calls to a dA object; execute does not change it. *)
Definition train_all {A} `{Num A} (q : dapar A) (xs : list (list A)) (s : daobj A) : daobj A := fold_left (fun s x => snd (dA_train q x s)) xs s.
(** The loss of reconstructing t from its corrupted version u. *)
Definition denoising_loss (nv nh : nat) (t u : nat -> R) (W : nat -> nat -> R) (hb vb : nat -> R) : R :=
  - sum nv (fun i => t i * ln (reconstruction nv nh u W hb vb i) + (1 - t i) * ln (1 - reconstruction nv nh u W hb vb i)).

(** ** Lemmas *)
Lemma train_plain : forall A (N : Num A) (q : dapar A) x s, oltb n0 (dp_corruption q) = false ->
  dA_train q x s = (Ok (fst (da_train (dp_kit q) (do_net s) x)), mkDAO (snd (da_train (dp_kit q) (do_net s) x)) (do_draws s)).
Proof. intros A N q x s H. unfold dA_train. rewrite H. reflexivity. Qed.
Lemma train_counts : forall A (N : Num A) (q : dapar A) x s, da_n (do_net (snd (dA_train q x s))) = S (da_n (do_net s)).
Proof.
  intros A N q x s. unfold dA_train, dA_corrupted, bind, modify, gets, ret, raise. destruct (oltb n0 (dp_corruption q)); [|reflexivity].
  destruct (oltb (dp_corruption q) (nofZ 1)); reflexivity.
Qed.
Lemma train_all_counts : forall A (N : Num A) (q : dapar A) xs s, da_n (do_net (train_all q xs s)) = (da_n (do_net s) + length xs)%nat.
Proof.
  intros A N q xs. induction xs as [|x xs IH]; intros s; cbn [train_all fold_left length]; [lia|]. change (fold_left (fun s x => snd (dA_train q x s)) xs (snd (dA_train q x s))) with (train_all q xs (snd (dA_train q x s))). rewrite IH, train_counts. lia.
Qed.
Lemma init_counts : forall A (N : Num A) (q : dapar A) nv s, dA_init q nv = Ok s -> da_n (do_net s) = 0%nat.
Proof. intros A N q nv s. unfold dA_init, rmap, da_init. destruct (nv =? 0)%nat; [discriminate|]. intros H. injection H as <-. reflexivity. Qed.

(** ** C100 *)
(** With no corruption and the grace period over, dA is the unit that KitNET trains (C64, C89). *)
Theorem C100_without_corruption : forall A (N : Num A) (q : dapar A) nv xs s0 x, dA_init q nv = Ok s0 -> oltb n0 (dp_corruption q) = false ->
  exists d, trained (dp_kit q) nv xs d /\ do_net (train_all q xs s0) = d /\ fst (dA_train q x (train_all q xs s0)) = Ok (fst (da_train (dp_kit q) d x)) /\
  (~ (Z.of_nat (length xs) < dp_grace q)%Z -> dA_execute q (train_all q xs s0) x = da_execute (dp_kit q) d x).
Proof.
  intros A N q nv xs s0 x E H. assert (G : trained (dp_kit q) nv xs (do_net (train_all q xs s0))).
  { unfold dA_init, rmap in E. destruct (da_init (dp_kit q) nv) as [d0|e] eqn:E0; [|discriminate]. injection E as <-. exists d0. split; [exact E0|].
    assert (G : forall s, do_net (train_all q xs s) = fold_left (fun d x => snd (da_train (dp_kit q) d x)) xs (do_net s)); [|apply (G (mkDAO d0 0))].
    induction xs as [|y xs IH]; intros s; [reflexivity|]. cbn [train_all fold_left]. change (fold_left (fun s x => snd (dA_train q x s)) xs (snd (dA_train q y s))) with (train_all q xs (snd (dA_train q y s))). rewrite IH, (train_plain A N q y s H). reflexivity. }
  eexists. split; [exact G|]. split; [reflexivity|]. split; [rewrite (train_plain A N q x _ H); reflexivity|].
  intros HG. unfold dA_execute. rewrite train_all_counts, (init_counts A N q nv s0 E). destruct (Z.ltb_spec (Z.of_nat (0 + length xs)) (dp_grace q)); [cbn in *; lia|]. reflexivity.
Qed.
(** The grace period: 0 exactly during the first gracePeriod training calls, rejected ones included. *)
Theorem C100_grace_period : forall (q : dapar R) nv xs s0 x, dA_init q nv = Ok s0 ->
  dA_inGrace q (train_all q xs s0) = (Z.of_nat (length xs) <? dp_grace q)%Z /\
  ((Z.of_nat (length xs) < dp_grace q)%Z -> dA_execute (A := R) q (train_all q xs s0) x = 0) /\
  (~ (Z.of_nat (length xs) < dp_grace q)%Z -> dA_execute q (train_all q xs s0) x = da_execute (dp_kit q) (do_net (train_all q xs s0)) x).
Proof.
  intros q nv xs s0 x E. unfold dA_inGrace, dA_execute. rewrite train_all_counts, (init_counts R NumR q nv s0 E). cbn [plus]. split; [reflexivity|].
  destruct (Z.ltb_spec (Z.of_nat (length xs)) (dp_grace q)) as [L|L]; split; intros G; try lia; reflexivity.
Qed.
(** A corruption level of 1 or more is only noticed when training: every training call raises AssertionError, after having
    counted the vector and widened the limits; the weights never change. *)
Theorem C100_corruption_of_one : forall (q : dapar R) nv xs s0, dA_init q nv = Ok s0 -> 1 <= dp_corruption q ->
  (forall x, fst (dA_train (A := R) q x (train_all q xs s0)) = Raise AssertionError) /\
  let s := train_all q xs s0 in
  da_n (do_net s) = length xs /\ da_W (do_net s) = da_W (do_net s0) /\ da_hb (do_net s) = da_hb (do_net s0) /\ da_vb (do_net s) = da_vb (do_net s0) /\
  (Forall (fun x => length x = nv) xs -> Forall (bounded (dp_kit q)) xs -> xs <> [] -> forall lo hi, extremes nv xs lo hi -> forall i, (i < nv)%nat -> nth i (da_min (do_net s)) 0 = lo i /\ nth i (da_max (do_net s)) 0 = hi i).
Proof.
  intros q nv xs s0 E H.
  assert (T : forall x s, dA_train q x s = (Raise AssertionError, mkDAO (da_norms (do_net s) x) (do_draws s))).
  { intros x s. unfold dA_train, dA_corrupted, bind, modify, gets, ret, raise. cbn [oltb num_ord NumR OrdR nofZ n0]. destruct (Rltb 0 (dp_corruption q)) eqn:E1; [|apply Rltb_nlt in E1; lra]. destruct (Rltb (dp_corruption q) 1) eqn:E2; [apply Rltb_lt in E2; lra|]. reflexivity. }
  split; [intros x; rewrite T; reflexivity|].
  assert (G : forall xs s, do_net (train_all q xs s) = fold_left da_norms xs (do_net s)).
  { clear xs. induction xs as [|y xs IH]; intros s; [reflexivity|]. cbn [train_all fold_left]. change (fold_left (fun s x => snd (dA_train q x s)) xs (snd (dA_train q y s))) with (train_all q xs (snd (dA_train q y s))). rewrite IH, T. reflexivity. }
  cbv zeta. rewrite G. assert (P : forall (xs : list (list R)) (d : dast R), da_W (fold_left da_norms xs d) = da_W d /\ da_hb (fold_left da_norms xs d) = da_hb d /\ da_vb (fold_left da_norms xs d) = da_vb d /\ da_n (fold_left da_norms xs d) = (da_n d + length xs)%nat).
  { clear. induction xs as [|y xs IH]; intros d; cbn [fold_left length]; [rewrite Nat.add_0_r; auto|]. destruct (IH (da_norms d y)) as (-> & -> & -> & ->). cbn [da_norms da_W da_hb da_vb da_n]. repeat split; lia. }
  destruct (P xs (do_net s0)) as (-> & -> & -> & ->). rewrite (init_counts R NumR q nv s0 E). repeat (split; [reflexivity|]).
  intros F B NE lo hi X i Hi. unfold dA_init, rmap in E. destruct (da_init (dp_kit q) nv) as [d0|e] eqn:E0; [|discriminate]. injection E as <-. cbn [do_net].
  assert (L : forall (xs : list (list R)) d d', da_max d = da_max d' -> da_min d = da_min d' -> da_max (fold_left da_norms xs d) = da_max (fold_left (fun d x => snd (da_train (dp_kit q) d x)) xs d') /\ da_min (fold_left da_norms xs d) = da_min (fold_left (fun d x => snd (da_train (dp_kit q) d x)) xs d')).
  { clear. induction xs as [|x xs IH]; intros d d' H1 H2; cbn [fold_left]; [auto|]. apply IH; unfold da_train; cbn [snd da_max da_min da_norms]; congruence. }
  destruct (L xs d0 d0 eq_refl eq_refl) as [-> ->]. destruct (C64_normalisation_limits (dp_kit q) nv xs _ i F B (ex_intro _ d0 (conj E0 eq_refl)) NE Hi) as [M m]. destruct (X i Hi) as [m' M'].
  split; [apply (proj1 (extreme_unique _ _ _) m m')|apply (proj2 (extreme_unique _ _ _) M M')].
Qed.
Print Assumptions C100_without_corruption.
Print Assumptions C100_grace_period.
Print Assumptions C100_corruption_of_one.

(** ** The denoising gradient *)
Section Direction2.
Variables (nv nh : nat) (t u : nat -> R) (W : R -> nat -> nat -> R) (hb vb : R -> nat -> R) (r : R) (dW : nat -> nat -> R) (dh dv : nat -> R).
Hypothesis HW : forall i j, derivable_pt_lim (fun s => W s i j) r (dW i j).
Hypothesis Hh : forall j, derivable_pt_lim (fun s => hb s j) r (dh j).
Hypothesis Hv : forall i, derivable_pt_lim (fun s => vb s i) r (dv i).
Let y j := activation nv u (W r) (hb r) j.
Let z i := reconstruction nv nh u (W r) (hb r) (vb r) i.
Definition denoising_error (k : nat) : R := sum nv (fun i => (t i - z i) * W r i k) * y k * (1 - y k).
Lemma derivable_denoising : derivable_pt_lim (fun s => denoising_loss nv nh t u (W s) (hb s) (vb s)) r
  (- (sum nv (fun i => sum nh (fun j => (u i * denoising_error j + (t i - z i) * y j) * dW i j)) + sum nh (fun j => denoising_error j * dh j) + sum nv (fun i => (t i - z i) * dv i))).
Proof.
  assert (Dy : forall j, derivable_pt_lim (fun s => activation nv u (W s) (hb s) j) r (y j * (1 - y j) * (sum nv (fun i => u i * dW i j) + dh j))).
  { intros j. apply (derivable_logistic_comp (fun s => sum nv (fun i => u i * W s i j) + hb s j)). apply (derivable_pt_lim_plus (fun s => sum nv (fun i => u i * W s i j)) (fun s => hb s j)); auto. apply (derivable_sum nv (fun i s => u i * W s i j)). intros i _. apply (derivable_pt_lim_scal (fun s => W s i j)). auto. }
  assert (Db : forall i, derivable_pt_lim (fun s => sum nh (fun j => activation nv u (W s) (hb s) j * W s i j) + vb s i) r
    (sum nh (fun j => y j * (1 - y j) * (sum nv (fun k => u k * dW k j) + dh j) * W r i j + y j * dW i j) + dv i)).
  { intros i. apply (derivable_pt_lim_plus (fun s => sum nh (fun j => activation nv u (W s) (hb s) j * W s i j)) (fun s => vb s i)); auto. apply (derivable_sum nh (fun j s => activation nv u (W s) (hb s) j * W s i j)). intros j _. apply (derivable_pt_lim_mult (fun s => activation nv u (W s) (hb s) j) (fun s => W s i j)); auto. }
  eapply dlim_eq.
  - apply (derivable_pt_lim_ext (fun s => sum nv (fun i => - (t i * ln (reconstruction nv nh u (W s) (hb s) (vb s) i) + (1 - t i) * ln (1 - reconstruction nv nh u (W s) (hb s) (vb s) i))))).
    { intros s. unfold denoising_loss. replace (- sum nv (fun i => t i * ln (reconstruction nv nh u (W s) (hb s) (vb s) i) + (1 - t i) * ln (1 - reconstruction nv nh u (W s) (hb s) (vb s) i))) with (-1 * sum nv (fun i => t i * ln (reconstruction nv nh u (W s) (hb s) (vb s) i) + (1 - t i) * ln (1 - reconstruction nv nh u (W s) (hb s) (vb s) i))) by ring. rewrite <- sum_scal. apply sum_ext. intros. ring. }
    apply (derivable_sum nv (fun i s => - (t i * ln (reconstruction nv nh u (W s) (hb s) (vb s) i) + (1 - t i) * ln (1 - reconstruction nv nh u (W s) (hb s) (vb s) i)))). intros i _. apply (derivable_loss (t i) (fun s => sum nh (fun j => activation nv u (W s) (hb s) j * W s i j) + vb s i)). apply Db.
  - cbv beta.
    rewrite (sum_ext nv _ (fun i => -1 * (sum nh (fun j => (t i - z i) * W r i j * y j * (1 - y j) * (sum nv (fun k => u k * dW k j) + dh j)) + sum nh (fun j => (t i - z i) * y j * dW i j) + (t i - z i) * dv i))).
    2: { intros i _. fold (reconstruction nv nh u (W r) (hb r) (vb r) i). fold (z i). rewrite sum_plus.
         rewrite (sum_ext nh (fun j => (t i - z i) * W r i j * y j * (1 - y j) * (sum nv (fun k => u k * dW k j) + dh j)) (fun j => (t i - z i) * (y j * (1 - y j) * (sum nv (fun k => u k * dW k j) + dh j) * W r i j))) by (intros; ring).
         rewrite (sum_ext nh (fun j => (t i - z i) * y j * dW i j) (fun j => (t i - z i) * (y j * dW i j))) by (intros; ring). rewrite !sum_scal. ring. }
    rewrite sum_scal, !sum_plus. replace (-1) with (- (1)) by ring. rewrite Ropp_mult_distr_l_reverse, Rmult_1_l. f_equal. f_equal.
    rewrite (sum_swap nv nh (fun i j => (t i - z i) * W r i j * y j * (1 - y j) * (sum nv (fun k => u k * dW k j) + dh j))).
    rewrite (sum_ext nh _ (fun j => sum nv (fun i => u i * denoising_error j * dW i j) + denoising_error j * dh j)).
    2: { intros j _. unfold denoising_error. rewrite (sum_ext nv (fun i => (t i - z i) * W r i j * y j * (1 - y j) * (sum nv (fun k => u k * dW k j) + dh j)) (fun i => (t i - z i) * W r i j * (y j * (1 - y j) * (sum nv (fun k => u k * dW k j) + dh j)))) by (intros; ring). rewrite sum_scal_r.
         set (E := sum nv (fun i => (t i - z i) * W r i j)). rewrite (sum_ext nv (fun i => u i * (E * y j * (1 - y j)) * dW i j) (fun i => (E * y j * (1 - y j)) * (u i * dW i j))) by (intros; ring). rewrite sum_scal. ring. }
    rewrite sum_plus. rewrite (sum_ext nv (fun i => sum nh (fun j => (u i * denoising_error j + (t i - z i) * y j) * dW i j)) (fun i => sum nh (fun j => u i * denoising_error j * dW i j) + sum nh (fun j => (t i - z i) * y j * dW i j))) by (intros; rewrite <- sum_plus; apply sum_ext; intros; ring).
    rewrite sum_plus, (sum_swap nv nh (fun i j => u i * denoising_error j * dW i j)). ring.
Qed.
End Direction2.

Section DenoisingStep.
Variables (q : dapar R) (nv nh : nat) (s : daobj R) (x : list R).
Hypothesis He : kp_exp (dp_kit q) = exp.
Hypothesis Hs : shape nv nh (do_net s).
Hypothesis Hx : length x = nv.
Hypothesis Hc : 0 < dp_corruption q < 1.
Hypothesis Hm : length (dp_mask q (do_draws s) nv) = nv.
Let p := dp_kit q.
Let d := do_net s.
Let lo i := Rmin (nth i x 0) (nth i (da_min d) 0).
Let hi i := Rmax (nth i x 0) (nth i (da_max d) 0).
Let t := scaled (kp_eps p) lo hi x.
Let u i := nth i (dp_mask q (do_draws s) nv) 0 * t i.
Let W := entry (da_W d).
Let hb := bias (da_hb d).
Let vb := bias (da_vb d).
Let y := activation nv u W hb.
Let z := reconstruction nv nh u W hb vb.
Let e := denoising_error nv nh t u (fun _ => W) (fun _ => hb) (fun _ => vb) 0.
Lemma denoising_components : exists d',
  dA_train q x s = (Ok (sqrt (sum nv (fun i => (t i - z i) ^ 2) / INR nv)), mkDAO d' (S (do_draws s))) /\
  (forall i j, (i < nv)%nat -> (j < nh)%nat -> entry (da_W d') i j = W i j + kp_lr p * (u i * e j + (t i - z i) * y j)) /\
  (forall j, (j < nh)%nat -> bias (da_hb d') j = hb j + kp_lr p * (sum nh e / INR nh)) /\
  (forall i, (i < nv)%nat -> bias (da_vb d') i = vb i + kp_lr p * (sum nv (fun k => t k - z k) / INR nv)).
Proof.
  set (dn := da_norms d x).
  assert (Sh : shape nv nh dn) by (destruct Hs as (L1 & L2 & L3 & L4 & L5 & L6); fold d in L1, L2, L3, L4, L5, L6; unfold dn, da_norms, shape; cbn [da_max da_min da_W da_hb da_vb]; rewrite !map2_length; repeat split; auto; lia).
  set (xn := da_normalise p dn x). assert (Lxn : length xn = nv) by (apply (normalise_length p nv nh); auto).
  assert (Et : forall i, (i < nv)%nat -> nth i xn 0 = t i).
  { intros i Hi. unfold xn. rewrite (normalise_nth p nv nh dn Sh) by auto. unfold t, scaled, lo, hi, dn. cbn [da_norms da_min da_max]. destruct Hs as (L1 & L2 & _). fold d in L1, L2. rewrite !(nth_map2 _ _ _ _ _ _ i 0 0) by lia. cbn [oltb num_ord NumR OrdR].
    replace (if Rltb (nth i x 0) (nth i (da_min d) 0) then nth i x 0 else nth i (da_min d) 0) with (Rmin (nth i x 0) (nth i (da_min d) 0)) by (unfold Rmin, Rltb; repeat destruct (Rle_dec _ _); repeat destruct (Rlt_dec _ _); lra).
    replace (if Rltb (nth i (da_max d) 0) (nth i x 0) then nth i x 0 else nth i (da_max d) 0) with (Rmax (nth i x 0) (nth i (da_max d) 0)) by (unfold Rmax, Rltb; repeat destruct (Rle_dec _ _); repeat destruct (Rlt_dec _ _); lra). reflexivity. }
  set (ul := map2 nmul (dp_mask q (do_draws s) nv) xn). assert (Lu : length ul = nv) by (unfold ul; rewrite map2_length; lia).
  assert (Eu : forall i, (i < nv)%nat -> nth i ul 0 = u i) by (intros i Hi; unfold ul; rewrite (nth_map2 _ _ _ _ _ _ i 0 0) by lia; rewrite Et by auto; reflexivity).
  set (yl := da_hidden p dn ul). assert (Ly : length yl = nh) by (apply (hidden_length p nv); auto).
  set (zl := da_decode p dn yl). assert (Lz : length zl = nv) by (apply (decode_length p nv nh); auto).
  assert (Ey : forall j, (j < nh)%nat -> nth j yl 0 = y j) by (intros j Hj; unfold yl; rewrite (hidden_nth p nv nh dn He Sh) by auto; apply activation_ext; auto).
  assert (Ez : forall i, (i < nv)%nat -> nth i zl 0 = z i) by (intros i Hi; unfold zl, yl; rewrite (reconstruction_nth p nv nh dn He Sh) by auto; apply reconstruction_ext; auto).
  set (h2 := map2 nsub xn zl). assert (L2 : length h2 = nv) by (unfold h2; rewrite map2_length; lia).
  assert (E2 : forall i, (i < nv)%nat -> nth i h2 0 = t i - z i) by (intros i Hi; unfold h2; rewrite (nth_map2 _ _ _ _ _ _ i 0 0) by lia; rewrite Ez, Et by auto; reflexivity).
  set (vm := vec_mat (length (da_hb dn)) h2 (da_W dn)). assert (Lvm : length vm = nh) by (unfold vm, vec_mat; rewrite map_length, seq_length; apply Sh).
  set (h1 := map2 nmul (map2 nmul vm yl) (map (nsub (nofZ 1)) yl)). assert (L1 : length h1 = nh) by (unfold h1; rewrite !map2_length, map_length; lia).
  assert (E1 : forall j, (j < nh)%nat -> nth j h1 0 = e j).
  { intros j Hj. unfold h1. rewrite (nth_map2 _ _ _ _ _ _ j 0 0) by (repeat (rewrite ?map_length, ?map2_length); lia). rewrite (nth_map2 _ _ _ _ _ _ j 0 0) by lia. rewrite (nth_map_any _ _ _ _ j 0) by lia. rewrite Ey by auto. unfold vm. rewrite (vec_mat_nth nv nh dn Sh) by auto. unfold e, denoising_error. cbn [nmul nsub nofZ NumR]. rewrite (sum_ext nv _ (fun i => (t i - z i) * W i j)); [reflexivity|]. intros i Hi. rewrite E2 by auto. reflexivity. }
  exists (mkDA (da_max dn) (da_min dn) (da_n dn) (map2 (map2 nadd) (da_W dn) (map (map (nmul (kp_lr p))) (map2 (map2 nadd) (outer ul h1) (outer h2 yl))))
        (map (fun b => nadd b (nmul (kp_lr p) (vec_mean h1))) (da_hb dn)) (map (fun b => nadd b (nmul (kp_lr p) (vec_mean h2))) (da_vb dn))).
  split.
  { assert (EQ : rmse h2 = sqrt (sum nv (fun i => (t i - z i) ^ 2) / INR nv)). { rewrite (rmse_sum nv) by auto. f_equal. f_equal. apply sum_ext. intros i Hi. rewrite E2 by auto. reflexivity. }
    rewrite <- EQ. unfold dA_train, dA_corrupted, bind, modify, gets, ret. cbn [do_net do_draws]. fold d p dn xn. rewrite Lxn. cbn [oltb num_ord NumR OrdR nofZ n0].
    destruct (Rltb 0 (dp_corruption q)) eqn:C1; [|apply Rltb_nlt in C1; lra]. destruct (Rltb (dp_corruption q) 1) eqn:C2; [|apply Rltb_nlt in C2; lra]. reflexivity. }
  cbn [da_W da_hb da_vb]. split; [|split].
  - intros i j Hi Hj. pose proof (row_length nv nh dn i Sh Hi) as HR. destruct Sh as (_ & _ & LW & _ & Lh & Lv). unfold entry.
    assert (LO1 : length (outer ul h1) = nv) by (unfold outer; rewrite map_length; auto). assert (LO2 : length (outer h2 yl) = nv) by (unfold outer; rewrite map_length; auto).
    rewrite (nth_map2 _ _ _ _ _ _ i [] []) by (repeat (rewrite ?map_length, ?map2_length); lia). rewrite (nth_map_any _ _ _ _ i []) by (repeat (rewrite ?map_length, ?map2_length); lia). rewrite (nth_map2 _ _ _ _ _ _ i [] []) by lia.
    unfold outer. rewrite !(nth_map_any _ _ _ _ i 0) by lia. rewrite (nth_map2 _ _ _ _ _ _ j 0 0) by (repeat (rewrite ?map_length, ?map2_length); lia). rewrite (nth_map_any _ _ _ _ j 0) by (repeat (rewrite ?map_length, ?map2_length); lia). rewrite (nth_map2 _ _ _ _ _ _ j 0 0) by (repeat (rewrite ?map_length, ?map2_length); lia). rewrite !(nth_map_any _ _ _ _ j 0) by lia.
    rewrite E1, E2, Ey, Eu by auto. reflexivity.
  - intros j Hj. destruct Sh as (_ & _ & LW & _ & Lh & Lv). unfold bias. rewrite (nth_map_any _ _ _ _ j 0) by lia. rewrite (vec_mean_sum h1 nh) by auto. rewrite (sum_ext nh (fun i => nth i h1 0) e) by auto. reflexivity.
  - intros i Hi. destruct Sh as (_ & _ & LW & _ & Lh & Lv). unfold bias. rewrite (nth_map_any _ _ _ _ i 0) by lia. rewrite (vec_mean_sum h2 nv) by auto. rewrite (sum_ext nv (fun i => nth i h2 0) (fun k => t k - z k)) by auto. reflexivity.
Qed.
Lemma denoising_W : forall i j, (i < nv)%nat -> (j < nh)%nat ->
  derivable_pt_lim (fun w => denoising_loss nv nh t u (with2 W i j w) hb vb) (W i j) (- (u i * e j + (t i - z i) * y j)).
Proof.
  intros i j Hi Hj. assert (EW : with2 W i j (W i j) = W). { apply functional_extensionality. intros k. apply functional_extensionality. intros l. unfold with2. destruct (Nat.eqb_spec k i) as [->|]; auto. destruct (Nat.eqb_spec l j) as [->|]; auto. }
  pose proof (derivable_denoising nv nh t u (fun w => with2 W i j w) (fun _ => hb) (fun _ => vb) (W i j) (fun k l => if ((k =? i) && (l =? j))%nat then 1 else 0) (fun _ => 0) (fun _ => 0)) as D. cbv beta in D.
  eapply dlim_eq; [apply D|].
  - intros k l. unfold with2. destruct ((k =? i) && (l =? j))%nat; [apply derivable_pt_lim_id|apply derivable_pt_lim_const].
  - intros k. apply derivable_pt_lim_const.
  - intros k. apply derivable_pt_lim_const.
  - f_equal. unfold denoising_error. rewrite EW. change (fun k => sum nv (fun i0 => (t i0 - reconstruction nv nh u W hb vb i0) * W i0 k) * activation nv u W hb k * (1 - activation nv u W hb k)) with e. fold z y.
    rewrite (sum_zero nh (fun k => _ * 0)) by (intros; ring). rewrite (sum_zero nv (fun i0 => _ * 0)) by (intros; ring).
    rewrite (sum_ext nv _ (fun k => if (k =? i)%nat then u k * e j + (t k - z k) * y j else 0)).
    + rewrite sum_delta by auto. ring.
    + intros k _. destruct (Nat.eqb_spec k i) as [->|N]; cbn [andb].
      * rewrite (sum_ext nh _ (fun l => if (l =? j)%nat then u i * e l + (t i - z i) * y l else 0)); [rewrite sum_delta; auto|]. intros l _. unfold e, denoising_error, y, z. destruct (l =? j)%nat; ring.
      * apply sum_zero. intros. ring.
Qed.
Lemma denoising_hb : forall j, (j < nh)%nat -> derivable_pt_lim (fun b => denoising_loss nv nh t u W (with1 hb j b) vb) (hb j) (- e j).
Proof.
  intros j Hj. assert (EW : with1 hb j (hb j) = hb). { apply functional_extensionality. intros k. unfold with1. destruct (Nat.eqb_spec k j) as [->|]; auto. }
  pose proof (derivable_denoising nv nh t u (fun _ => W) (fun b => with1 hb j b) (fun _ => vb) (hb j) (fun _ _ => 0) (fun l => if (l =? j)%nat then 1 else 0) (fun _ => 0)) as D. cbv beta in D.
  eapply dlim_eq; [apply D|].
  - intros. apply derivable_pt_lim_const.
  - intros l. unfold with1. destruct (l =? j)%nat; [apply derivable_pt_lim_id|apply derivable_pt_lim_const].
  - intros. apply derivable_pt_lim_const.
  - f_equal. unfold denoising_error. rewrite EW. rewrite (sum_zero nv (fun i => sum nh _)) by (intros; apply sum_zero; intros; ring). rewrite (sum_zero nv (fun i => _ * 0)) by (intros; ring).
    rewrite (sum_ext nh _ (fun l => if (l =? j)%nat then e l else 0)); [rewrite sum_delta by auto; ring|]. intros l _. unfold e, denoising_error. destruct (l =? j)%nat; ring.
Qed.
Lemma denoising_vb : forall i, (i < nv)%nat -> derivable_pt_lim (fun b => denoising_loss nv nh t u W hb (with1 vb i b)) (vb i) (- (t i - z i)).
Proof.
  intros i Hi. assert (EW : with1 vb i (vb i) = vb). { apply functional_extensionality. intros k. unfold with1. destruct (Nat.eqb_spec k i) as [->|]; auto. }
  pose proof (derivable_denoising nv nh t u (fun _ => W) (fun _ => hb) (fun b => with1 vb i b) (vb i) (fun _ _ => 0) (fun _ => 0) (fun l => if (l =? i)%nat then 1 else 0)) as D. cbv beta in D.
  eapply dlim_eq; [apply D|].
  - intros. apply derivable_pt_lim_const.
  - intros. apply derivable_pt_lim_const.
  - intros l. unfold with1. destruct (l =? i)%nat; [apply derivable_pt_lim_id|apply derivable_pt_lim_const].
  - f_equal. rewrite EW. rewrite (sum_zero nv (fun i => sum nh _)) by (intros; apply sum_zero; intros; ring). rewrite (sum_zero nh (fun i => _ * 0)) by (intros; ring).
    rewrite (sum_ext nv _ (fun l => if (l =? i)%nat then t l - z l else 0)); [rewrite sum_delta by auto; ring|]. intros l _. unfold z. destruct (l =? i)%nat; ring.
Qed.
(** A training step with corruption goes down the gradient of the loss of reconstructing the scaled input from its masked
    version: every weight by its own partial derivative, every bias by the mean of those of its layer. *)
Theorem C100_denoising_step : exists d' (gW : nat -> nat -> R) (gh gv : nat -> R),
  dA_train q x s = (Ok (sqrt (sum nv (fun i => (t i - z i) ^ 2) / INR nv)), mkDAO d' (S (do_draws s))) /\
  (forall i j, (i < nv)%nat -> (j < nh)%nat -> derivable_pt_lim (fun w => denoising_loss nv nh t u (with2 W i j w) hb vb) (W i j) (gW i j)) /\
  (forall j, (j < nh)%nat -> derivable_pt_lim (fun b => denoising_loss nv nh t u W (with1 hb j b) vb) (hb j) (gh j)) /\
  (forall i, (i < nv)%nat -> derivable_pt_lim (fun b => denoising_loss nv nh t u W hb (with1 vb i b)) (vb i) (gv i)) /\
  (forall i j, (i < nv)%nat -> (j < nh)%nat -> entry (da_W d') i j = W i j - kp_lr p * gW i j) /\
  (forall j, (j < nh)%nat -> bias (da_hb d') j = hb j - kp_lr p * (sum nh gh / INR nh)) /\
  (forall i, (i < nv)%nat -> bias (da_vb d') i = vb i - kp_lr p * (sum nv gv / INR nv)).
Proof.
  destruct denoising_components as (d' & E0 & G1 & G2 & G3). exists d', (fun i j => - (u i * e j + (t i - z i) * y j)), (fun j => -1 * e j), (fun i => -1 * (t i - z i)).
  split; [exact E0|]. split; [intros; apply denoising_W; auto|]. split; [|split; [|split; [|split]]].
  - intros j Hj. eapply dlim_eq; [apply denoising_hb; auto|]. ring.
  - intros i Hi. eapply dlim_eq; [apply denoising_vb; auto|]. ring.
  - intros i j Hi Hj. rewrite G1 by auto. ring.
  - intros j Hj. rewrite G2, sum_scal by auto. unfold Rdiv. ring.
  - intros i Hi. rewrite G3, sum_scal by auto. unfold Rdiv. ring.
Qed.
End DenoisingStep.
Print Assumptions C100_denoising_step.
(** Every object that was only fed vectors of n_visible components has the shape asked for above. *)
Lemma train_shape : forall (q : dapar R) nv nh s x, shape nv nh (do_net s) -> length x = nv -> (forall k, length (dp_mask q k nv) = nv) -> shape nv nh (do_net (snd (dA_train q x s))).
Proof.
  intros q nv nh s x Hs Hx Hm. set (p := dp_kit q). set (dn := da_norms (do_net s) x).
  assert (Sh : shape nv nh dn) by (destruct Hs as (L1 & L2 & L3 & L4 & L5 & L6); unfold dn, da_norms, shape; cbn [da_max da_min da_W da_hb da_vb]; rewrite !map2_length; repeat split; auto; lia).
  set (xn := da_normalise p dn x). assert (Lxn : length xn = nv) by (apply (normalise_length p nv nh); auto).
  assert (G : forall ul, length ul = nv -> let yl := da_hidden p dn ul in let h2 := map2 nsub xn (da_decode p dn yl) in let h1 := map2 nmul (map2 nmul (vec_mat (length (da_hb dn)) h2 (da_W dn)) yl) (map (nsub (nofZ 1)) yl) in
    shape nv nh (mkDA (da_max dn) (da_min dn) (da_n dn) (map2 (map2 nadd) (da_W dn) (map (map (nmul (kp_lr p))) (map2 (map2 nadd) (outer ul h1) (outer h2 yl))))
        (map (fun b => nadd b (nmul (kp_lr p) (vec_mean h1))) (da_hb dn)) (map (fun b => nadd b (nmul (kp_lr p) (vec_mean h2))) (da_vb dn)))).
  { intros ul Lu yl h2 h1. assert (Ly : length yl = nh) by (apply (hidden_length p nv); auto). assert (Lz : length (da_decode p dn yl) = nv) by (apply (decode_length p nv nh); auto).
    assert (L2 : length h2 = nv) by (unfold h2; rewrite map2_length; lia). assert (L1 : length h1 = nh) by (unfold h1, vec_mat; rewrite !map2_length, !map_length, seq_length; destruct Sh as (_ & _ & _ & _ & Lh & _); lia).
    destruct Sh as (M1 & M2 & M3 & M4 & M5 & M6). unfold shape. cbn [da_max da_min da_W da_hb da_vb]. rewrite !map_length, map2_length, map_length, map2_length. unfold outer. rewrite !map_length. repeat split; auto; try lia.
    apply Forall_forall. intros row Hr. unfold map2 at 1 in Hr. apply in_map_iff in Hr. destruct Hr as ([a b] & <- & Hr). cbn [fst snd]. pose proof (in_combine_l _ _ _ _ Hr) as Ia. pose proof (in_combine_r _ _ _ _ Hr) as Ib. rewrite Forall_forall in M4. apply M4 in Ia. rewrite map2_length, Ia.
    apply in_map_iff in Ib. destruct Ib as (b' & <- & Ib). rewrite map_length. unfold map2 at 1 in Ib. apply in_map_iff in Ib. destruct Ib as ([v w] & <- & Iuv). cbn [fst snd]. rewrite map2_length. pose proof (in_combine_l _ _ _ _ Iuv) as Iu. pose proof (in_combine_r _ _ _ _ Iuv) as Iv. apply in_map_iff in Iu. apply in_map_iff in Iv. destruct Iu as (u' & <- & _). destruct Iv as (v' & <- & _). rewrite !map_length. lia. }
  unfold dA_train, dA_corrupted, bind, modify, gets, ret, raise. cbn [do_net do_draws]. fold p dn xn. destruct (oltb n0 (dp_corruption q)); [|exact (G xn Lxn)].
  destruct (oltb (dp_corruption q) (nofZ 1)); [|exact Sh]. cbn [snd do_net do_draws]. apply G. rewrite map2_length, Lxn, Hm. lia.
Qed.
Lemma reachable_shape : forall (q : dapar R) nv xs s0, dA_init q nv = Ok s0 -> Forall (fun x => length x = nv) xs -> (forall k, length (dp_mask q k nv) = nv) -> shape nv (kp_hidden (dp_kit q) nv) (do_net (train_all q xs s0)).
Proof.
  intros q nv xs s0 E F Hm. assert (S0 : shape nv (kp_hidden (dp_kit q) nv) (do_net s0)).
  { unfold dA_init, rmap in E. destruct (da_init (dp_kit q) nv) as [d0|e] eqn:E0; [|discriminate]. injection E as <-. cbn [do_net]. apply (trained_full_shape (dp_kit q) nv [] d0); [constructor|]. exists d0. auto. }
  clear E. revert s0 S0. induction F as [|x xs Hx F IH]; intros s0 S0; [exact S0|]. cbn [train_all fold_left]. apply IH. apply train_shape; auto.
Qed.
Definition da_par : dapar R := mkDAP kit_par (1 / 2) 1 (fun k n => map (fun i => if Nat.even (i + k) then 1 else 0) (seq 0 n)).
Example C100_ex : exists s0, dA_init da_par 2 = Ok s0 /\ let s := train_all da_par [[1; 2]; [3; 0]] s0 in
  shape 2 2 (do_net s) /\ kp_exp (dp_kit da_par) = exp /\ 0 < dp_corruption da_par < 1 /\ length (dp_mask da_par (do_draws s) 2) = 2%nat /\ do_draws s = 2%nat /\ dA_inGrace da_par s0 = true /\ dA_inGrace da_par s = false.
Proof.
  eexists. split; [reflexivity|]. cbv zeta. split; [apply (reachable_shape da_par 2); [reflexivity|repeat constructor|intros k; unfold da_par; cbn [dp_mask]; rewrite map_length, seq_length; reflexivity]|].
  split; [reflexivity|]. split; [cbn [dp_corruption da_par]; lra|]. split; [cbn [dp_mask da_par]; rewrite map_length, seq_length; reflexivity|]. split; [|split].
  - unfold train_all. cbn [fold_left]. unfold dA_train, dA_corrupted, bind, modify, gets, ret, raise. cbn [oltb num_ord NumR OrdR nofZ n0 da_par dp_corruption]. destruct (Rltb 0 (1 / 2)) eqn:C1; [|apply Rltb_nlt in C1; lra]. destruct (Rltb (1 / 2) 1) eqn:C2; [|apply Rltb_nlt in C2; lra]. reflexivity.
  - reflexivity.
  - unfold dA_inGrace. rewrite train_all_counts. reflexivity.
Qed.
