(** * C140: how finely HalfSpaceTrees can tell instances apart, with integer and with float bounds. *)
From Coq Require Import List ZArith Lia Bool Reals Lra Arith.
From Verif Require Import Base Num Spec Model_Stats Model_Utils Model_Core Model_Simple Model_Sketch Model_HST P_Lists P_Stats P_Utils P_Core P_Post P_Models Prop_HST Prop_Units Prop_Features.
Import ListNotations.
Open Scope R_scope.

(** ** Specification *)
(** What storing a number in an integer array does: the fraction is dropped. *)
Definition toward_zero (r : R) : R := if Rle_dec 0 r then IZR (Int_part r) else - IZR (Int_part (- r)).
(** Two instances between which no whole or half number within the bounds lies, in any feature. *)
Definition alike (lo hi : list Z) (x x' : list R) : Prop :=
  length x = length x' /\
  forall q z, (q < length hi)%nat -> (2 * nth q lo 0 <= z <= 2 * nth q hi 0)%Z -> (IZR z / 2 < nth q x 0 <-> IZR z / 2 < nth q x' 0).

(** ** Trees whose cuts are whole and half numbers *)
Section Cuts.
Variables blo bhi : list Z.
Inductive half_cuts : hst R -> Prop :=
| hc_leaf : forall r l p k, half_cuts (HNode HNone HNone r l 0 p k)
| hc_node : forall L Rt r l q p k z, half_cuts L -> half_cuts Rt -> (q < length bhi)%nat -> p = IZR z / 2 -> (2 * nth q blo 0 <= z <= 2 * nth q bhi 0)%Z -> half_cuts (HNode L Rt r l q p k).

Lemma middle_stored : forall a b, (a <= b)%Z -> exists k, toward_zero ((IZR b + IZR a) / 2) = IZR k /\ (a <= k <= b)%Z.
Proof.
  intros a b H. unfold toward_zero. apply IZR_le in H. set (r := (IZR b + IZR a) / 2). assert (Hr : IZR a <= r <= IZR b) by (unfold r; lra). destruct (Rle_dec 0 r) as [P|P].
  - exists (Int_part r). split; auto. destruct (base_Int_part r) as [B1 B2]. split; [|apply le_IZR; lra]. apply Z.lt_succ_r. apply lt_IZR. rewrite succ_IZR. lra.
  - exists (- Int_part (- r))%Z. rewrite opp_IZR. split; auto. destruct (base_Int_part (- r)) as [B1 B2]. split; [apply le_IZR; rewrite opp_IZR; lra|]. apply Z.lt_succ_r. apply lt_IZR. rewrite succ_IZR, opp_IZR. lra.
Qed.
Lemma nth_IZR : forall (l : list Z) q, nth q (map IZR l) 0 = IZR (nth q l 0%Z).
Proof. intros l q. change 0 with (IZR 0%Z) at 1. apply map_nth. Qed.
Lemma nth_set_nthZ : forall (l : list Z) q p i, (q < length l)%nat -> nth i (set_nth q p l) 0%Z = if (i =? q)%nat then p else nth i l 0%Z.
Proof. intros l q p i H. destruct (Nat.eqb_spec i q); [subst; apply nth_set_nth_eq; auto|apply nth_set_nth_neq; auto]. Qed.
Lemma py_index_IZR : forall (l : list Z) q, (q < length l)%nat -> py_index (map IZR l) q = Ok (IZR (nth q l 0%Z)).
Proof. intros l q H. rewrite <- nth_IZR. unfold py_index. rewrite (nth_error_nth' (map IZR l) 0) by (rewrite map_length; auto). reflexivity. Qed.
Definition inside (lo hi : list Z) : Prop := length lo = length bhi /\ length hi = length bhi /\ forall q, (q < length bhi)%nat -> (nth q blo 0 <= nth q lo 0 <= nth q hi 0)%Z /\ (nth q hi 0 <= nth q bhi 0)%Z.
Lemma build_cuts : forall draw n lo hi k i t i', (forall i, (draw i < length bhi)%nat) -> inside lo hi ->
  hs_build toward_zero draw n (map IZR lo) (map IZR hi) k i = (Ok t, i') -> half_cuts t.
Proof.
  intros draw n. induction n as [|n IH]; intros lo hi k i t i' Hq (L1 & L2 & I).
  - cbn [hs_build]. intros E. injection E as <- <-. constructor.
  - cbn [hs_build]. unfold bind, gets, modify, raise, lift, ret. destruct (length (map IZR hi) =? 0)%nat; [discriminate|]. set (q := draw i). assert (Qq : (q < length bhi)%nat) by apply Hq. rewrite !py_index_IZR by lia.
    destruct (I q Qq) as [I1 I2]. destruct (middle_stored (nth q lo 0%Z) (nth q hi 0%Z)) as (c & Ec & Bc); [lia|]. change (@ndiv R NumR (@nadd R NumR (IZR (nth q hi 0%Z)) (IZR (nth q lo 0%Z))) (@nofZ R NumR 2)) with ((IZR (nth q hi 0%Z) + IZR (nth q lo 0%Z)) / 2).
    rewrite Ec, !set_nth_map. destruct (hs_build toward_zero draw n (map IZR lo) (map IZR (set_nth q c hi)) (S k) (S i)) as [[tl|e] i1] eqn:E1; [|discriminate].
    destruct (hs_build toward_zero draw n (map IZR (set_nth q c lo)) (map IZR hi) (S k) i1) as [[tr|e] i2] eqn:E2; [|discriminate]. intros E. injection E as <- <-.
    apply (hc_node _ _ _ _ _ _ _ (nth q hi 0 + nth q lo 0)%Z); auto.
    + apply (IH _ _ _ _ _ _ Hq) in E1; auto. split; [auto|]. rewrite set_nth_length. split; auto. intros j Hj. rewrite nth_set_nthZ by lia. destruct (I j Hj). destruct (Nat.eqb_spec j q); subst; lia.
    + apply (IH _ _ _ _ _ _ Hq) in E2; auto. split; [rewrite set_nth_length; auto|]. split; auto. intros j Hj. rewrite nth_set_nthZ by lia. destruct (I j Hj). destruct (Nat.eqb_spec j q); subst; lia.
    + rewrite plus_IZR. reflexivity.
    + lia.
Qed.

Lemma index_alike : forall x x' q, length x = length x' -> (exists v v', py_index x q = Ok v /\ py_index x' q = Ok v' /\ v = nth q x 0 /\ v' = nth q x' 0) \/ (py_index x q = Raise IndexError /\ py_index x' q = Raise IndexError).
Proof.
  intros x x' q L. unfold py_index. destruct (nth_error x q) as [v|] eqn:E.
  - left. assert (Hq : (q < length x)%nat) by (apply nth_error_Some; congruence). destruct (nth_error x' q) as [v'|] eqn:E'; [|apply nth_error_None in E'; lia]. exists v, v'. repeat split; auto; symmetry; apply nth_error_nth; auto.
  - right. apply nth_error_None in E. destruct (nth_error x' q) eqn:E'; auto. assert (q < length x')%nat by (apply nth_error_Some; congruence). lia.
Qed.
Lemma same_side : forall x x' q z, alike blo bhi x x' -> (q < length bhi)%nat -> (2 * nth q blo 0 <= z <= 2 * nth q bhi 0)%Z -> Rltb (IZR z / 2) (nth q x 0) = Rltb (IZR z / 2) (nth q x' 0).
Proof.
  intros x x' q z [_ H] Hq Hz. specialize (H q z Hq Hz). destruct (Rltb (IZR z / 2) (nth q x 0)) eqn:E; symmetry.
  - apply Rltb_lt. apply H. apply Rltb_lt. exact E.
  - apply Rltb_nlt. intros Q. apply H in Q. apply Rltb_nlt in E. contradiction.
Qed.
Lemma update_alike : forall D x x' first t, alike blo bhi x x' -> half_cuts t ->
  hs_update_mass D x' first t = hs_update_mass D x first t /\ half_cuts (snd (hs_update_mass D x first t)).
Proof.
  intros D x x' first t Al C. induction C as [r l p k|L Rt r l q p k z CL IHL CR IHR Hq Ep Hz]; cbn [hs_update_mass].
  - destruct (k <? D)%nat; [|split; [reflexivity|constructor]]. destruct (index_alike x x' 0 (proj1 Al)) as [(v & v' & -> & -> & _)|[-> ->]]; [|split; [reflexivity|constructor]].
    change (@oltb R (@num_ord R NumR)) with Rltb. destruct (Rltb p v), (Rltb p v'); cbn [snd]; split; try reflexivity; constructor.
  - destruct (k <? D)%nat; [|split; [reflexivity|apply (hc_node _ _ _ _ _ _ _ z); auto]]. destruct (index_alike x x' q (proj1 Al)) as [(v & v' & -> & -> & Ev & Ev')|[-> ->]]; [|split; [reflexivity|apply (hc_node _ _ _ _ _ _ _ z); auto]].
    change (@oltb R (@num_ord R NumR)) with Rltb. rewrite Ev, Ev', Ep. rewrite <- (same_side x x' q z Al Hq Hz). destruct IHL as [EL HL], IHR as [ER HR].
    destruct (Rltb (IZR z / 2) (nth q x 0)).
    + rewrite ER. destruct (hs_update_mass D x first Rt) as [o t']. cbn [snd] in *. split; auto. apply (hc_node _ _ _ _ _ _ _ z); auto.
    + rewrite EL. destruct (hs_update_mass D x first L) as [o t']. cbn [snd] in *. split; auto. apply (hc_node _ _ _ _ _ _ _ z); auto.
Qed.
Lemma model_cuts : forall t, half_cuts t -> half_cuts (hs_update_model t).
Proof. intros t C. induction C as [r l p k|L Rt r l q p k z CL IHL CR IHR Hq Ep Hz]; cbn [hs_update_model]; [constructor|apply (hc_node _ _ _ _ _ _ _ z); auto]. Qed.
Lemma score_alike : forall x x' t, alike blo bhi x x' -> half_cuts t -> hs_score_tree x' t = hs_score_tree x t.
Proof.
  intros x x' t Al C. induction C as [r l p k|L Rt r l q p k z CL IHL CR IHR Hq Ep Hz]; cbn [hs_score_tree].
  - destruct (index_alike x x' 0 (proj1 Al)) as [(v & v' & -> & -> & _)|[-> ->]]; [|reflexivity]. cbn [rbind]. destruct (oltb p v), (oltb p v'); reflexivity.
  - destruct (index_alike x x' q (proj1 Al)) as [(v & v' & -> & -> & Ev & Ev')|[-> ->]]; [|reflexivity]. cbn [rbind]. change (@oltb R (@num_ord R NumR)) with Rltb. rewrite Ev, Ev', Ep, <- (same_side x x' q z Al Hq Hz), IHL, IHR. reflexivity.
Qed.
Definition all_cuts (s : hstst R) : Prop := Forall half_cuts (hs_roots s).
Lemma each_alike : forall D x x' first ts, alike blo bhi x x' -> Forall half_cuts ts ->
  each_tree (hs_update_mass D x' first) ts = each_tree (hs_update_mass D x first) ts /\ Forall half_cuts (snd (each_tree (hs_update_mass D x first) ts)).
Proof.
  intros D x x' first ts Al F. induction F as [|t ts Ct F [IH1 IH2]]; cbn [each_tree snd]; [auto|]. destruct (update_alike D x x' first t Al Ct) as [E C]. rewrite E. destruct (hs_update_mass D x first t) as [[u|e] t']; cbn [snd] in *.
  - rewrite IH1. destruct (each_tree (hs_update_mass D x first) ts) as [o ts']. cbn [snd] in *. auto.
  - auto.
Qed.
Lemma fit_alike : forall Y W D x x' (y : option Y) s, alike blo bhi x x' -> all_cuts s ->
  md_fit (HalfSpaceTrees W D) x' y s = md_fit (HalfSpaceTrees W D) x y s /\ all_cuts (snd (md_fit (HalfSpaceTrees W D) x y s)).
Proof.
  intros Y W D x x' y s Al C. cbn [md_fit HalfSpaceTrees plain_model]. unfold bind, modify, gets. cbn [hs_roots hs_first hs_step]. destruct (each_alike D x x' (hs_first s) (hs_roots s) Al C) as [E F]. rewrite E.
  destruct (each_tree (hs_update_mass D x (hs_first s)) (hs_roots s)) as [[u|e] ts]; cbn [snd] in F; [|split; [reflexivity|exact F]]. destruct (W =? 0)%nat; [split; [reflexivity|exact F]|]. cbn [hs_step].
  destruct (S (hs_step s) mod W =? 0)%nat; split; try reflexivity; try exact F. unfold all_cuts, hs_next_window. cbn [snd hs_roots]. apply Forall_map. eapply Forall_impl; [|exact F]. intros t. apply model_cuts.
Qed.
Lemma scores_alike : forall Y W D x x' s, alike blo bhi x x' -> all_cuts s -> md_score (HalfSpaceTrees (Y := Y) W D) x' s = md_score (HalfSpaceTrees (Y := Y) W D) x s.
Proof.
  intros Y W D x x' s Al C. cbn [md_score HalfSpaceTrees plain_model]. unfold bind, gets, lift. replace (res_map (hs_score_tree x') (hs_roots s)) with (res_map (hs_score_tree x) (hs_roots s)); [reflexivity|].
  unfold all_cuts in C. induction C as [|t ts Ct F IH]; cbn [res_map]; auto. rewrite (score_alike x x' t Al Ct), IH. reflexivity.
Qed.
Lemma run_alike : forall Y W D (move : list R -> list R) (h : list (mcall (list R) Y)) s, (forall x, alike blo bhi x (move x)) -> all_cuts s ->
  model_run (HalfSpaceTrees W D) s (map (call_map move) h) = model_run (HalfSpaceTrees W D) s h /\ all_cuts (model_run (HalfSpaceTrees W D) s h).
Proof.
  intros Y W D move h. induction h as [|o h IH]; intros s Al C; [split; [reflexivity|exact C]|]. cbn [map model_run fold_left].
  assert (Q : model_do (HalfSpaceTrees W D) s (call_map move o) = model_do (HalfSpaceTrees W D) s o /\ all_cuts (model_do (HalfSpaceTrees W D) s o)).
  { assert (SC : forall (x : list R) s, snd (md_score (HalfSpaceTrees (Y := Y) W D) x s) = s) by (intros x s'; apply hs_score_state).
    unfold model_do, exec, model_call. destruct o as [x y|x|x y]; cbn [call_map].
    - destruct (fit_alike Y W D x (move x) y s (Al x) C) as [E F]. rewrite E. destruct (md_fit (HalfSpaceTrees W D) x y s) as [r s']. cbn [snd] in *. auto.
    - rewrite (scores_alike Y W D x (move x) s (Al x) C). split; auto. specialize (SC x s). destruct (md_score (HalfSpaceTrees W D) x s) as [r s']. cbn [snd] in *. subst. exact C.
    - assert (FS : forall (x : list R) s, md_fit_score (HalfSpaceTrees W D) x y s = bind (md_fit (HalfSpaceTrees W D) x y) (fun _ => md_score (HalfSpaceTrees W D) x) s) by (intros; reflexivity). rewrite !FS. unfold bind. destruct (fit_alike Y W D x (move x) y s (Al x) C) as [E F]. rewrite E.
      destruct (md_fit (HalfSpaceTrees W D) x y s) as [[u|e] s']; cbn [snd] in F; [|auto]. rewrite (scores_alike Y W D x (move x) s' (Al x) F). specialize (SC x s'). destruct (md_score (HalfSpaceTrees W D) x s') as [r s'']. cbn [snd] in *. subst. auto. }
  destruct Q as [Q1 Q2]. rewrite Q1. apply (IH _ Al Q2).
Qed.
End Cuts.

(** ** Theorems *)
(** Integer arrays as bounds: whatever the depth, the number of trees and the draws, instances that no whole or half number
    separates are never told apart, neither when fitted nor when scored. *)
Theorem C140_integer_bounds : forall Y draw (lo hi : list Z) W T D s (move : list R -> list R) (h : list (mcall (list R) Y)) x,
  length lo = length hi -> (forall q, (q < length hi)%nat -> (nth q lo 0 <= nth q hi 0)%Z) -> (forall i, (draw i < length hi)%nat) ->
  HST_init (Y := Y) toward_zero draw (map IZR lo) (map IZR hi) W T D IWNone = Ok s -> (forall x, alike lo hi x (move x)) ->
  eval (md_score (HalfSpaceTrees W D) (move x)) (model_run (HalfSpaceTrees W D) s (map (call_map move) h)) =
  eval (md_score (HalfSpaceTrees W D) x) (model_run (HalfSpaceTrees W D) s h).
Proof.
  intros Y draw lo hi W T D s move h x HL HB Hq E Al.
  assert (C : all_cuts lo hi s).
  { unfold HST_init in E. destruct (fst (mapM (fun _ : nat => hs_build toward_zero draw D (map IZR lo) (map IZR hi) 0) (seq 0 T) 0%nat)) as [roots|e] eqn:Eb; [|discriminate]. cbn [rbind iw_truth] in E. injection E as <-. unfold all_cuts. cbn [hs_roots].
    enough (G : forall (l : list nat) i roots, fst (mapM (fun _ : nat => hs_build toward_zero draw D (map IZR lo) (map IZR hi) 0) l i) = Ok roots -> Forall (half_cuts lo hi) roots) by (eapply G; exact Eb). clear roots Eb.
    intros l. induction l as [|a l IH]; intros i roots Eb; cbn [mapM] in Eb; [unfold ret in Eb; cbn [fst] in Eb; injection Eb as <-; constructor|].
    unfold bind in Eb. destruct (hs_build toward_zero draw D (map IZR lo) (map IZR hi) 0 i) as [[t|e] i'] eqn:E1; [|discriminate]. specialize (IH i'). destruct (mapM (fun _ : nat => hs_build toward_zero draw D (map IZR lo) (map IZR hi) 0) l i') as [[ts|e] i2]; [|discriminate]. cbn [fst] in Eb. injection Eb as <-.
    constructor; [|apply IH; reflexivity]. eapply build_cuts; [exact Hq| |exact E1]. split; [exact HL|]. split; [reflexivity|]. intros q Hq'. specialize (HB q Hq'). lia. }
  destruct (run_alike lo hi Y W D move h s Al C) as [E1 E2]. rewrite E1. unfold eval. rewrite (scores_alike lo hi Y W D x (move x) _ (Al x) E2). reflexivity.
Qed.
Print Assumptions C140_integer_bounds.

(** ** Float bounds *)
Lemma below_pow2 : forall r, exists n, r < 2 ^ n.
Proof.
  assert (G : forall n, INR n < 2 ^ n). { induction n as [|n IH]; [cbn; lra|]. rewrite S_INR. cbn [pow]. assert (1 <= 2 ^ n) by (apply pow_R1_Rle; lra). lra. }
  intros r. exists (Z.to_nat (up r)). eapply Rlt_trans; [|apply G]. destruct (archimed r) as [A _]. destruct (Z.le_gt_cases 0 (up r)) as [P|P].
  - rewrite INR_IZR_INZ, Z2Nat.id by auto. exact A.
  - apply IZR_lt in P. pose proof (pos_INR (Z.to_nat (up r))). lra.
Qed.
Lemma py_index_nthR : forall (l : list R) q, (q < length l)%nat -> py_index l q = Ok (nth q l 0).
Proof. intros l q H. unfold py_index. rewrite (nth_error_nth' l 0) by auto. reflexivity. Qed.
Lemma cut_apart : forall q x x' n lo hi k i t i', length lo = length hi -> (q < length hi)%nat -> hs_build (fun a : R => a) (fun _ => q) n lo hi k i = (Ok t, i') ->
  nth q lo 0 <= nth q x 0 < nth q x' 0 -> nth q x' 0 <= nth q hi 0 -> nth q hi 0 - nth q lo 0 < (nth q x' 0 - nth q x 0) * 2 ^ n -> route n t x <> route n t x'.
Proof.
  intros q x x' n. induction n as [|n IH]; intros lo hi k i t i' HL Hq E B1 B2 Hw; [cbn [pow] in Hw; lra|].
  cbn [hs_build] in E. unfold bind, gets, modify, raise, lift, ret in E. destruct (Nat.eqb_spec (length hi) 0); [lia|]. rewrite !py_index_nthR in E by lia.
  change (@ndiv R NumR (@nadd R NumR (nth q hi 0) (nth q lo 0)) (@nofZ R NumR 2)) with ((nth q hi 0 + nth q lo 0) / 2) in E. set (p := (nth q hi 0 + nth q lo 0) / 2) in *.
  destruct (hs_build (fun a : R => a) (fun _ => q) n lo (set_nth q p hi) (S k) (S i)) as [[tl|e] i1] eqn:E1; [|discriminate]. destruct (hs_build (fun a : R => a) (fun _ => q) n (set_nth q p lo) hi (S k) i1) as [[tr|e] i2] eqn:E2; [|discriminate]. injection E as <- <-.
  cbn [route]. cbn [pow] in Hw. destruct (Rltb p (nth q x 0)) eqn:Lx, (Rltb p (nth q x' 0)) eqn:Lx'; [|discriminate|discriminate|].
  - intros Q. injection Q as Q. revert Q. apply Rltb_lt in Lx. apply (IH _ _ _ _ _ _) in E2; auto; rewrite ?set_nth_length; auto; rewrite ?nth_set_nth_eq by lia; unfold p in *; lra.
  - intros Q. injection Q as Q. revert Q. apply Rltb_nlt in Lx'. apply (IH _ _ _ _ _ _) in E1; auto; rewrite ?set_nth_length; auto; rewrite ?nth_set_nth_eq by lia; unfold p in *; lra.
Qed.
Lemma cell_sum_apart : forall D t x x', route D t x <> route D t x' -> cell_sum D t [x] x' < cell_sum D t [x] x.
Proof.
  intros D t x x' N. unfold cell_sum. rewrite !seq_S, !map_app. cbn [Nat.add map]. assert (S1 : forall d, sharing t d [x] x = 1) by (intros d; unfold sharing; cbn [filter]; destruct (list_eq_dec bool_dec (route d t x) (route d t x)); [reflexivity|congruence]).
  assert (S2 : sharing t D [x] x' = 0) by (unfold sharing; cbn [filter]; destruct (list_eq_dec bool_dec (route D t x) (route D t x')); [congruence|reflexivity]).
  assert (G : forall l, Rsum (map (fun d => 2 ^ d * sharing t d [x] x') l) <= Rsum (map (fun d => 2 ^ d * sharing t d [x] x) l)).
  { induction l as [|d l IH]; unfold Rsum in *; cbn [map fold_right]; [lra|]. destruct (sharing_le t d [x] x') as [_ U]. cbn [length INR] in U. rewrite S1. assert (0 < 2 ^ d) by (apply pow_lt; lra). nra. }
  assert (A : forall l a, Rsum (l ++ [a]) = Rsum l + a). { induction l as [|b l IH]; intros a; unfold Rsum in *; cbn [app fold_right]; [lra|]. rewrite IH. lra. }
  rewrite !A, S1, S2. specialize (G (seq 0 D)). assert (0 < 2 ^ D) by (apply pow_lt; lra). lra.
Qed.
(** Float bounds: any two instances that differ in a feature within its bounds are told apart by all trees that are deep
    enough and keep cutting that feature. *)
Theorem C140_float_bounds : forall Y (lo hi : list R) q W T x x', length lo = length hi -> (q < length hi)%nat -> (length hi <= length x)%nat -> (length hi <= length x')%nat -> (1 <= W)%nat -> (1 <= T)%nat ->
  nth q lo 0 <= nth q x 0 <= nth q hi 0 -> nth q lo 0 <= nth q x' 0 <= nth q hi 0 -> nth q x 0 <> nth q x' 0 ->
  exists D0, forall D, (D0 <= D)%nat -> exists s, HST_init (Y := Y) (fun a : R => a) (fun _ => q) lo hi W T D IWNone = Ok s /\
  forall y, let s' := model_run (HalfSpaceTrees (Y := Y) W D) s [CFit x y] in eval (md_score (HalfSpaceTrees (Y := Y) W D) x') s' <> eval (md_score (HalfSpaceTrees (Y := Y) W D) x) s'.
Proof.
  intros Y lo hi q W T x x' HL Hq Hx Hx' HW HT Bx Bx' N. set (g := Rabs (nth q x 0 - nth q x' 0)). assert (Pg : 0 < g) by (apply Rabs_pos_lt; lra).
  destruct (below_pow2 ((nth q hi 0 - nth q lo 0) / g)) as [D0 HD0]. exists D0. intros D HD.
  assert (HW2 : nth q hi 0 - nth q lo 0 < g * 2 ^ D). { assert (2 ^ D0 <= 2 ^ D) by (apply Rle_pow; [lra|auto]). apply (Rmult_lt_compat_l g) in HD0; [|lra]. replace (g * ((nth q hi 0 - nth q lo 0) / g)) with (nth q hi 0 - nth q lo 0) in HD0 by (field; lra). nra. }
  assert (Init : exists s, HST_init (Y := Y) (fun a : R => a) (fun _ => q) lo hi W T D IWNone = Ok s /\ length (hs_roots s) = T).
  { destruct (C53_masses R Y NumR (fun a => a) (fun _ => q) lo hi W T D []) as (s & E & L & _); auto; try (cbn; lia); [constructor|]. exists s. auto. }
  destruct Init as (s & E & LT). exists s. split; auto. intros y s'.
  assert (Sc : forall z, (length hi <= length z)%nat -> eval (md_score (HalfSpaceTrees (Y := Y) W D) z) s' = Ok (VScalar (- Rsum (map (fun t => cell_sum D t [x] z) (hs_roots s))))).
  { intros z Hz. destruct (C54_score Y (fun a => a) (fun _ => q) lo hi W T D [CFit x y] z) as (s0 & E0 & Q); auto; try lia; [repeat constructor; auto|]. rewrite E in E0. injection E0 as <-. cbv zeta in Q. unfold eval. subst s'. rewrite Q. cbn [fst]. do 5 f_equal.
    change (fitted_instances [CFit x y]) with [x]. cbn [length]. destruct (Nat.ltb_spec 1 W); [reflexivity|]. assert (W = 1)%nat by lia. subst W. reflexivity. }
  rewrite !Sc by auto. intros Q. injection Q as Q. 
  assert (F : Forall (fun t => route D t x <> route D t x') (hs_roots s)).
  { unfold HST_init in E. destruct (fst (mapM (fun _ : nat => hs_build (fun a : R => a) (fun _ => q) D lo hi 0) (seq 0 T) 0%nat)) as [roots|e] eqn:Eb; [|discriminate]. cbn [rbind iw_truth] in E. injection E as <-. cbn [hs_roots].
    enough (G : forall (l : list nat) i roots, fst (mapM (fun _ : nat => hs_build (fun a : R => a) (fun _ => q) D lo hi 0) l i) = Ok roots -> Forall (fun t => route D t x <> route D t x') roots) by (eapply G; exact Eb).
    intros l. induction l as [|a l IH]; intros i ts Et; cbn [mapM] in Et; [unfold ret in Et; cbn [fst] in Et; injection Et as <-; constructor|].
    unfold bind in Et. destruct (hs_build (fun a : R => a) (fun _ => q) D lo hi 0 i) as [[t|e] i'] eqn:E1; [|discriminate]. specialize (IH i'). destruct (mapM (fun _ : nat => hs_build (fun a : R => a) (fun _ => q) D lo hi 0) l i') as [[ts'|e] i2]; [|discriminate]. cbn [fst] in Et. injection Et as <-.
    constructor; [|apply IH; reflexivity]. destruct (Rlt_or_le (nth q x 0) (nth q x' 0)) as [C|C].
    - eapply cut_apart; [exact HL|exact Hq|exact E1|lra|lra|]. unfold g in HW2. rewrite Rabs_minus_sym, Rabs_pos_eq in HW2 by lra. exact HW2.
    - apply not_eq_sym. eapply cut_apart; [exact HL|exact Hq|exact E1|lra|lra|]. unfold g in HW2. rewrite Rabs_pos_eq in HW2 by lra. exact HW2. }
  assert (G : forall ts, Forall (fun t => route D t x <> route D t x') ts -> ts <> [] -> Rsum (map (fun t => cell_sum D t [x] x') ts) < Rsum (map (fun t => cell_sum D t [x] x) ts)).
  { intros ts Ft. induction Ft as [|t ts Ht Ft IH]; [congruence|]. intros _. pose proof (cell_sum_apart D t x x' Ht). destruct ts as [|t' ts]; [unfold Rsum; cbn [map fold_right]; lra|]. specialize (IH ltac:(discriminate)). unfold Rsum in *. cbn [map fold_right] in *. lra. }
  specialize (G (hs_roots s) F). assert (hs_roots s <> []) by (intros R0; rewrite R0 in LT; cbn in LT; lia). specialize (G H). lra.
Qed.
Print Assumptions C140_float_bounds.
(** A feature whose integer bounds are a and a + 1: all values above the middle are one, and all values below it are one, at any
    depth; with the same numbers as floats every two of them are told apart. *)
Theorem C140_unit_range_refuted : forall Y draw a W T D s (u v : R) (hs : list R) x, (forall i, (draw i < 1)%nat) ->
  HST_init (Y := Y) toward_zero draw [IZR a] [IZR (a + 1)] W T D IWNone = Ok s -> 
  (IZR a < u <= IZR a + 1 / 2 /\ IZR a < v <= IZR a + 1 / 2 \/ IZR a + 1 / 2 < u <= IZR a + 1 /\ IZR a + 1 / 2 < v <= IZR a + 1) ->
  let swap := fun r => if Req_EM_T r u then v else r in
  eval (md_score (HalfSpaceTrees (Y := Y) W D) [swap x]) (model_run (HalfSpaceTrees (Y := Y) W D) s (map (fun r => CFit [swap r] None) hs)) =
  eval (md_score (HalfSpaceTrees (Y := Y) W D) [x]) (model_run (HalfSpaceTrees (Y := Y) W D) s (map (fun r => CFit [r] None) hs)).
Proof.
  intros Y draw a W T D s u v hs x Hd E Huv swap.
  set (move := fun l : list R => match l with [r] => [swap r] | _ => l end).
  pose proof (C140_integer_bounds Y draw [a] [(a + 1)%Z] W T D s move (map (fun r => CFit [r] None) hs) [x]) as Q. cbn [move] in Q. rewrite map_map in Q. cbn [call_map] in Q. apply Q; clear Q; auto.
  - intros [|q] Hq; cbn [length] in Hq; [cbn; lia|lia].
  - intros l. destruct l as [|r [|r2 l]]; [split; [reflexivity|tauto]| |split; [reflexivity|tauto]]. split; [reflexivity|]. intros [|q] z Hq Hz; cbn [length] in Hq; [|lia]. cbn [nth move] in *. unfold swap. destruct (Req_EM_T r u) as [->|_]; [|tauto].
    assert (C : (z = 2 * a \/ z = 2 * a + 1 \/ z = 2 * a + 2)%Z) by lia. destruct C as [-> | [-> | ->]]; rewrite ?plus_IZR, mult_IZR; lra.
Qed.
Print Assumptions C140_unit_range_refuted.
(** The half numbers do occur: an integer feature from a to b is cut in the exact middle at the root. *)
Theorem C140_middle_is_cut : forall Y (lo hi : list Z) q W T D x x', length lo = length hi -> (q < length hi)%nat -> (length hi <= length x)%nat -> (length hi <= length x')%nat -> (1 <= W)%nat -> (1 <= T)%nat -> (1 <= D)%nat ->
  nth q x 0 <= (IZR (nth q lo 0%Z) + IZR (nth q hi 0%Z)) / 2 < nth q x' 0 ->
  exists s, HST_init (Y := Y) toward_zero (fun _ => q) (map IZR lo) (map IZR hi) W T D IWNone = Ok s /\
  forall y, let s' := model_run (HalfSpaceTrees (Y := Y) W D) s [CFit x y] in eval (md_score (HalfSpaceTrees (Y := Y) W D) x') s' <> eval (md_score (HalfSpaceTrees (Y := Y) W D) x) s'.
Proof.
  intros Y lo hi q W T D x x' HL Hq Hx Hx' HW HT HD B.
  assert (Init : exists s, HST_init (Y := Y) toward_zero (fun _ => q) (map IZR lo) (map IZR hi) W T D IWNone = Ok s /\ length (hs_roots s) = T).
  { destruct (C53_masses R Y NumR toward_zero (fun _ => q) (map IZR lo) (map IZR hi) W T D []) as (s & E & L & _); rewrite ?map_length; auto; try (cbn; lia); [constructor|]. exists s. auto. }
  destruct Init as (s & E & LT). exists s. split; auto. intros y s'.
  assert (Sc : forall z, (length hi <= length z)%nat -> eval (md_score (HalfSpaceTrees (Y := Y) W D) z) s' = Ok (VScalar (- Rsum (map (fun t => cell_sum D t [x] z) (hs_roots s))))).
  { intros z Hz. destruct (C54_score Y toward_zero (fun _ => q) (map IZR lo) (map IZR hi) W T D [CFit x y] z) as (s0 & E0 & Q); rewrite ?map_length; auto; try lia; [repeat constructor; rewrite ?map_length; auto|]. rewrite E in E0. injection E0 as <-. cbv zeta in Q. unfold eval. subst s'. rewrite Q. cbn [fst]. do 5 f_equal.
    change (fitted_instances [CFit x y]) with [x]. cbn [length]. destruct (Nat.ltb_spec 1 W); [reflexivity|]. assert (W = 1)%nat by lia. subst W. reflexivity. }
  rewrite !Sc by auto. intros Q. injection Q as Q.
  assert (F : Forall (fun t => route D t x <> route D t x') (hs_roots s)).
  { unfold HST_init in E. destruct (fst (mapM (fun _ : nat => hs_build toward_zero (fun _ => q) D (map IZR lo) (map IZR hi) 0) (seq 0 T) 0%nat)) as [roots|e] eqn:Eb; [|discriminate]. cbn [rbind iw_truth] in E. injection E as <-. cbn [hs_roots].
    enough (G : forall (l : list nat) i roots, fst (mapM (fun _ : nat => hs_build toward_zero (fun _ => q) D (map IZR lo) (map IZR hi) 0) l i) = Ok roots -> Forall (fun t => route D t x <> route D t x') roots) by (eapply G; exact Eb).
    intros l. induction l as [|a l IH]; intros i ts Et; cbn [mapM] in Et; [unfold ret in Et; cbn [fst] in Et; injection Et as <-; constructor|].
    unfold bind in Et. destruct (hs_build toward_zero (fun _ => q) D (map IZR lo) (map IZR hi) 0 i) as [[t|e] i'] eqn:E1; [|discriminate]. specialize (IH i'). destruct (mapM (fun _ : nat => hs_build toward_zero (fun _ => q) D (map IZR lo) (map IZR hi) 0) l i') as [[ts'|e] i2]; [|discriminate]. cbn [fst] in Et. injection Et as <-.
    constructor; [|apply IH; reflexivity]. destruct D as [|D]; [lia|]. cbn [hs_build] in E1. unfold bind, gets, modify, raise, lift, ret in E1. destruct (length (map IZR hi) =? 0)%nat; [discriminate|]. rewrite !py_index_IZR in E1 by lia.
    match type of E1 with context [hs_build toward_zero ?d D ?a ?b ?k ?j] => destruct (hs_build toward_zero d D a b k j) as [[tl|e] i3]; [|discriminate] end. match type of E1 with context [hs_build toward_zero ?d D ?a ?b ?k ?j] => destruct (hs_build toward_zero d D a b k j) as [[tr|e] i4]; [|discriminate] end.
    injection E1 as <- <-. cbn [route]. change (@ndiv R NumR (@nadd R NumR (IZR (nth q hi 0%Z)) (IZR (nth q lo 0%Z))) (@nofZ R NumR 2)) with ((IZR (nth q hi 0%Z) + IZR (nth q lo 0%Z)) / 2).
    assert (L1 : Rltb ((IZR (nth q hi 0%Z) + IZR (nth q lo 0%Z)) / 2) (nth q x 0) = false) by (apply Rltb_nlt; lra). assert (L2 : Rltb ((IZR (nth q hi 0%Z) + IZR (nth q lo 0%Z)) / 2) (nth q x' 0) = true) by (apply Rltb_lt; lra). rewrite L1, L2. discriminate. }
  assert (G : forall ts, Forall (fun t => route D t x <> route D t x') ts -> ts <> [] -> Rsum (map (fun t => cell_sum D t [x] x') ts) < Rsum (map (fun t => cell_sum D t [x] x) ts)).
  { intros ts Ft. induction Ft as [|t ts Ht Ft IH]; [congruence|]. intros _. pose proof (cell_sum_apart D t x x' Ht). destruct ts as [|t' ts]; [unfold Rsum; cbn [map fold_right]; lra|]. specialize (IH ltac:(discriminate)). unfold Rsum in *. cbn [map fold_right] in *. lra. }
  specialize (G (hs_roots s) F). assert (hs_roots s <> []) by (intros R0; rewrite R0 in LT; cbn in LT; lia). specialize (G H). lra.
Qed.
Print Assumptions C140_middle_is_cut.
(** The hypotheses are met: bounds 0 and 1, the values 0.6 and 0.9, trees of depth 15. *)
Example C140_ex : (exists s, HST_init (Y := unit) toward_zero (fun _ => 0%nat) [IZR 0] [IZR (0 + 1)] 100 25 15 IWNone = Ok s) /\ (IZR 0 + 1 / 2 < 0.6 <= IZR 0 + 1 /\ IZR 0 + 1 / 2 < 0.9 <= IZR 0 + 1) /\
  alike [0; -3]%Z [1; 5]%Z [0.6; 1.2] [0.9; 1.4] /\ ~ alike [0%Z] [1%Z] [0.4] [0.6] /\ nth 0 [0.6; 1.2] 0 <> nth 0 [0.9; 1.4] 0.
Proof.
  split; [|split; [lra|split; [|split]]].
  - destruct (C53_masses R unit NumR toward_zero (fun _ => 0%nat) [IZR 0] [IZR (0 + 1)] 100 25 15 []) as (s & E & _); [reflexivity|cbn; lia|cbn; lia|lia|constructor|]. exists s. exact E.
  - split; [reflexivity|]. intros [|[|q]] z Hq Hz; cbn [length] in Hq; try lia; cbn [nth] in *.
    + assert (C : (z = 0 \/ z = 1 \/ z = 2)%Z) by lia. destruct C as [-> | [-> | ->]]; lra.
    + destruct (Z_le_gt_dec z 2) as [L|G]; [apply IZR_le in L; lra|]. assert (G' : (3 <= z)%Z) by lia. apply IZR_le in G'. lra.
  - intros [_ Q]. specialize (Q 0%nat 1%Z ltac:(cbn; lia) ltac:(cbn; lia)). cbn [nth] in Q. destruct Q as [_ Q]. specialize (Q ltac:(lra)). lra.
  - cbn [nth]. lra.
Qed.
Print Assumptions C140_ex.
