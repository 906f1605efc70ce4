(** * C142: window sizes that are 0 or negative. *)
From Coq Require Import List ZArith Lia Bool Reals Lra Arith String.
From Verif Require Import Base Num Spec Model_Stats Model_Utils Model_Core Model_Trans Model_Simple Model_Sketch Model_HST Model_XStream Model_Integrations Model_Eval Model_Window P_Lists P_Stats P_Utils P_Core P_Models P_Eval Prop_Eval Prop_Simple.
Import ListNotations.
Local Notation length := List.length.

(** ** Specification *)
(** Two detectors with the same state answer every call in every state alike and move to the same state. *)
Definition same_calls {X Y A S} (fit1 fit2 : X -> option Y -> M S unit) (score1 score2 : X -> M S (pyval A)) : Prop :=
  forall c s, model_call (plain_model S fit1 score1) c s = model_call (plain_model S fit2 score2) c s.

(** ** Proofs *)
Lemma mod_abs : forall n w, w <> 0%Z -> ((Z.of_nat n mod w =? 0)%Z = (n mod Z.abs_nat w =? 0)%nat).
Proof.
  intros n w H. assert (Ha : Z.abs_nat w <> 0%nat) by lia. destruct (Nat.eqb_spec (n mod Z.abs_nat w) 0) as [E|E].
  - apply Nat.mod_divide in E; auto. destruct E as [k E]. apply Z.eqb_eq. apply Z.mod_divide; auto. rewrite E, Nat2Z.inj_mul, Zabs2Nat.id_abs. destruct (Z.abs_eq_or_opp w) as [Q|Q]; rewrite Q; [exists (Z.of_nat k)|exists (- Z.of_nat k)%Z]; lia.
  - apply Z.eqb_neq. intros Q. apply Z.mod_divide in Q; auto. apply E, Nat.mod_divide; auto. apply Z.divide_abs_l in Q. rewrite <- Zabs2Nat.id_abs in Q. destruct Q as [k Q]. exists (Z.to_nat k). nia.
Qed.
Lemma calls_eq : forall X Y A S (f1 f2 : X -> option Y -> M S unit) (s1 s2 : X -> M S (pyval A)), (forall x y s, f1 x y s = f2 x y s) -> (forall x s, s1 x s = s2 x s) -> same_calls f1 f2 s1 s2.
Proof.
  intros X Y A S f1 f2 s1 s2 H1 H2 c s. unfold model_call. destruct c as [x y|x|x y]; cbn [md_fit md_score md_fit_score plain_model].
  - rewrite H1. reflexivity.
  - rewrite H2. reflexivity.
  - unfold default_fit_score, bind. rewrite H1. destruct (f2 x y s) as [[u|e] s']; rewrite ?H2; reflexivity.
Qed.
Section Windows.
Context {Y A : Type} {NA : Num A}.
(** A negative window size is its absolute value to half-space trees and to xStream, in every state and for every call. *)
Theorem C142_half_space_trees : forall w depth, same_calls (md_fit (HalfSpaceTreesZ (Y := Y) (A := A) w depth)) (md_fit (HalfSpaceTrees (Y := Y) (A := A) (Z.abs_nat w) depth)) (md_score (HalfSpaceTreesZ (Y := Y) (A := A) w depth)) (md_score (HalfSpaceTrees (Y := Y) (A := A) (Z.abs_nat w) depth)).
Proof.
  intros w depth. apply calls_eq; [|reflexivity]. intros x y s. cbn [md_fit HalfSpaceTreesZ HalfSpaceTrees plain_model]. unfold bind, modify, gets, lift, ret, raise, pymod. cbn [hs_roots hs_first hs_step].
  destruct (each_tree _ _) as [[u|e] f]; [|reflexivity]. cbn [hs_roots hs_first hs_step]. destruct (Z.eqb_spec w 0) as [->|N]; [reflexivity|]. destruct (Nat.eqb_spec (Z.abs_nat w) 0); [lia|]. rewrite mod_abs by auto. destruct (_ =? 0)%nat; reflexivity.
Qed.
Theorem C142_xstream : forall two one tiny mmh3 p floor log2 K w, same_calls (md_fit (xStreamZ (Y := Y) (A := A) two one tiny mmh3 p floor log2 K w)) (md_fit (xStream (Y := Y) (A := A) two one tiny mmh3 p floor log2 K (Z.abs_nat w)))
  (md_score (xStreamZ (Y := Y) (A := A) two one tiny mmh3 p floor log2 K w)) (md_score (xStream (Y := Y) (A := A) two one tiny mmh3 p floor log2 K (Z.abs_nat w))).
Proof.
  intros two one tiny mmh3 p floor log2 K w. apply calls_eq; [|reflexivity]. intros x y s. cbn [md_fit xStreamZ xStream plain_model]. unfold bind, modify, gets, lift, ret, raise, pymod. cbn [xs_step xs_window xs_chains].
  destruct (xs_project _ _ _ _ _) as [z|e]; [|reflexivity]. cbn [xs_step xs_window xs_chains]. destruct (Z.eqb_spec w 0) as [->|N]; [reflexivity|]. destruct (Nat.eqb_spec (Z.abs_nat w) 0); [lia|]. rewrite mod_abs by auto. destruct (_ =? 0)%nat; reflexivity.
Qed.
(** A reference window takes a negative window size for 0, and a negative sliding size for its absolute value. *)
Theorem C142_reference_window : forall X (d : Detector X Y A) w sl, same_calls (rwz_fit d w sl) (rw_fit d (Z.to_nat w) (Z.abs_nat sl)) (md_score (ReferenceWindowModelZ d w sl)) (md_score (ReferenceWindowModel d (Z.to_nat w) (Z.abs_nat sl))).
Proof.
  intros X d w sl. apply calls_eq; [|reflexivity]. intros x y s.
  assert (L : forall B (l : list B), (Z.of_nat (length l) <? w)%Z = (length l <? Z.to_nat w)%nat) by (intros B l; destruct (Z.ltb_spec (Z.of_nat (length l)) w), (Nat.ltb_spec (length l) (Z.to_nat w)); auto; lia).
  assert (Sl : forall B (r : option (list B)) c, rwz_slide w r c = rw_slide (Z.to_nat w) r c).
  { intros B [r|] c; [|reflexivity]. unfold rwz_slide, rw_slide. cbv zeta. f_equal. set (l := r ++ c). destruct (Z.le_gt_cases 0 w) as [G|G]; [f_equal; lia|]. replace (Z.to_nat w) with 0%nat by lia. rewrite Nat.sub_0_r. rewrite !skipn_all2 by lia. reflexivity. }
  unfold rwz_fit, rw_fit. unfold bind, modify, gets, ret, raise, lift, pymod.
  set (s2 := match y with None => rw_set_cur (rw_curX s ++ [x]) (rw_curY s) s | Some v => _ end). rewrite L. replace (match rw_refX s2 with Some r => (Z.of_nat (length r) <? w)%Z | None => true end) with (match rw_refX s2 with None => true | Some r => (length r <? Z.to_nat w)%nat end) by (destruct (rw_refX s2); auto).
  destruct (negb (rw_initial s2) && (length (rw_curX s2) <? Z.to_nat w)%nat && match rw_refX s2 with None => true | Some r => (length r <? Z.to_nat w)%nat end)%bool; [reflexivity|].
  destruct (Z.eqb_spec sl 0) as [->|N]; [reflexivity|]. destruct (Nat.eqb_spec (Z.abs_nat sl) 0); [lia|]. rewrite mod_abs by auto. destruct (_ =? 0)%nat; [|reflexivity]. rewrite !Sl. destruct (rw_slide _ _ _); [|reflexivity]. reflexivity.
Qed.

(** With window size 0 every fit raises ZeroDivisionError, but the instance is counted: after any history the scores are those
    of a detector whose first window lasts longer than the history. *)
Theorem C142_half_space_trees_zero : forall depth w (s0 : hstst A) (h : list (mcall (list A) Y)) x, hs_step s0 = 0%nat -> (length h < w)%nat ->
  let m0 := HalfSpaceTrees (Y := Y) 0 depth in let m := HalfSpaceTrees (Y := Y) w depth in
  model_run m0 s0 h = model_run m s0 h /\ eval (md_score m0 x) (model_run m0 s0 h) = eval (md_score m x) (model_run m s0 h) /\
  forall y, match eval (md_fit m x y) (model_run m s0 h) with Ok _ => eval (md_fit m0 x y) (model_run m0 s0 h) = Raise ZeroDivisionError | Raise e => eval (md_fit m0 x y) (model_run m0 s0 h) = Raise e end.
Proof.
  intros depth w s0 h x H0 Hw m0 m. assert (Fit : forall z y (s : hstst A), (hs_step s + 1 < w)%nat -> exec (md_fit m0 z y) s = exec (md_fit m z y) s /\ hs_step (exec (md_fit m z y) s) = (hs_step s + 1)%nat).
  { intros z y s Hs. unfold exec, m0, m. cbn [md_fit HalfSpaceTrees plain_model]. unfold bind, modify, gets, lift, ret, raise. cbn [hs_roots hs_first hs_step]. destruct (each_tree _ _) as [[u|e] f]; cbn [snd hs_step]; [|split; [reflexivity|lia]].
    destruct (Nat.eqb_spec w 0); [lia|]. rewrite (Nat.mod_small (S (hs_step s)) w) by lia. destruct (Nat.eqb_spec (S (hs_step s)) 0); [lia|]. cbn. split; [reflexivity|lia]. }
  assert (Sc : forall z (s : hstst A), exec (md_score m0 z) s = s /\ exec (md_score m z) s = s) by (intros z s; unfold exec, m0, m; cbn [md_score HalfSpaceTrees plain_model]; unfold bind, gets, lift, ret; destruct (res_map _ _); split; reflexivity).
  assert (G : forall (h : list (mcall (list A) Y)) (s : hstst A), (hs_step s + length h < w)%nat -> model_run m0 s h = model_run m s h /\ (hs_step (model_run m s h) <= hs_step s + length h)%nat).
  { clear h Hw. induction h as [|c h IH]; intros s Hs; [cbn; split; [reflexivity|lia]|]. cbn [length] in *. cbn [model_run fold_left].
    assert (D : model_do m0 s c = model_do m s c /\ (hs_step (model_do m s c) <= hs_step s + 1)%nat).
    { unfold model_do, exec, model_call. destruct c as [z y|z|z y].
      - destruct (Fit z y s ltac:(lia)) as [F1 F2]. unfold exec in F1, F2. unfold bind, ret. cbn [md_fit] in *. destruct (md_fit m0 z y s) as [[u|e] s1], (md_fit m z y s) as [[u'|e'] s2]; cbn [snd] in *; subst; split; auto; lia.
      - destruct (Sc z s) as [S1 S2]. unfold exec in S1, S2. unfold bind, ret. destruct (md_score m0 z s) as [[u|e] s1], (md_score m z s) as [[u'|e'] s2]; cbn [snd] in *; subst; split; auto; lia.
      - destruct (Fit z y s ltac:(lia)) as [F1 F2]. change (md_fit_score m0 z y) with (default_fit_score (md_fit m0) (md_score m0) z y). change (md_fit_score m z y) with (default_fit_score (md_fit m) (md_score m) z y). unfold default_fit_score, bind, ret. unfold exec in F1, F2.
        destruct (md_fit m0 z y s) as [[u|e] s1], (md_fit m z y s) as [[u'|e'] s2]; cbn [snd] in *; subst s2;
          try (pose proof (proj1 (Sc z s1)) as S1; unfold exec in S1; destruct (md_score m0 z s1) as [[?|?] ?]; cbn [snd] in S1; subst);
          try (pose proof (proj2 (Sc z s1)) as S2; unfold exec in S2; destruct (md_score m z s1) as [[?|?] ?]; cbn [snd] in S2; subst); cbn [snd]; split; auto; lia. }
    destruct D as [D1 D2]. rewrite D1. destruct (IH (model_do m s c) ltac:(lia)) as [I1 I2]. change (fold_left (model_do m0) h (model_do m s c)) with (model_run m0 (model_do m s c) h). change (fold_left (model_do m) h (model_do m s c)) with (model_run m (model_do m s c) h). split; [exact I1|lia]. }
  destruct (G h s0 ltac:(lia)) as [G1 G2]. split; [exact G1|]. split; [rewrite G1; reflexivity|]. intros y. rewrite G1. set (s := model_run m s0 h) in *. clearbody s.
  unfold eval, m0, m. cbn [md_fit HalfSpaceTrees plain_model]. unfold bind, modify, gets, lift, ret, raise. cbn [hs_roots hs_first hs_step]. destruct (each_tree _ _) as [[u|e] f]; cbn [fst]; [|reflexivity]. destruct (Nat.eqb_spec w 0); [lia|]. destruct (_ =? 0)%nat; reflexivity.
Qed.
Theorem C142_xstream_zero : forall two one tiny mmh3 p floor log2 K w (s0 : xsst A) (h : list (mcall (list A) Y)) x, xs_step s0 = 0%nat -> (length h < w)%nat ->
  let m0 := xStream (Y := Y) two one tiny mmh3 p floor log2 K 0 in let m := xStream (Y := Y) two one tiny mmh3 p floor log2 K w in
  model_run m0 s0 h = model_run m s0 h /\ eval (md_score m0 x) (model_run m0 s0 h) = eval (md_score m x) (model_run m s0 h) /\
  forall z y, xs_project two one mmh3 p x = Ok z -> eval (md_fit m0 x y) (model_run m0 s0 h) = Raise ZeroDivisionError.
Proof.
  intros two one tiny mmh3 p floor log2 K w s0 h x H0 Hw m0 m. assert (Fit : forall z y (s : xsst A), (xs_step s + 1 < w)%nat -> exec (md_fit m0 z y) s = exec (md_fit m z y) s /\ xs_step (exec (md_fit m z y) s) = (xs_step s + 1)%nat).
  { intros z y s Hs. unfold exec, m0, m. cbn [md_fit xStream plain_model]. unfold bind, modify, gets, lift, ret, raise. cbn [xs_step xs_window xs_chains]. destruct (xs_project _ _ _ _ _) as [zz|e]; cbn [snd xs_step xs_window xs_chains]; [|split; [reflexivity|lia]].
    destruct (Nat.eqb_spec w 0); [lia|]. rewrite (Nat.mod_small (S (xs_step s)) w) by lia. destruct (Nat.eqb_spec (S (xs_step s)) 0); [lia|]. cbn. split; [reflexivity|lia]. }
  assert (Sc : forall z (s : xsst A), exec (md_score m0 z) s = s /\ exec (md_score m z) s = s) by (intros z s; unfold exec, m0, m; cbn [md_score xStream plain_model]; unfold bind, gets, lift, ret; destruct (xs_project _ _ _ _ _); [destruct (xs_score _ _ _ _)|]; split; reflexivity).
  assert (G : forall (h : list (mcall (list A) Y)) (s : xsst A), (xs_step s + length h < w)%nat -> model_run m0 s h = model_run m s h /\ (xs_step (model_run m s h) <= xs_step s + length h)%nat).
  { clear h Hw. induction h as [|c h IH]; intros s Hs; [cbn; split; [reflexivity|lia]|]. cbn [length] in *. cbn [model_run fold_left].
    assert (D : model_do m0 s c = model_do m s c /\ (xs_step (model_do m s c) <= xs_step s + 1)%nat).
    { unfold model_do, exec, model_call. destruct c as [z y|z|z y].
      - destruct (Fit z y s ltac:(lia)) as [F1 F2]. unfold exec in F1, F2. unfold bind, ret. cbn [md_fit] in *. destruct (md_fit m0 z y s) as [[u|e] s1], (md_fit m z y s) as [[u'|e'] s2]; cbn [snd] in *; subst; split; auto; lia.
      - destruct (Sc z s) as [S1 S2]. unfold exec in S1, S2. unfold bind, ret. destruct (md_score m0 z s) as [[u|e] s1], (md_score m z s) as [[u'|e'] s2]; cbn [snd] in *; subst; split; auto; lia.
      - destruct (Fit z y s ltac:(lia)) as [F1 F2]. change (md_fit_score m0 z y) with (default_fit_score (md_fit m0) (md_score m0) z y). change (md_fit_score m z y) with (default_fit_score (md_fit m) (md_score m) z y). unfold default_fit_score, bind, ret. unfold exec in F1, F2.
        destruct (md_fit m0 z y s) as [[u|e] s1], (md_fit m z y s) as [[u'|e'] s2]; cbn [snd] in *; subst s2;
          try (pose proof (proj1 (Sc z s1)) as S1; unfold exec in S1; destruct (md_score m0 z s1) as [[?|?] ?]; cbn [snd] in S1; subst);
          try (pose proof (proj2 (Sc z s1)) as S2; unfold exec in S2; destruct (md_score m z s1) as [[?|?] ?]; cbn [snd] in S2; subst); cbn [snd]; split; auto; lia. }
    destruct D as [D1 D2]. rewrite D1. destruct (IH (model_do m s c) ltac:(lia)) as [I1 I2]. change (fold_left (model_do m0) h (model_do m s c)) with (model_run m0 (model_do m s c) h). change (fold_left (model_do m) h (model_do m s c)) with (model_run m (model_do m s c) h). split; [exact I1|lia]. }
  destruct (G h s0 ltac:(lia)) as [G1 G2]. split; [exact G1|]. split; [rewrite G1; reflexivity|]. intros z y Hz. unfold eval, m0. cbn [md_fit xStream plain_model]. unfold bind, modify, gets, lift, ret, raise. cbn [xs_step xs_window xs_chains]. rewrite Hz. reflexivity.
Qed.
End Windows.
Print Assumptions C142_half_space_trees.
Print Assumptions C142_xstream.
Print Assumptions C142_reference_window.
Print Assumptions C142_half_space_trees_zero.
Print Assumptions C142_xstream_zero.

(** ** ReferenceWindowModel and IForestASD *)
(** Without initial window and with a window size of at most 0 no score can ever be had, and every sliding_size-th fit raises ValueError. *)
Theorem C142_reference_window_never_scores : forall X Y A (d : Detector X Y A) w sl (h : list (mcall X Y)) x y0, (w <= 0)%Z -> (1 <= sl)%Z ->
  let m := ReferenceWindowModelZ d w sl in let s := model_run m (snd (RW_init d None y0)) h in
  eval (md_score m x) s = Raise AttributeError /\
  forall y, eval (md_fit m x y) s = if ((length (fitted_instances h) + 1) mod Z.to_nat sl =? 0)%nat then Raise ValueError else Ok tt.
Proof.
  intros X Y A d w sl h x y0 Hw Hs m s.
  assert (Fit : forall z y (s : rwst X Y (dt_state d)), rw_model s = None -> rw_refX s = None -> let n := (length (rw_curX s) + 1)%nat in
     md_fit m z y s = ((if (n mod Z.to_nat sl =? 0)%nat then Raise ValueError else Ok tt), match y with None => rw_set_cur (rw_curX s ++ [z]) (rw_curY s) s | Some v => rw_set_cur (rw_curX s ++ [z]) (rw_curY s ++ [v]) s end)).
  { intros z y t M1 M2 n. unfold m. cbn [md_fit ReferenceWindowModelZ plain_model]. unfold rwz_fit, bind, modify, gets, ret, raise, lift, pymod.
    set (s2 := match y with None => rw_set_cur (rw_curX t ++ [z]) (rw_curY t) t | Some v => _ end).
    assert (C : rw_curX s2 = rw_curX t ++ [z]) by (unfold s2; destruct y; reflexivity). assert (C2 : rw_refX s2 = None) by (unfold s2; destruct y; cbn; auto).
    destruct (Z.ltb_spec (Z.of_nat (length (rw_curX s2))) w); [lia|]. rewrite andb_false_r. cbn [andb]. destruct (Z.eqb_spec sl 0); [lia|]. rewrite mod_abs by lia. rewrite C, app_length, C2. cbn [length]. replace (Z.abs_nat sl) with (Z.to_nat sl) by lia.
    fold n. replace s2 with (match y with None => rw_set_cur (rw_curX t ++ [z]) (rw_curY t) t | Some v => rw_set_cur (rw_curX t ++ [z]) (rw_curY t ++ [v]) t end) by (unfold s2; destruct y; reflexivity). destruct (_ =? 0)%nat; reflexivity. }
  assert (G : rw_model s = None /\ rw_refX s = None /\ length (rw_curX s) = length (fitted_instances h)).
  { subst s. refine (plain_run_all _ _ _ _ _ _ (fun xs s => rw_model s = None /\ rw_refX s = None /\ length (rw_curX s) = length xs) _ _ h _ _).
    - intros xs t z y (M1 & M2 & M3). change (rwz_fit d w sl z y) with (md_fit m z y). unfold exec. rewrite (Fit z y t M1 M2). cbn [snd]. destruct y; cbn; rewrite !app_length; cbn; repeat split; auto; lia.
    - intros xs t z (M1 & M2 & M3). unfold exec, bind, gets, lift, ret. rewrite M1. cbn. auto.
    - cbn. auto. }
  destruct G as (M1 & M2 & M3). split; [unfold eval, m; cbn; unfold bind, gets, lift; rewrite M1; reflexivity|].
  intros y. unfold eval. rewrite (Fit x y s M1 M2). cbn [fst]. rewrite M3. reflexivity.
Qed.
Print Assumptions C142_reference_window_never_scores.

(** ** ExactStorm *)
(** With a window size of at most 1 every score is 0, whatever was fitted and whatever is scored. *)
Theorem C142_exact_storm : forall Y radius w (h : list (mcall (list R) Y)) x, (w <= 1)%Z ->
  eval (md_score (ExactStorm radius) x) (model_run (ExactStorm radius) (Window_init w) h) = Ok (VScalar 0%R).
Proof.
  intros Y radius w h x Hw. destruct (storm_run Y radius w h) as [E1 E2]. unfold eval. cbn [md_score ExactStorm plain_model]. unfold bind, Window_get, gets, lift, ret. rewrite E2. unfold storm_score.
  assert (L : (length (lastn (Z.to_nat w) (fitted_instances h)) <= 1)%nat) by (unfold lastn; rewrite skipn_length; lia). destruct (lastn _ _) as [|a [|b l]]; try (cbn in L; lia); reflexivity.
Qed.
Print Assumptions C142_exact_storm.

(** ** WindowedMetric *)
(** The pairs of a history reported one by one, errors ignored. *)
Definition reported {Y P A K} `{Num A} (m : Metric Y P A K) (h : list (Y * P)) (s : wmst (me_state m) A) : wmst (me_state m) A :=
  fold_left (fun s q => exec (WindowedMetric_update m (fst q) (snd q)) s) h s.
Definition resize {S A} (w : Z) (s : wmst S A) : wmst S A := mkWM (wm_ignore s) w (wm_metric s) (wm_meter s) (wm_step s) (wm_num s).
Lemma pymod_abs : forall n w, w <> 0%Z -> (n mod w =? 0)%Z = (n mod Z.abs w =? 0)%Z.
Proof.
  intros n w H. destruct (Z.abs_eq_or_opp w) as [Q|Q]; rewrite Q; [reflexivity|]. destruct (Z.eqb_spec (n mod w) 0) as [E|E].
  - symmetry. apply Z.eqb_eq. apply Z.mod_opp_r_z; auto.
  - symmetry. apply Z.eqb_neq. intros E2. apply E. rewrite <- (Z.opp_involutive w). apply Z.mod_opp_r_z; auto. lia.
Qed.
(** A negative window size is its absolute value: the same errors and the same answers after every history. *)
Theorem C142_windowed_metric : forall Y P A K (NA : Num A) (m : Metric Y P A K) w ig kw s0 s1 h, w <> 0%Z ->
  WindowedMetric_init m w ig kw = Ok s0 -> WindowedMetric_init m (Z.abs w) ig kw = Ok s1 ->
  (forall y p, eval (WindowedMetric_update m y p) (reported m h s0) = eval (WindowedMetric_update m y p) (reported m h s1)) /\
  eval (WindowedMetric_get m) (reported m h s0) = eval (WindowedMetric_get m) (reported m h s1).
Proof.
  intros Y P A K NA m w ig kw s0 s1 h Hw E0 E1.
  assert (U : forall y p (s : wmst (me_state m) A), wm_size s = w -> WindowedMetric_update m y p (resize (Z.abs w) s) = (fst (WindowedMetric_update m y p s), resize (Z.abs w) (snd (WindowedMetric_update m y p s))) /\ wm_size (snd (WindowedMetric_update m y p s)) = w).
  { intros y p [ig' w' me mt st nu] Hs. cbn [wm_size] in Hs. subst w'. unfold WindowedMetric_update, bind, modify, zoom, gets, lift, ret, resize, set_wm_step, set_wm_metric, set_wm_num, set_wm_meter. cbn [wm_ignore wm_size wm_metric wm_meter wm_step wm_num].
    destruct (me_update m y p me) as [[u|e] me1]; cbn [wm_ignore wm_size wm_metric wm_meter wm_step wm_num fst snd]; [|auto].
    unfold pymod. destruct (Z.eqb_spec w 0); [lia|]. destruct (Z.eqb_spec (Z.abs w) 0); [lia|]. cbn [wm_ignore wm_size wm_metric wm_meter wm_step wm_num fst snd]. rewrite <- pymod_abs by auto.
    destruct ((st + 1) mod w =? 0)%Z; cbn [wm_ignore wm_size wm_metric wm_meter wm_step wm_num fst snd]; [|auto].
    destruct (me_get m me1) as [[v|e] me2]; cbn [wm_ignore wm_size wm_metric wm_meter wm_step wm_num fst snd]; [|auto].
    destruct (mt_update AverageMeter v mt) as [[u2|e] mt2]; cbn [wm_ignore wm_size wm_metric wm_meter wm_step wm_num fst snd]; [|auto].
    destruct (me_init m []); cbn [wm_ignore wm_size wm_metric wm_meter wm_step wm_num fst snd]; auto. }
  assert (Es : s1 = resize (Z.abs w) s0 /\ wm_size s0 = w) by (unfold WindowedMetric_init in E0, E1; destruct (me_init m kw) as [m0|e]; [|discriminate]; injection E0 as <-; injection E1 as <-; split; reflexivity).
  destruct Es as [-> W]. clear E0 E1.
  assert (Rr : reported m h (resize (Z.abs w) s0) = resize (Z.abs w) (reported m h s0) /\ wm_size (reported m h s0) = w).
  { revert s0 W. induction h as [|q h IH]; intros s0 W; [split; auto|]. unfold reported. cbn [fold_left]. unfold exec at 2 4 6. destruct (U (fst q) (snd q) s0 W) as [U1 U2]. rewrite U1. cbn [snd]. apply IH. exact U2. }
  destruct Rr as [R1 R2]. rewrite R1. set (s := reported m h s0) in *. clearbody s. split.
  - intros y p. unfold eval. rewrite (proj1 (U y p s R2)). reflexivity.
  - destruct s as [ig' w' me mt st nu]. cbn [wm_size] in R2. subst w'. unfold eval, WindowedMetric_get, bind, gets, zoom, lift, ret, resize. cbn [wm_ignore wm_size wm_metric wm_meter wm_step wm_num]. destruct (nu =? 1)%Z.
    + cbn [wm_metric]. destruct (me_get m me) as [? ?]. reflexivity.
    + destruct ig'; cbn [wm_ignore wm_size wm_metric wm_meter wm_step wm_num].
      * destruct (mt_get AverageMeter mt) as [? ?]. reflexivity.
      * unfold pymod. destruct (Z.eqb_spec w 0); [lia|]. destruct (Z.eqb_spec (Z.abs w) 0); [lia|]. cbn [wm_ignore wm_size wm_metric wm_meter wm_step wm_num]. rewrite <- pymod_abs by auto. destruct (negb _).
        -- cbn [wm_metric]. destruct (me_get m me) as [[a|e] me2]; [|reflexivity]. cbn [set_wm_metric wm_meter]. unfold set_wm_metric. cbn [wm_meter]. destruct (mt_get AverageMeter mt) as [[b|e] mt2]; reflexivity.
        -- cbn [wm_meter]. destruct (mt_get AverageMeter mt) as [? ?]. reflexivity.
Qed.
Print Assumptions C142_windowed_metric.
(** With window size 0 every update raises ZeroDivisionError, but the pair is kept: the answer is the metric of the whole history. *)
Theorem C142_windowed_metric_zero : forall Y P K (m : Metric Y P R K) ig kw s0 h, total_updates m -> WindowedMetric_init m 0 ig kw = Ok s0 ->
  (forall y p, eval (WindowedMetric_update m y p) (reported m h s0) = Raise ZeroDivisionError) /\
  eval (WindowedMetric_get m) (reported m h s0) = metric_value m kw h.
Proof.
  intros Y P K m ig kw s0 h T E0. unfold metric_value. unfold WindowedMetric_init in E0. destruct (me_init m kw) as [m0|e]; [|discriminate]. injection E0 as <-.
  assert (U : forall y p (s : wmst (me_state m) R), wm_size s = 0%Z -> WindowedMetric_update m y p s = (Raise ZeroDivisionError, mkWM (wm_ignore s) 0 (exec (me_update m y p) (wm_metric s)) (wm_meter s) (wm_step s + 1) (wm_num s))).
  { intros y p [ig' w' me mt st nu] Hs. cbn [wm_size] in Hs. subst w'. unfold WindowedMetric_update, bind, modify, zoom, gets, lift, ret, set_wm_step, set_wm_metric, exec. cbn [wm_ignore wm_size wm_metric wm_meter wm_step wm_num].
    destruct (T y p me) as [me1 E]. rewrite E. cbn [wm_ignore wm_size wm_metric wm_meter wm_step wm_num snd]. reflexivity. }
  assert (G : forall h (s : wmst (me_state m) R), wm_size s = 0%Z -> wm_num s = 1%Z -> wm_size (reported m h s) = 0%Z /\ wm_num (reported m h s) = 1%Z /\ iterM (fun q => me_update m (fst q) (snd q)) h (wm_metric s) = (Ok tt, wm_metric (reported m h s))).
  { clear h. induction h as [|q h IH]; intros s S1 S2; [repeat split; auto|]. unfold reported. cbn [fold_left iterM]. unfold bind. unfold exec at 2 4 6. rewrite (U (fst q) (snd q) s S1). cbn [snd].
    destruct (T (fst q) (snd q) (wm_metric s)) as [me1 E]. rewrite E. unfold exec. rewrite E. cbn [snd]. apply (IH (mkWM (wm_ignore s) 0 me1 (wm_meter s) (wm_step s + 1) (wm_num s))); auto. }
  destruct (G h (mkWM ig 0 m0 (mt_init AverageMeter) 0 1) eq_refl eq_refl) as (G1 & G2 & G3). set (s := reported m h _) in *. clearbody s. cbn [wm_metric] in G3. rewrite G3. split.
  - intros y p. unfold eval. rewrite (U y p s G1). reflexivity.
  - transitivity (eval (zoom wm_metric (set_wm_metric m) (me_get m)) s); [unfold eval, WindowedMetric_get, bind at 1, gets; rewrite G2; reflexivity|]. unfold eval, zoom. destruct (me_get m (wm_metric s)). reflexivity.
Qed.
Print Assumptions C142_windowed_metric_zero.
(** A window of size -2 on the metric that counts: the average of the windows of two, as with 2. *)
Example C142_ex : let m := SKMetric (K := unit) (fun ys (ps : list nat) => Ok (INR (length ys + length ps))) in
  exists s0 s1, WindowedMetric_init m (-2) true [] = Ok s0 /\ WindowedMetric_init m 2 true [] = Ok s1 /\
  eval (WindowedMetric_get m) (reported m [(1, 0); (0, 1); (1, 1)]%nat s0) = eval (WindowedMetric_get m) (reported m [(1, 0); (0, 1); (1, 1)]%nat s1).
Proof. intros m. do 2 eexists. split; [reflexivity|]. split; [reflexivity|]. apply (C142_windowed_metric _ _ _ _ _ m (-2) true [] _ _ [(1, 0); (0, 1); (1, 1)]%nat); [lia|reflexivity|reflexivity]. Qed.
