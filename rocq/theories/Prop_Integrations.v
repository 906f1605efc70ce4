(** * Properties of the integrations of batch detectors (C57-C60, C82). *)
From Coq Require Import List ZArith Lia Bool Arith.
From Verif Require Import Base Num Spec Model_Utils Model_Core Model_Simple Model_Integrations P_Lists P_Utils P_Models.
Import ListNotations.

(** The label argument of a training call: the labels, or None. *)
Definition label {X Y} (labelled : bool) (p : X * Y) : option Y := if labelled then Some (snd p) else None.
Definition labels_of {X Y} (labelled : bool) (ps : list (X * Y)) : option (list Y) := if labelled then Some (map snd ps) else None.
(** The stream of (instance, label) pairs a history fits, when either all the instances or none have labels. *)
Definition stream_of {X Y} (labelled : bool) (ps : list (X * Y)) (h : list (mcall X Y)) : Prop :=
  fitted_calls h = map (fun p => (fst p, label labelled p)) ps.
(** The steps at which a detector is trained, among the first t. *)
Definition training_steps (due : nat -> bool) (t : nat) : list nat := filter due (seq 1 t).
(** Schedule without an initial window: at each of the first window_size - 1 steps, then at the multiples of sliding_size. *)
Definition due_cold (window_size sliding_size t : nat) : bool := (t <? window_size) || (t mod sliding_size =? 0).
(** Schedule with an initial window. *)
Definition due_warm (sliding_size t : nat) : bool := t mod sliding_size =? 0.
(** Score of a new detector (the k-th one made) after training on the given pairs. *)
Definition trained_score {X Y A} (d : Detector X Y A) (k : nat) (labelled : bool) (train : list (X * Y)) (x : X) : res (pyval A) :=
  rmap VScalar (dt_score d x (exec (dt_fit d (map fst train) (labels_of labelled train)) (dt_new d k))).

Lemma training_steps_S : forall due t, training_steps due (S t) = training_steps due t ++ (if due (S t) then [S t] else []).
Proof. intros. unfold training_steps. rewrite seq_S, filter_app. cbn. destruct (due (S t)); reflexivity. Qed.
Lemma mod_div_step : forall t n, n <> 0 -> (S t mod n = 0 -> S t / n * n = S t) /\ (S t mod n <> 0 -> S t / n * n = t / n * n).
Proof.
  intros t n Hn. pose proof (Nat.div_mod (S t) n Hn). pose proof (Nat.div_mod t n Hn). pose proof (Nat.mod_upper_bound (S t) n Hn). pose proof (Nat.mod_upper_bound t n Hn).
  split; intros; [lia|]. assert (S t / n = t / n) by nia. lia.
Qed.

Section RW.
Variables (X Y A : Type) (d : Detector X Y A) (lab : bool).
Definition L (c : list (X * Y)) : list Y := if lab then map snd c else [].
Lemma L_snoc : forall c p, L (c ++ [p]) = L c ++ (if lab then [snd p] else []).
Proof. intros. unfold L. destruct lab; auto. rewrite map_app. reflexivity. Qed.
(** The object holds the pairs [c] in the current window and [r] in the reference window. *)
Definition holds (c : list (X * Y)) (r : option (list (X * Y))) (i : bool) (s : rwst X Y (dt_state d)) : Prop :=
  rw_curX s = map fst c /\ rw_curY s = L c /\ rw_refX s = option_map (map fst) r /\
  (forall r', r = Some r' -> rw_refY s = labels_of lab r') /\ rw_initial s = i.
Lemma slide_pairs : forall B (f : X * Y -> B) W r c, rw_slide W (Some (map f r)) (map f c) = Ok (map f (lastn W (r ++ c))).
Proof. intros. unfold rw_slide, lastn. rewrite <- map_app, skipn_map, map_length. reflexivity. Qed.
Definition grows (W n : nat) (r : option (list (X * Y))) (i : bool) : bool :=
  negb i && (n <? W) && match r with None => true | Some r' => length r' <? W end.
Definition trained (k : nat) (q : list (X * Y)) := dt_fit d (map fst q) (labels_of lab q) (dt_new d k).
Lemma rw_step : forall W sl c r i s p, holds c r i s -> sl <> 0 ->
  exists s', rw_fit d W sl (fst p) (label lab p) s =
    (if grows W (S (length c)) r i then fst (trained (rw_built s) (c ++ [p])) else
     if S (length c) mod sl =? 0 then match r with None => Raise ValueError | Some r' => fst (trained (rw_built s) (lastn W (r' ++ c ++ [p]))) end else Ok tt, s') /\
   (if grows W (S (length c)) r i then holds (c ++ [p]) (Some (c ++ [p])) i s' /\ rw_model s' = Some (snd (trained (rw_built s) (c ++ [p]))) /\ rw_built s' = S (rw_built s) else
    if S (length c) mod sl =? 0 then
      match r with
      | None => holds (c ++ [p]) None i s' /\ rw_model s' = rw_model s /\ rw_built s' = rw_built s
      | Some r' => let q := lastn W (r' ++ c ++ [p]) in holds [] (Some q) i s' /\ rw_model s' = Some (snd (trained (rw_built s) q)) /\ rw_built s' = S (rw_built s)
      end
    else holds (c ++ [p]) r i s' /\ rw_model s' = rw_model s /\ rw_built s' = rw_built s).
Proof.
  intros W sl c r i s p (E1 & E2 & E3 & E4 & E5) Hsl. destruct s as [cx cy rx ry ini m k]. cbn [rw_curX rw_curY rw_refX rw_refY rw_initial rw_model rw_built] in *. subst cx cy rx ini.
  assert (EX : map fst c ++ [fst p] = map fst (c ++ [p])) by (rewrite map_app; reflexivity).
  assert (EY : (match label lab p with None => L c | Some v => L c ++ [v] end) = L (c ++ [p])) by (rewrite L_snoc; unfold label; destruct lab; [reflexivity|rewrite app_nil_r; reflexivity]).
  set (s1 := mkRW (map fst (c ++ [p])) (L (c ++ [p])) (option_map (map fst) r) ry i m k : rwst X Y (dt_state d)).
  assert (S1 : rw_fit d W sl (fst p) (label lab p) (mkRW (map fst c) (L c) (option_map (map fst) r) ry i m k) =
    (if grows W (S (length c)) r i then
       bind (modify (rw_set_refX (Some (rw_curX s1)))) (fun _ => bind (modify (rw_set_refY (match label lab p with None => None | Some _ => Some (rw_curY s1) end))) (fun _ => rw_fit_model d))
     else if S (length c) mod sl =? 0 then
       bind (lift (rw_slide W (rw_refX s1) (rw_curX s1))) (fun r0 => bind (modify (rw_set_refX (Some r0))) (fun _ =>
       bind (match label lab p with None => ret tt | Some _ => bind (lift (rw_slide W (rw_refY s1) (rw_curY s1))) (fun ry => modify (rw_set_refY (Some ry))) end) (fun _ =>
       bind (modify (rw_set_cur [] [])) (fun _ => rw_fit_model d))))
     else ret tt) s1).
  { unfold rw_fit. unfold bind at 1, modify at 1. unfold bind at 1, modify at 1. unfold rw_set_cur at 1. cbn [rw_curX rw_curY rw_refX rw_refY rw_initial rw_model rw_built].
    replace (match label lab p with None => _ | Some v => _ end) with s1.
    - unfold bind at 1, gets. assert (EL : length (rw_curX s1) = S (length c)) by (cbn; rewrite map_length, app_length; cbn; lia). rewrite EL.
      replace (negb (rw_initial s1) && (S (length c) <? W) && match rw_refX s1 with None => true | Some r0 => length r0 <? W end) with (grows W (S (length c)) r i).
      + destruct (grows W (S (length c)) r i); auto. destruct (Nat.eqb_spec sl 0); [congruence|]. destruct (S (length c) mod sl =? 0); auto.
      + unfold grows, s1. cbn [rw_initial rw_refX]. destruct r; cbn; rewrite ?map_length; reflexivity.
    - unfold s1. rewrite <- EX, <- EY. unfold rw_set_cur. destruct (label lab p); reflexivity. }
  rewrite S1. destruct (grows W (S (length c)) r i) eqn:G.
  - unfold bind, modify, rw_fit_model. unfold s1, rw_set_refX, rw_set_refY. cbn [rw_curX rw_curY rw_refX rw_refY rw_initial rw_model rw_built].
    assert (EL : match label lab p with Some _ => Some (L (c ++ [p])) | None => None end = labels_of lab (c ++ [p])) by (unfold label, L, labels_of; destruct lab; reflexivity).
    rewrite EL. unfold trained. destruct (dt_fit d (map fst (c ++ [p])) (labels_of lab (c ++ [p])) (dt_new d k)) as [rr mm]. eexists. split; [reflexivity|].
    split; [|split; reflexivity]. split; [reflexivity|]. split; [reflexivity|]. split; [reflexivity|]. split; [|reflexivity]. intros r' Q. injection Q as <-. reflexivity.
  - destruct (S (length c) mod sl =? 0).
    + destruct r as [r'|].
      * cbn [option_map] in s1. unfold bind at 1, lift at 1. unfold s1 at 1 2. cbn [rw_refX rw_curX]. rewrite slide_pairs. cbv zeta. set (q := lastn W (r' ++ c ++ [p])).
        unfold bind at 1, modify at 1. unfold bind at 1.
        assert (SY : match label lab p with Some _ => bind (lift (rw_slide W (rw_refY s1) (rw_curY s1))) (fun ry => modify (rw_set_refY (Some ry))) | None => ret tt end (rw_set_refX (Some (map fst q)) s1)
                  = (Ok tt, mkRW (rw_curX s1) (rw_curY s1) (Some (map fst q)) (labels_of lab q) i m k)).
        { assert (ER : ry = labels_of lab r') by (apply E4; auto). unfold label, labels_of, s1, L in *. cbn [rw_refY rw_curY]. destruct lab.
          - rewrite ER. unfold bind, lift. rewrite slide_pairs. reflexivity.
          - rewrite ER. reflexivity. }
        rewrite SY. unfold bind, modify, rw_fit_model, rw_set_cur. cbn [rw_curX rw_curY rw_refX rw_refY rw_initial rw_model rw_built]. unfold trained.
        destruct (dt_fit d (map fst q) (labels_of lab q) (dt_new d k)) as [rr mm]. eexists. split; [reflexivity|].
        split; [|split; reflexivity]. split; [reflexivity|]. split; [unfold L; destruct lab; reflexivity|]. split; [reflexivity|]. split; [|reflexivity]. intros r0 Q. injection Q as <-. reflexivity.
      * unfold bind, lift, s1. cbn. eexists. split; [reflexivity|]. split; [|split; reflexivity]. split; [reflexivity|]. split; [reflexivity|]. split; [reflexivity|]. split; [|reflexivity]. discriminate.
    + eexists. split; [reflexivity|]. split; [|split; reflexivity]. split; [reflexivity|]. split; [reflexivity|]. split; [reflexivity|]. split; [exact E4|reflexivity].
Qed.

(** What is known after fitting the pairs [ps] from an object without initial window. *)
Definition model_is (due : nat -> bool) (k0 : nat) (m0 : option (dt_state d)) (train : nat -> list (X * Y)) (t : nat) (s : rwst X Y (dt_state d)) : Prop :=
  let T := training_steps due t in
  rw_built s = k0 + length T /\
  rw_model s = match T with [] => m0 | _ => Some (snd (trained (k0 + length T - 1) (train (last T 0)))) end.
Lemma model_is_step : forall due k0 m0 train t s s', model_is due k0 m0 train t s ->
  (if due (S t) then rw_model s' = Some (snd (trained (rw_built s) (train (S t)))) /\ rw_built s' = S (rw_built s)
   else rw_model s' = rw_model s /\ rw_built s' = rw_built s) -> model_is due k0 m0 train (S t) s'.
Proof.
  intros due k0 m0 train t s s' [B0 M0] H. unfold model_is. rewrite training_steps_S. destruct (due (S t)); destruct H as [H1 H2].
  - rewrite H1, H2, B0, app_length, last_last. cbn [length]. split; [lia|]. destruct (training_steps due t ++ [S t]) eqn:E; [destruct (training_steps due t); discriminate|].
    do 3 f_equal. lia.
  - rewrite app_nil_r, H1, H2. auto.
Qed.

Lemma training_steps_le : forall due t tau, In tau (training_steps due t) -> 1 <= tau <= t.
Proof. intros due t tau H. apply filter_In in H. destruct H as [H _]. apply in_seq in H. lia. Qed.
Lemma last_in : forall (T : list nat), T <> [] -> In (last T 0) T.
Proof. intros T H. destruct (exists_last H) as (l & a & ->). rewrite last_last. apply in_or_app. right. left. auto. Qed.
Lemma model_is_ext : forall due k0 m0 f g t s, (forall tau, tau <= t -> f tau = g tau) -> model_is due k0 m0 f t s -> model_is due k0 m0 g t s.
Proof.
  intros due k0 m0 f g t s E [H1 H2]. split; auto. rewrite H2. destruct (training_steps due t) as [|a T] eqn:Q; auto. rewrite E; auto.
  apply (training_steps_le due t). rewrite Q. apply last_in. discriminate.
Qed.
Lemma firstn_snoc_le : forall T (ps : list T) p tau, tau <= length ps -> firstn tau ps = firstn tau (ps ++ [p]).
Proof. intros. rewrite firstn_app. replace (tau - length ps) with 0 by lia. cbn. rewrite app_nil_r. reflexivity. Qed.

Section Cold.
Variables (W sl : nat).
Hypotheses (HW : 2 <= W) (Hsl : sl <> 0).
Definition cold_inv (ps : list (X * Y)) (s : rwst X Y (dt_state d)) : Prop :=
  (exists c r, holds c r false s /\
    ((length ps < W /\ c = ps /\ r = match ps with [] => None | _ => Some ps end) \/
     (W <= length ps /\ length ps / sl * sl < W /\ c = ps /\ exists r0, r = Some r0 /\ length r0 = W - 1) \/
     (W <= length ps / sl * sl /\ c = skipn (length ps / sl * sl) ps /\ r = Some (lastn W (firstn (length ps / sl * sl) ps))))).
Lemma div_mul_le : forall t, t / sl * sl <= t.
Proof. intros. pose proof (Nat.div_mod t sl Hsl). lia. Qed.
Lemma cold_step : forall ps s p, cold_inv ps s -> exists s',
  rw_fit d W sl (fst p) (label lab p) s = (if due_cold W sl (S (length ps)) then fst (trained (rw_built s) (lastn W (ps ++ [p]))) else Ok tt, s') /\
  cold_inv (ps ++ [p]) s' /\
  (if due_cold W sl (S (length ps)) then rw_model s' = Some (snd (trained (rw_built s) (lastn W (ps ++ [p])))) /\ rw_built s' = S (rw_built s)
   else rw_model s' = rw_model s /\ rw_built s' = rw_built s).
Proof.
  intros ps s p (c & r & H & C). destruct (rw_step W sl c r false s p H Hsl) as (s' & E & P). exists s'. rewrite E. clear E. revert P. unfold due_cold.
  assert (LS : length (ps ++ [p]) = S (length ps)) by (rewrite app_length; cbn; lia). destruct (mod_div_step (length ps) sl Hsl) as [D1 D2].
  destruct C as [(C1 & -> & ->)|[(C1 & C2 & -> & r0 & -> & C3)|(C1 & -> & ->)]].
  - (* growing *)
    assert (G : grows W (S (length ps)) (match ps with [] => None | _ => Some ps end) false = (S (length ps) <? W)).
    { unfold grows. cbn [negb andb]. destruct (Nat.ltb_spec (S (length ps)) W); auto. cbn [andb]. destruct ps; auto. apply Nat.ltb_lt. auto. }
    rewrite G. destruct (Nat.ltb_spec (S (length ps)) W) as [HL|HL]; cbn [orb].
    + intros (P1 & P2). rewrite lastn_all by lia. split; [reflexivity|]. split; [|exact P2]. exists (ps ++ [p]), (Some (ps ++ [p])). split; auto. left. split; [lia|]. split; auto. destruct ps; reflexivity.
    + assert (EW : W = S (length ps)) by lia. destruct ps as [|p0 ps0]; [cbn in EW; lia|]. set (ps := p0 :: ps0) in *.
      destruct (Nat.eqb_spec (S (length ps) mod sl) 0) as [HM|HM]; cbv zeta.
      * rewrite lastn_app_ge by lia. intros (P1 & P2). split; [reflexivity|]. split; [|exact P2]. exists [], (Some (lastn W (ps ++ [p]))). split; auto. right; right. rewrite LS, (D1 HM). split; [lia|].
        rewrite <- LS, skipn_all, firstn_all. auto.
      * intros (P1 & P2). split; [reflexivity|]. split; [|exact P2]. exists (ps ++ [p]), (Some ps). split; auto. right; left. rewrite LS. split; [lia|]. rewrite (D2 HM). pose proof (div_mul_le (length ps)). split; [lia|]. split; auto. exists ps. split; auto. lia.
  - (* waiting for the first slide *)
    assert (G : grows W (S (length ps)) (Some r0) false = false) by (unfold grows; cbn [negb andb]; destruct (Nat.ltb_spec (S (length ps)) W); [lia|reflexivity]).
    rewrite G. destruct (Nat.ltb_spec (S (length ps)) W) as [HL|HL]; [lia|]. cbn [orb]. destruct (Nat.eqb_spec (S (length ps) mod sl) 0) as [HM|HM]; cbv zeta.
    + rewrite lastn_app_ge by lia. intros (P1 & P2). split; [reflexivity|]. split; [|exact P2]. exists [], (Some (lastn W (ps ++ [p]))). split; auto. right; right. rewrite LS, (D1 HM). split; [lia|].
      rewrite <- LS, skipn_all, firstn_all. auto.
    + intros (P1 & P2). split; [reflexivity|]. split; [|exact P2]. exists (ps ++ [p]), (Some r0). split; auto. right; left. rewrite LS, (D2 HM). split; [lia|]. split; [lia|]. split; auto. exists r0. auto.
  - (* sliding *)
    pose proof (div_mul_le (length ps)) as DL. set (tau := length ps / sl * sl) in *.
    assert (LR : length (lastn W (firstn tau ps)) = W) by (rewrite lastn_length, firstn_length; lia).
    assert (G : grows W (S (length (skipn tau ps))) (Some (lastn W (firstn tau ps))) false = false).
    { unfold grows. rewrite LR, Nat.ltb_irrefl, andb_false_r. reflexivity. }
    rewrite G. destruct (Nat.ltb_spec (S (length ps)) W) as [HL|HL]; [lia|]. cbn [orb].
    assert (EM : S (length (skipn tau ps)) mod sl = S (length ps) mod sl).
    { rewrite skipn_length. replace (S (length ps)) with (S (length ps - tau) + (length ps / sl) * sl) by (unfold tau in *; lia). rewrite Nat.mod_add by auto. reflexivity. }
    rewrite EM. destruct (Nat.eqb_spec (S (length ps) mod sl) 0) as [HM|HM]; cbv zeta.
    + rewrite lastn_app_lastn, app_assoc, firstn_skipn. intros (P1 & P2). split; [reflexivity|]. split; [|exact P2]. exists [], (Some (lastn W (ps ++ [p]))). split; auto. right; right. rewrite LS, (D1 HM). split; [lia|].
      rewrite <- LS, skipn_all, firstn_all. auto.
    + intros (P1 & P2). split; [reflexivity|]. split; [|exact P2]. exists (skipn tau ps ++ [p]), (Some (lastn W (firstn tau ps))). split; auto. right; right. rewrite LS, (D2 HM). fold tau. split; [lia|].
      rewrite skipn_app, firstn_app. replace (tau - length ps) with 0 by lia. cbn [skipn firstn]. rewrite app_nil_r. auto.
Qed.
Definition cold_full (ps : list (X * Y)) (s : rwst X Y (dt_state d)) : Prop :=
  cold_inv ps s /\ model_is (due_cold W sl) 0 None (fun tau => lastn W (firstn tau ps)) (length ps) s.
Lemma cold_full_step : forall ps s p, cold_full ps s -> exists s',
  rw_fit d W sl (fst p) (label lab p) s = (if due_cold W sl (S (length ps)) then fst (trained (rw_built s) (lastn W (ps ++ [p]))) else Ok tt, s') /\ cold_full (ps ++ [p]) s'.
Proof.
  intros ps s p [H1 H2]. destruct (cold_step ps s p H1) as (s' & E & I & P). exists s'. split; auto. split; auto.
  rewrite app_length. cbn [length]. rewrite Nat.add_1_r. apply model_is_step with (s := s).
  - eapply model_is_ext; [|exact H2]. intros tau Ht. cbn. f_equal. apply firstn_snoc_le. auto.
  - rewrite (firstn_all2 (n := S (length ps)) (ps ++ [p])) by (rewrite app_length; cbn; lia). exact P.
Qed.
End Cold.

Section Warm.
Variables (W sl : nat) (init : list (X * Y)).
Hypotheses (Hsl : sl <> 0).
Definition warm_inv (ps : list (X * Y)) (s : rwst X Y (dt_state d)) : Prop :=
  let tau := length ps / sl * sl in
  holds (skipn tau ps) (Some (if tau =? 0 then init else lastn W (init ++ firstn tau ps))) true s.
Lemma warm_step : forall ps s p, warm_inv ps s -> exists s',
  rw_fit d W sl (fst p) (label lab p) s = (if due_warm sl (S (length ps)) then fst (trained (rw_built s) (lastn W (init ++ ps ++ [p]))) else Ok tt, s') /\
  warm_inv (ps ++ [p]) s' /\
  (if due_warm sl (S (length ps)) then rw_model s' = Some (snd (trained (rw_built s) (lastn W (init ++ ps ++ [p])))) /\ rw_built s' = S (rw_built s)
   else rw_model s' = rw_model s /\ rw_built s' = rw_built s).
Proof.
  intros ps s p H. unfold warm_inv in H. cbv zeta in H. destruct (rw_step W sl _ _ true s p H Hsl) as (s' & E & P). exists s'. rewrite E. clear E. revert P. unfold due_warm, warm_inv.
  assert (LS : length (ps ++ [p]) = S (length ps)) by (rewrite app_length; cbn; lia). destruct (mod_div_step (length ps) sl Hsl) as [D1 D2].
  assert (DL : length ps / sl * sl <= length ps) by (pose proof (Nat.div_mod (length ps) sl Hsl); lia). set (tau := length ps / sl * sl) in *. rewrite LS.
  cbn [grows negb andb].
  assert (EM : S (length (skipn tau ps)) mod sl = S (length ps) mod sl).
  { rewrite skipn_length. replace (S (length ps)) with (S (length ps - tau) + (length ps / sl) * sl) by (unfold tau in *; lia). rewrite Nat.mod_add by auto. reflexivity. }
  rewrite EM. cbv zeta. destruct (Nat.eqb_spec (S (length ps) mod sl) 0) as [HM|HM].
  - assert (EQ : lastn W ((if tau =? 0 then init else lastn W (init ++ firstn tau ps)) ++ skipn tau ps ++ [p]) = lastn W (init ++ ps ++ [p])).
    { destruct (Nat.eqb_spec tau 0) as [T0|T0].
      - rewrite T0. reflexivity.
      - rewrite lastn_app_lastn, <- app_assoc. do 2 f_equal. rewrite app_assoc, firstn_skipn. reflexivity. }
    rewrite EQ. intros (P1 & P2). split; [reflexivity|]. split; [|exact P2]. rewrite (D1 HM). cbn [Nat.eqb]. rewrite <- LS, skipn_all, firstn_all. exact P1.
  - intros (P1 & P2). split; [reflexivity|]. split; [|exact P2]. rewrite (D2 HM). fold tau.
    rewrite skipn_app, firstn_app. replace (tau - length ps) with 0 by lia. cbn [skipn firstn]. rewrite app_nil_r. exact P1.
Qed.
Definition warm_full (ps : list (X * Y)) (s : rwst X Y (dt_state d)) : Prop :=
  warm_inv ps s /\ model_is (due_warm sl) 1 (Some (snd (trained 0 init))) (fun tau => lastn W (init ++ firstn tau ps)) (length ps) s.
Lemma warm_full_step : forall ps s p, warm_full ps s -> exists s',
  rw_fit d W sl (fst p) (label lab p) s = (if due_warm sl (S (length ps)) then fst (trained (rw_built s) (lastn W (init ++ ps ++ [p]))) else Ok tt, s') /\ warm_full (ps ++ [p]) s'.
Proof.
  intros ps s p [H1 H2]. destruct (warm_step ps s p H1) as (s' & E & I & P). exists s'. split; auto. split; auto.
  rewrite app_length. cbn [length]. rewrite Nat.add_1_r. apply model_is_step with (s := s).
  - eapply model_is_ext; [|exact H2]. intros tau Ht. cbn. do 2 f_equal. apply firstn_snoc_le. auto.
  - rewrite (firstn_all2 (n := S (length ps)) (ps ++ [p])) by (rewrite app_length; cbn; lia). exact P.
Qed.
End Warm.
End RW.

(** Runs: from invariants preserved by the fits of a uniformly labelled stream. *)
Lemma rw_run : forall X Y A (d : Detector X Y A) W sl lab (Inv : list (X * Y) -> rwst X Y (dt_state d) -> Prop),
  (forall ps s p, Inv ps s -> Inv (ps ++ [p]) (exec (rw_fit d W sl (fst p) (label lab p)) s)) ->
  forall h ps s, stream_of lab ps h -> Inv [] s -> Inv ps (model_run (ReferenceWindowModel d W sl) s h).
Proof.
  intros X Y A d W sl lab Inv Hstep h ps s Hs H0.
  pose proof (plain_run_inv X Y A (X * option Y) (rwst X Y (dt_state d)) (rw_fit d W sl) (fun x => bind (gets rw_model) (fun m => lift (pyod_score d m x)))
    (fun x y => [(x, y)]) (fun l s' => forall ps', l = map (fun p => (fst p, label lab p)) ps' -> Inv ps' s')) as G.
  specialize (G) as G'. refine (G' _ _ h [] s _ ps _).
  - intros l s1 x y Hl ps' E. destruct ps' as [|p ps'] using rev_ind; [destruct l; discriminate|]. rewrite map_app in E. cbn in E. apply app_inj_tail in E. destruct E as [E1 E2].
    injection E2 as -> ->. apply Hstep. apply Hl. auto.
  - intros l s1 x Hl ps' E. apply Hl. auto.
  - intros [|p ps'] E; [auto|discriminate].
  - cbn [app]. unfold stream_of in Hs. rewrite <- Hs. clear. induction (fitted_calls h) as [|[x y] l IH]; auto. cbn. rewrite IH. reflexivity.
Qed.

(** ** C57, C58 *)
(** Without initial window: what is used for scoring after any history that fits [ps] (labelled or not): the detector trained
    at the last due step tau <= |ps|, on the last window_size pairs seen at that step, each instance with its own label. *)
Theorem C57_cold_start_schedule : forall X Y A (d : Detector X Y A) W sl lab y0 h ps x, 2 <= W -> 1 <= sl -> stream_of lab ps h ->
  eval (md_score (ReferenceWindowModel d W sl) x) (model_run (ReferenceWindowModel d W sl) (snd (RW_init d None y0)) h) =
  match training_steps (due_cold W sl) (length ps) with
  | [] => Raise AttributeError
  | T => trained_score d (length T - 1) lab (lastn W (firstn (last T 0) ps)) x
  end.
Proof.
  intros X Y A d W sl lab y0 h ps x HW Hsl Hs. assert (Hsl' : sl <> 0) by lia.
  pose proof (rw_run X Y A d W sl lab (cold_full X Y A d lab W sl)) as G.
  assert (F : cold_full X Y A d lab W sl ps (model_run (ReferenceWindowModel d W sl) (snd (RW_init d None y0)) h)).
  { apply G; auto.
    - intros ps' s p H. destruct (cold_full_step X Y A d lab W sl HW Hsl' ps' s p H) as (s' & E & H'). unfold exec. rewrite E. auto.
    - split.
      + exists [], None. split; [|left; cbn; split; [lia|auto]]. split; [reflexivity|]. split; [unfold L; destruct lab; reflexivity|]. split; [reflexivity|]. split; [discriminate|reflexivity].
      + split; reflexivity. }
  destruct F as [_ [_ M]]. set (s := model_run _ _ h) in *. unfold eval. cbn. unfold bind, gets, lift, pyod_score. rewrite M.
  destruct (training_steps (due_cold W sl) (length ps)) as [|a T]; reflexivity.
Qed.
Print Assumptions C57_cold_start_schedule.
(** With an initial window (labelled exactly if the stream is). *)
Theorem C57_warm_start_schedule : forall X Y A (d : Detector X Y A) W sl lab init h ps x, 1 <= sl -> stream_of lab ps h ->
  eval (md_score (ReferenceWindowModel d W sl) x) (model_run (ReferenceWindowModel d W sl) (snd (RW_init d (Some (map fst init)) (labels_of lab init))) h) =
  match training_steps (due_warm sl) (length ps) with
  | [] => trained_score d 0 lab init x
  | T => trained_score d (length T) lab (lastn W (init ++ firstn (last T 0) ps)) x
  end.
Proof.
  intros X Y A d W sl lab init h ps x Hsl Hs. assert (Hsl' : sl <> 0) by lia.
  pose proof (rw_run X Y A d W sl lab (warm_full X Y A d lab W sl init)) as G.
  assert (F : warm_full X Y A d lab W sl init ps (model_run (ReferenceWindowModel d W sl) (snd (RW_init d (Some (map fst init)) (labels_of lab init))) h)).
  { apply G; auto.
    - intros ps' s p H. destruct (warm_full_step X Y A d lab W sl init Hsl' ps' s p H) as (s' & E & H'). unfold exec. rewrite E. auto.
    - unfold RW_init, rw_fit_model. cbn [rw_refX rw_refY rw_built]. destruct (dt_fit d (map fst init) (labels_of lab init) (dt_new d 0)) as [r m] eqn:E. cbn [snd]. split.
      + unfold warm_inv. cbn [length]. rewrite Nat.div_0_l by auto. cbn. split; [reflexivity|]. split; [unfold L; destruct lab; reflexivity|]. split; [reflexivity|]. split; [|reflexivity]. intros r' Q. injection Q as <-. reflexivity.
      + split; [reflexivity|]. cbn. unfold trained. rewrite E. reflexivity. }
  destruct F as [_ [_ M]]. set (s := model_run _ _ h) in *. unfold eval. cbn. unfold bind, gets, lift, pyod_score. rewrite M.
  destruct (training_steps (due_warm sl) (length ps)) as [|a T]; [reflexivity|]. unfold trained_score, exec, trained. do 4 f_equal.
Qed.
Print Assumptions C57_warm_start_schedule.

(** At a due step fit_partial does what the base detector's fit does (including its exception); at the other steps it succeeds. *)
Theorem C57_fit_outcome : forall X Y A (d : Detector X Y A) W sl lab init h ps p, 1 <= sl -> stream_of lab ps h ->
  (2 <= W -> exists k, eval (md_fit (ReferenceWindowModel d W sl) (fst p) (label lab p)) (model_run (ReferenceWindowModel d W sl) (snd (RW_init d None None)) h) =
    if due_cold W sl (S (length ps)) then let q := lastn W (ps ++ [p]) in eval (dt_fit d (map fst q) (labels_of lab q)) (dt_new d k) else Ok tt) /\
  exists k, eval (md_fit (ReferenceWindowModel d W sl) (fst p) (label lab p)) (model_run (ReferenceWindowModel d W sl) (snd (RW_init d (Some (map fst init)) (labels_of lab init))) h) =
    if due_warm sl (S (length ps)) then let q := lastn W (init ++ ps ++ [p]) in eval (dt_fit d (map fst q) (labels_of lab q)) (dt_new d k) else Ok tt.
Proof.
  intros X Y A d W sl lab init h ps p Hsl Hs. assert (Hsl' : sl <> 0) by lia. split.
  - intros HW. assert (F : cold_full X Y A d lab W sl ps (model_run (ReferenceWindowModel d W sl) (snd (RW_init d None None)) h)).
    { apply (rw_run X Y A d W sl lab); auto.
      - intros ps' s p' H. destruct (cold_full_step X Y A d lab W sl HW Hsl' ps' s p' H) as (s' & E & H'). unfold exec. rewrite E. auto.
      - split; [|split; reflexivity]. exists [], None. split; [|left; cbn; split; [lia|auto]]. split; [reflexivity|]. split; [unfold L; destruct lab; reflexivity|]. split; [reflexivity|]. split; [discriminate|reflexivity]. }
    destruct (cold_full_step X Y A d lab W sl HW Hsl' ps _ p F) as (s' & E & _). eexists. unfold eval at 1. cbn [md_fit ReferenceWindowModel plain_model]. rewrite E. cbv zeta. reflexivity.
  - assert (F : warm_full X Y A d lab W sl init ps (model_run (ReferenceWindowModel d W sl) (snd (RW_init d (Some (map fst init)) (labels_of lab init))) h)).
    { apply (rw_run X Y A d W sl lab); auto.
      - intros ps' s p' H. destruct (warm_full_step X Y A d lab W sl init Hsl' ps' s p' H) as (s' & E & H'). unfold exec. rewrite E. auto.
      - unfold RW_init, rw_fit_model. cbn [rw_refX rw_refY rw_built]. destruct (dt_fit d (map fst init) (labels_of lab init) (dt_new d 0)) as [r m] eqn:E. cbn [snd]. split.
        + unfold warm_inv. cbn [length]. rewrite Nat.div_0_l by auto. cbn. split; [reflexivity|]. split; [unfold L; destruct lab; reflexivity|]. split; [reflexivity|]. split; [|reflexivity]. intros r' Q. injection Q as <-. reflexivity.
        + split; [reflexivity|]. cbn. unfold trained. rewrite E. reflexivity. }
    destruct (warm_full_step X Y A d lab W sl init Hsl' ps _ p F) as (s' & E & _). eexists. unfold eval at 1. cbn [md_fit ReferenceWindowModel plain_model]. rewrite E. cbv zeta. reflexivity.
Qed.
Print Assumptions C57_fit_outcome.
(** A detector that remembers which object it is and what it was trained on, and answers with that. *)
Definition recorder (X Y : Type) : Detector X Y (nat * list X * option (list Y)) :=
  {| dt_state := nat * list X * option (list Y); dt_new := fun k => (k, [], None);
     dt_fit := fun xs ys s => (Ok tt, (fst (fst s), xs, ys)); dt_score := fun _ s => Ok s |}.
Definition fits {X Y} (labelled : bool) (ps : list (X * Y)) : list (mcall X Y) := map (fun p => CFit (fst p) (label labelled p)) ps.
Lemma fits_stream : forall X Y lab (ps : list (X * Y)), stream_of lab ps (fits lab ps).
Proof. intros. unfold stream_of, fits, fitted_calls. induction ps; cbn; auto. f_equal. auto. Qed.
Example C57_ex : let m := ReferenceWindowModel (recorder nat nat) 5 2 in
  map (fun t => eval (md_score m 0) (model_run m (snd (RW_init (recorder nat nat) None None)) (fits false (map (fun i => (i, i)) (seq 1 t))))) [3; 4; 5; 6; 7; 8] =
  map (fun p => Ok (VScalar p)) [(2, [1;2;3], None); (3, [1;2;3;4], None); (3, [1;2;3;4], None); (4, [2;3;4;5;6], None); (4, [2;3;4;5;6], None); (5, [4;5;6;7;8], None)].
Proof. reflexivity. Qed.
(** IForestASD: the same with sliding_size = window_size and no initial labels. *)
Theorem C57_iforest_asd : forall X Y A (d : Detector X Y A) n init h ps x, 2 <= n -> stream_of false ps h ->
  eval (md_score (IForestASD d n) x) (model_run (IForestASD d n) (snd (IForestASD_init d None)) h) =
    match training_steps (fun t => (t <? n) || (t mod n =? 0)) (length ps) with [] => Raise AttributeError | T => trained_score d (length T - 1) false (lastn n (firstn (last T 0) ps)) x end /\
  eval (md_score (IForestASD d n) x) (model_run (IForestASD d n) (snd (IForestASD_init d (Some (map fst (init : list (X * Y)))))) h) =
    match training_steps (fun t => t mod n =? 0) (length ps) with [] => trained_score d 0 false init x | T => trained_score d (length T) false (lastn n (init ++ firstn (last T 0) ps)) x end.
Proof.
  intros X Y A d n init h ps x Hn Hs. split.
  - apply (C57_cold_start_schedule X Y A d n n false None h ps x); auto. lia.
  - apply (C57_warm_start_schedule X Y A d n n false init h ps x); auto. lia.
Qed.
Print Assumptions C57_iforest_asd.

Theorem C58_labels_belong_to_instances : forall X Y A (d : Detector X Y A) W sl init h ps x, 1 <= sl -> stream_of true ps h ->
  let answer x0 y0 := eval (md_score (ReferenceWindowModel d W sl) x) (model_run (ReferenceWindowModel d W sl) (snd (RW_init d x0 y0)) h) in
  (exists pre q post k, init ++ ps = pre ++ q ++ post /\ length q <= max W (length init) /\
     answer (Some (map fst init)) (Some (map snd init)) = rmap VScalar (dt_score d x (exec (dt_fit d (map fst q) (Some (map snd q))) (dt_new d k)))) /\
  (2 <= W -> ps <> [] -> exists pre q post k, ps = pre ++ q ++ post /\ q <> [] /\ length q <= W /\
     answer None None = rmap VScalar (dt_score d x (exec (dt_fit d (map fst q) (Some (map snd q))) (dt_new d k)))).
Proof.
  intros X Y A d W sl init h ps x Hsl Hs. cbv zeta.
  assert (SP : forall T (l : list T) n, l = firstn (length l - n) l ++ lastn n l ++ []) by (intros; unfold lastn; rewrite app_nil_r, firstn_skipn; reflexivity).
  split.
  - pose proof (C57_warm_start_schedule X Y A d W sl true init h ps x Hsl Hs) as C. cbn [labels_of] in C. rewrite C. destruct (training_steps (due_warm sl) (length ps)) as [|a T].
    + exists [], init, ps, 0. split; [reflexivity|]. split; [lia|]. reflexivity.
    + set (tau := last (a :: T) 0). exists (firstn (length (init ++ firstn tau ps) - W) (init ++ firstn tau ps)), (lastn W (init ++ firstn tau ps)), (skipn tau ps), (length (a :: T)).
      split; [|split].
      * rewrite app_assoc. unfold lastn. rewrite firstn_skipn, <- app_assoc, firstn_skipn. reflexivity.
      * rewrite lastn_length. lia.
      * reflexivity.
  - intros HW NE. rewrite (C57_cold_start_schedule X Y A d W sl true None h ps x HW Hsl Hs). destruct (training_steps (due_cold W sl) (length ps)) as [|a T] eqn:ET.
    + exfalso. assert (I : In 1 (training_steps (due_cold W sl) (length ps))).
      { apply filter_In. split; [apply in_seq; destruct ps; [congruence|cbn; lia]|]. unfold due_cold. destruct (Nat.ltb_spec 1 W); [reflexivity|lia]. }
      rewrite ET in I. contradiction.
    + assert (TB : 1 <= last (a :: T) 0 <= length ps) by (apply (training_steps_le (due_cold W sl)); rewrite ET; apply last_in; discriminate).
      set (tau := last (a :: T) 0) in *. exists (firstn (length (firstn tau ps) - W) (firstn tau ps)), (lastn W (firstn tau ps)), (skipn tau ps), (length (a :: T) - 1).
      split; [|split; [|split]].
      * rewrite app_assoc. unfold lastn. rewrite !firstn_skipn. reflexivity.
      * apply lastn_nonempty; [lia|]. intros Q. assert (Q0 : length (firstn tau ps) = 0) by (rewrite Q; reflexivity). rewrite firstn_length in Q0. lia.
      * rewrite lastn_length. lia.
      * reflexivity.
Qed.
Print Assumptions C58_labels_belong_to_instances.

(** ** C59 *)
(** An initially labelled window and an unlabelled stream: instances are always trained with the labels of the initial window. *)
Lemma stale_run : forall X Y A (d : Detector X Y A) W sl x0 (y0 : list Y) h (ps : list (X * Y)), 1 <= sl -> stream_of false ps h ->
  let s := model_run (ReferenceWindowModel d W sl) (snd (RW_init d (Some x0) (Some y0))) h in
  rw_refY s = Some y0 /\ rw_initial s = true /\ rw_curX s = map fst (skipn (length ps / sl * sl) ps) /\
  rw_refX s = Some (if length ps / sl * sl =? 0 then x0 else lastn W (x0 ++ map fst (firstn (length ps / sl * sl) ps))) /\
  model_is X (list Y) A (mkDetector X (list Y) A (dt_state d) (dt_new d) (fun xs _ => dt_fit d xs (Some y0)) (dt_score d)) false (due_warm sl) 1
    (Some (exec (dt_fit d x0 (Some y0)) (dt_new d 0))) (fun tau => map (fun x => (x, y0)) (lastn W (x0 ++ map fst (firstn tau ps)))) (length ps)
    (mkRW (rw_curX s) [] (rw_refX s) None true (rw_model s) (rw_built s)).
Proof.
  intros X Y A d W sl x0 y0 h ps Hsl Hs. cbv zeta. assert (Hsl' : sl <> 0) by lia.
  set (Inv := fun (ps : list (X * Y)) (s : rwst X Y (dt_state d)) => rw_refY s = Some y0 /\ rw_initial s = true /\ rw_curX s = map fst (skipn (length ps / sl * sl) ps) /\
  rw_refX s = Some (if length ps / sl * sl =? 0 then x0 else lastn W (x0 ++ map fst (firstn (length ps / sl * sl) ps))) /\
  model_is X (list Y) A (mkDetector X (list Y) A (dt_state d) (dt_new d) (fun xs _ => dt_fit d xs (Some y0)) (dt_score d)) false (due_warm sl) 1
    (Some (exec (dt_fit d x0 (Some y0)) (dt_new d 0))) (fun tau => map (fun x => (x, y0)) (lastn W (x0 ++ map fst (firstn tau ps)))) (length ps)
    (mkRW (rw_curX s) [] (rw_refX s) None true (rw_model s) (rw_built s))).
  apply (rw_run X Y A d W sl false Inv); auto.
  - clear h ps Hs. intros ps s p (H1 & H2 & H3 & H4 & H5). destruct s as [cx cy rx ry ini m k]. cbn [rw_curX rw_curY rw_refX rw_refY rw_initial rw_model rw_built] in *. subst cx rx ry ini.
    assert (LS : length (ps ++ [p]) = S (length ps)) by (rewrite app_length; cbn; lia). destruct (mod_div_step (length ps) sl Hsl') as [D1 D2].
    assert (DL : length ps / sl * sl <= length ps) by (pose proof (Nat.div_mod (length ps) sl Hsl'); lia). unfold Inv. rewrite LS. set (tau := length ps / sl * sl) in *.
    assert (EM : S (length (skipn tau ps)) mod sl = S (length ps) mod sl).
    { rewrite skipn_length. replace (S (length ps)) with (S (length ps - tau) + (length ps / sl) * sl) by (unfold tau in *; lia). rewrite Nat.mod_add by auto. reflexivity. }
    unfold exec, rw_fit, bind, modify, gets, lift, label, rw_set_cur. cbn [rw_curX rw_curY rw_refX rw_refY rw_initial rw_model rw_built negb andb].
    rewrite app_length, map_length. cbn [length]. rewrite Nat.add_1_r, EM. destruct (Nat.eqb_spec sl 0); [congruence|].
    assert (EQ : lastn W ((if tau =? 0 then x0 else lastn W (x0 ++ map fst (firstn tau ps))) ++ map fst (skipn tau ps) ++ [fst p]) = lastn W (x0 ++ map fst (ps ++ [p]))).
    { assert (E3 : map fst (ps ++ [p]) = map fst (firstn tau ps) ++ map fst (skipn tau ps) ++ [fst p]) by (rewrite <- (firstn_skipn tau ps) at 1; rewrite !map_app, <- app_assoc; reflexivity).
      rewrite E3. destruct (Nat.eqb_spec tau 0) as [T0|T0]; [rewrite T0; reflexivity|]. rewrite lastn_app_lastn, <- app_assoc. reflexivity. }
    destruct (Nat.eqb_spec (S (length ps) mod sl) 0) as [HM|HM].
    + unfold rw_slide. rewrite !(fun l => eq_refl : skipn (length l - W) l = lastn W l). rewrite EQ. unfold rw_set_refX, ret, rw_fit_model. cbn [rw_curX rw_curY rw_refX rw_refY rw_initial rw_model rw_built].
      destruct (dt_fit d (lastn W (x0 ++ map fst (ps ++ [p]))) (Some y0) (dt_new d k)) as [rr mm] eqn:EF. cbn [snd rw_set_model rw_curX rw_curY rw_refX rw_refY rw_initial rw_model rw_built].
      rewrite (D1 HM), <- LS, skipn_all, firstn_all. split; [reflexivity|]. split; [reflexivity|]. split; [reflexivity|]. split; [rewrite LS; reflexivity|]. rewrite LS.
      eapply model_is_step.
      * eapply model_is_ext; [|exact H5]. intros tau' Ht. cbn. rewrite (firstn_snoc_le _ ps p) by auto. reflexivity.
      * unfold due_warm. rewrite HM. cbn [Nat.eqb]. cbn [rw_model rw_built]. split; [|reflexivity]. unfold trained. cbn [dt_fit dt_new]. rewrite map_map. cbn [fst]. rewrite map_id, <- LS, firstn_all, EF. reflexivity.
    + cbn [snd rw_curX rw_curY rw_refX rw_refY rw_initial rw_model rw_built ret]. rewrite (D2 HM). fold tau. rewrite skipn_app, firstn_app. replace (tau - length ps) with 0 by lia. cbn [skipn firstn]. rewrite app_nil_r, map_app.
      split; [reflexivity|]. split; [reflexivity|]. split; [reflexivity|]. split; [reflexivity|].
      eapply model_is_step.
      * eapply model_is_ext; [|exact H5]. intros tau' Ht. cbn. rewrite (firstn_snoc_le _ ps p) by auto. reflexivity.
      * unfold due_warm. destruct (Nat.eqb_spec (S (length ps) mod sl) 0); [congruence|]. split; reflexivity.
  - unfold Inv. cbn [length]. rewrite Nat.div_0_l by auto. cbn. unfold RW_init, rw_fit_model, exec. cbn [rw_refX rw_refY rw_built]. destruct (dt_fit d x0 (Some y0) (dt_new d 0)) as [r m] eqn:E. cbn.
    split; [reflexivity|]. split; [reflexivity|]. split; [reflexivity|]. split; [reflexivity|]. split; reflexivity.
Qed.
Theorem C59_stale_labels : forall X Y A (d : Detector X Y A) W sl x0 (y0 : list Y) h (ps : list (X * Y)) x, 1 <= sl -> stream_of false ps h ->
  eval (md_score (ReferenceWindowModel d W sl) x) (model_run (ReferenceWindowModel d W sl) (snd (RW_init d (Some x0) (Some y0))) h) =
  match training_steps (due_warm sl) (length ps) with
  | [] => rmap VScalar (dt_score d x (exec (dt_fit d x0 (Some y0)) (dt_new d 0)))
  | T => rmap VScalar (dt_score d x (exec (dt_fit d (lastn W (x0 ++ map fst (firstn (last T 0) ps))) (Some y0)) (dt_new d (length T))))
  end.
Proof.
  intros X Y A d W sl x0 y0 h ps x Hsl Hs. destruct (stale_run X Y A d W sl x0 y0 h ps Hsl Hs) as (_ & _ & _ & _ & _ & M). set (s := model_run _ _ h) in *. unfold eval. cbn. unfold bind, gets, lift, pyod_score.
  cbn [rw_model] in M. rewrite M. destruct (training_steps (due_warm sl) (length ps)) as [|a T]; [reflexivity|]. unfold trained, exec. cbn [dt_fit dt_new fst snd]. rewrite map_map. cbn [fst]. rewrite map_id. reflexivity.
Qed.
Print Assumptions C59_stale_labels.
Theorem C59_labels_stay_aligned_refuted : exists (x0 y0 : list nat) W sl (stream : list nat),
  let m := ReferenceWindowModel (recorder nat nat) W sl in
  eval (md_score m 0) (model_run m (snd (RW_init (recorder nat nat) (Some x0) (Some y0))) (map (fun x => CFit x None) stream)) = Ok (VScalar (1, stream, Some y0)) /\ forall x, In x stream -> ~ In x x0.
Proof. exists [10; 11], [0; 1], 2, 2, [20; 21]. split; [reflexivity|]. cbn. lia. Qed.
Print Assumptions C59_labels_stay_aligned_refuted.
(** An unlabelled initial window and a labelled stream: every due fit raises ValueError and the model is never retrained. *)
Theorem C59_unlabelled_start_never_retrains : forall X Y A (d : Detector X Y A) W sl x0 h (ps : list (X * Y)) x, 1 <= sl -> stream_of true ps h ->
  let s := model_run (ReferenceWindowModel d W sl) (snd (RW_init d (Some x0) None)) h in
  eval (md_score (ReferenceWindowModel d W sl) x) s = rmap VScalar (dt_score d x (exec (dt_fit d x0 None) (dt_new d 0))) /\
  (forall y, eval (md_fit (ReferenceWindowModel d W sl) x (Some y)) s = if S (length ps) mod sl =? 0 then Raise ValueError else Ok tt).
Proof.
  intros X Y A d W sl x0 h ps x Hsl Hs. cbv zeta. assert (Hsl' : sl <> 0) by lia.
  set (Inv := fun (ps : list (X * Y)) (s : rwst X Y (dt_state d)) => length (rw_curX s) = length ps /\ rw_initial s = true /\ rw_refY s = None /\ rw_refX s <> None /\ rw_model s = Some (exec (dt_fit d x0 None) (dt_new d 0))).
  assert (ST : forall ps s x y, Inv ps s -> exists s', rw_fit d W sl x (Some y) s = (if S (length ps) mod sl =? 0 then Raise ValueError else Ok tt, s') /\ Inv (ps ++ [(x, y)]) s').
  { clear - Hsl'. intros ps s x y (H1 & H2 & H3 & H4 & H5). destruct s as [cx cy rx ry ini m k]. cbn [rw_curX rw_curY rw_refX rw_refY rw_initial rw_model rw_built] in *. subst ini ry m. destruct rx as [rx|]; [|congruence].
    unfold rw_fit, bind, modify, gets, lift, rw_set_cur. cbn [rw_curX rw_curY rw_refX rw_refY rw_initial rw_model rw_built negb andb].
    rewrite app_length. cbn [length]. rewrite H1, Nat.add_1_r. destruct (Nat.eqb_spec sl 0) as [Q|Q]; [congruence|].
    destruct (S (length ps) mod sl =? 0); cbn; eexists; (split; [reflexivity|]); unfold Inv; cbn [rw_curX rw_refX rw_refY rw_initial rw_model rw_set_refX]; rewrite !app_length; cbn [length]; (split; [lia|]); (split; [reflexivity|]); (split; [reflexivity|]); (split; [discriminate|reflexivity]). }
  assert (I : Inv ps (model_run (ReferenceWindowModel d W sl) (snd (RW_init d (Some x0) None)) h)).
  { apply (rw_run X Y A d W sl true Inv); auto.
    - intros ps' s [x' y'] H. destruct (ST ps' s x' y' H) as (s' & E & H'). unfold exec. cbn [fst label]. cbn [snd]. rewrite E. auto.
    - unfold Inv, RW_init, rw_fit_model, exec. cbn [rw_refX rw_refY rw_built]. destruct (dt_fit d x0 None (dt_new d 0)) as [r m] eqn:E. cbn. repeat split; auto. discriminate. }
  set (s := model_run _ _ h) in *. clearbody s. split.
  - destruct I as (_ & _ & _ & _ & M). unfold eval. cbn. unfold bind, gets, lift, pyod_score. rewrite M. reflexivity.
  - intros y. destruct (ST ps s x y I) as (s' & E & _). unfold eval. cbn [md_fit ReferenceWindowModel plain_model]. rewrite E. reflexivity.
Qed.
Print Assumptions C59_unlabelled_start_never_retrains.
(** window_size <= 1 and no initial window: no model is ever trained, and every due fit raises ValueError. *)
Theorem C59_unit_window_never_trains : forall X Y A (d : Detector X Y A) W sl lab h (ps : list (X * Y)) x p, W <= 1 -> 1 <= sl -> stream_of lab ps h ->
  let s := model_run (ReferenceWindowModel d W sl) (snd (RW_init d None None)) h in
  eval (md_score (ReferenceWindowModel d W sl) x) s = Raise AttributeError /\
  eval (md_fit (ReferenceWindowModel d W sl) (fst p) (label lab p)) s = (if S (length ps) mod sl =? 0 then Raise ValueError else Ok tt).
Proof.
  intros X Y A d W sl lab h ps x p HW Hsl Hs. cbv zeta. assert (Hsl' : sl <> 0) by lia.
  set (Inv := fun (ps : list (X * Y)) (s : rwst X Y (dt_state d)) => holds X Y A d lab ps None false s /\ rw_model s = None).
  assert (ST : forall ps s p, Inv ps s -> exists s', rw_fit d W sl (fst p) (label lab p) s = (if S (length ps) mod sl =? 0 then Raise ValueError else Ok tt, s') /\ Inv (ps ++ [p]) s').
  { intros ps' s p' [H1 H2]. destruct (rw_step X Y A d lab W sl ps' None false s p' H1 Hsl') as (s' & E & P).
    assert (G : grows X Y W (S (length ps')) None false = false) by (unfold grows; cbn [negb andb]; destruct (Nat.ltb_spec (S (length ps')) W); [lia|reflexivity]).
    rewrite G in *. exists s'. rewrite E. unfold Inv. destruct (S (length ps') mod sl =? 0); destruct P as (P1 & P2 & P3); rewrite P2; auto. }
  assert (I : Inv ps (model_run (ReferenceWindowModel d W sl) (snd (RW_init d None None)) h)).
  { apply (rw_run X Y A d W sl lab Inv); auto.
    - intros ps' s p' H. destruct (ST ps' s p' H) as (s' & E & H'). unfold exec. rewrite E. auto.
    - split; [|reflexivity]. split; [reflexivity|]. split; [unfold L; destruct lab; reflexivity|]. split; [reflexivity|]. split; [discriminate|reflexivity]. }
  set (s := model_run _ _ h) in *. clearbody s. split.
  - destruct I as [_ M]. unfold eval. cbn. unfold bind, gets, lift, pyod_score. rewrite M. reflexivity.
  - destruct (ST ps s p I) as (s' & E & _). unfold eval. cbn [md_fit ReferenceWindowModel plain_model]. rewrite E. reflexivity.
Qed.
Print Assumptions C59_unit_window_never_trains.
Example C59_ex : let m := ReferenceWindowModel (recorder nat nat) 1 1 in
  eval (md_fit m 7 None) (model_run m (snd (RW_init (recorder nat nat) None None)) (fits false [(5, 0); (6, 0)])) = Raise ValueError.
Proof. reflexivity. Qed.
Theorem C57_zero_sliding_size_fails : forall X Y A (d : Detector X Y A) W x0 y0 x y, 
  eval (md_fit (ReferenceWindowModel d W 0) x y) (snd (RW_init d (Some x0) y0)) = Raise ZeroDivisionError.
Proof.
  intros. unfold eval, RW_init, rw_fit_model. cbn [rw_refX rw_refY rw_built]. destruct (dt_fit d x0 y0 (dt_new d 0)). cbn. destruct y; reflexivity.
Qed.
Print Assumptions C57_zero_sliding_size_fails.

(** ** C60 *)
Theorem C60_one_fit_scores_frozen : forall X Y A (d : Detector X Y A) x0 y0 (h : list (mcall X Y)) x,
  eval (md_score (OneFitModel d) x) (model_run (OneFitModel d) (snd (OneFit_init d x0 y0)) h) =
  rmap VScalar (dt_score d x (exec (dt_fit d x0 y0) (dt_new d 0))).
Proof.
  intros X Y A d x0 y0 h x.
  assert (E : model_run (OneFitModel d) (snd (OneFit_init d x0 y0)) h = Some (exec (dt_fit d x0 y0) (dt_new d 0))).
  { refine (plain_run_all _ _ _ _ _ _ (fun _ s => s = Some (exec (dt_fit d x0 y0) (dt_new d 0))) _ _ h _ _); auto.
    unfold OneFit_init, exec. destruct (dt_fit d x0 y0 (dt_new d 0)). reflexivity. }
  rewrite E. reflexivity.
Qed.
Print Assumptions C60_one_fit_scores_frozen.
Theorem C60_fit_always_accepted : forall X Y A (d : Detector X Y A) x y s, md_fit (OneFitModel d) x y s = (Ok tt, s).
Proof. reflexivity. Qed.
Print Assumptions C60_fit_always_accepted.
Theorem C60_constructor_raises_with_the_detector : forall X Y A (d : Detector X Y A) x0 y0,
  fst (OneFit_init d x0 y0) = eval (dt_fit d x0 y0) (dt_new d 0).
Proof. intros. unfold OneFit_init, eval. destruct (dt_fit d x0 y0 (dt_new d 0)). reflexivity. Qed.
Print Assumptions C60_constructor_raises_with_the_detector.
Example C60_ex : let m := OneFitModel (recorder nat nat) in
  eval (md_score m 3) (model_run m (snd (OneFit_init (recorder nat nat) [1; 2] None)) [CFit 5 (Some 1); CFitScore 6 None; CScore 7]) = Ok (VScalar (0, [1; 2], None)).
Proof. reflexivity. Qed.

(** ** C82 *)
(** The instances scored by a history. *)
Definition scored_instances {X Y} (h : list (mcall X Y)) : list X :=
  flat_map (fun o => match o with CFit _ _ => [] | CScore x => [x] | CFitScore x _ => [x] end) h.
Theorem C82_loop_ignores_fits : forall X Y A Lt (stream : X -> M Lt A) (h : list (mcall X Y)) s,
  model_scores (LocalOutlierProbability stream) s h = model_scores (LocalOutlierProbability stream) s (map (@CScore X Y) (scored_instances h)).
Proof.
  intros X Y A Lt stream h. induction h as [|o h IH]; intros s; auto. destruct o as [x y|x|x y]; cbn [model_scores scored_instances flat_map map app]; fold (scored_instances h).
  - rewrite IH. reflexivity.
  - f_equal. apply IH.
  - cbn [model_scores]. f_equal. apply IH.
Qed.
Print Assumptions C82_loop_ignores_fits.
Theorem C82_pure_stream_constant_scores : forall X Y A Lt (f : Lt -> X -> A) (h : list (mcall X Y)) s x,
  eval (md_score (LocalOutlierProbability (fun x s => (Ok (f s x), s))) x) (model_run (LocalOutlierProbability (Y := Y) (fun x s => (Ok (f s x), s))) s h) = Ok (VScalar (f s x)).
Proof.
  intros X Y A Lt f h s x. 
  assert (E : model_run (LocalOutlierProbability (Y := Y) (fun x s => (Ok (f s x), s))) s h = s).
  { refine (plain_run_all _ _ _ _ _ _ (fun _ s' => s' = s) _ _ h _ _); auto. }
  rewrite E. reflexivity.
Qed.
Print Assumptions C82_pure_stream_constant_scores.
Example C82_ex : model_scores (LocalOutlierProbability (Y := unit) (fun (x : nat) s => (Ok (x + s), S s))) 0 [CFit 9 None; CScore 5; CFitScore 5 None; CFit 7 None; CScore 5] = [VScalar 5; VScalar 6; VScalar 7].
Proof. reflexivity. Qed.
