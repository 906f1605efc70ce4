(** * C98: reusing the array passed to a detector. *)
From Coq Require Import List ZArith Lia Bool Arith Floats Reals Lra.
From Verif Require Import Base Num Spec Model_Stats Model_Utils Model_Core Model_Simple Model_Integrations Model_Sketch Model_Alias P_Models P_Lists P_Utils.
Import ListNotations.
Open Scope nat_scope.
Local Notation length := List.length.

(** ** Specification *)
(** A client owns arrays, named by numbers.  It overwrites one, or calls the detector with one. *)
Inductive aop (X Y : Type) : Type := AWrite (a : nat) (x : X) | ACall (c : mcall nat Y).
Arguments AWrite {X Y}.
Arguments ACall {X Y}.
(** The same call with the content of the array instead of the array. *)
Definition by_value {X Y} (m : mem X) (c : mcall nat Y) : mcall X Y :=
  match c with CFit a y => CFit (m a) y | CScore a => CScore (m a) | CFitScore a y => CFitScore (m a) y end.
Fixpoint seen {X Y} (m : mem X) (h : list (aop X Y)) : list (mcall X Y) :=
  match h with [] => [] | AWrite a x :: h' => seen (mem_set a x m) h' | ACall c :: h' => by_value m c :: seen m h' end.
(** All answers of the calls, exceptions included. *)
Fixpoint answers {X Y A} (d : Model X Y A) (s : md_state d) (h : list (mcall X Y)) : list (res (option (pyval A))) :=
  match h with [] => [] | c :: h' => eval (model_call d c) s :: answers d (model_do d s c) h' end.
Fixpoint ref_answers {X Y A} (r : RModel X Y A) (m : mem X) (s : rm_state r) (h : list (aop X Y)) : list (res (option (pyval A))) :=
  match h with
  | [] => []
  | AWrite a x :: h' => ref_answers r (mem_set a x m) s h'
  | ACall c :: h' => eval (model_call (rm_at r m) c) s :: ref_answers r m (model_do (rm_at r m) s c) h'
  end.
(** The arrays handed to fit_partial (or fit_score_partial), in order. *)
Definition handed {X Y} (h : list (aop X Y)) : list nat := fitted_instances (flat_map (fun o => match o with AWrite _ _ => [] | ACall c => [c] end) h).
(** The client never overwrites one of the last k arrays it handed over. *)
Definition untouched {X Y} (k : nat) (h : list (aop X Y)) : Prop := forall h1 a x h2, h = h1 ++ AWrite a x :: h2 -> ~ In a (lastn k (handed h1)).

(** ** Simulation *)
Lemma sim : forall X Y A (r : RModel X Y A) S fit score (ok : list nat -> nat -> Prop) (Rel : mem X -> list nat -> rm_state r -> S -> Prop),
  (forall m l s t a y, Rel m l s t -> eval (rm_fit r m a y) s = eval (fit (m a) y) t /\ Rel m (l ++ [a]) (exec (rm_fit r m a y) s) (exec (fit (m a) y) t)) ->
  (forall m l s t a, Rel m l s t -> eval (rm_score r m a) s = eval (score (m a)) t /\ Rel m l (exec (rm_score r m a) s) (exec (score (m a)) t)) ->
  (forall m l s t a x, Rel m l s t -> ok l a -> Rel (mem_set a x m) l s t) ->
  forall (h : list (aop X Y)) m l s t, Rel m l s t -> (forall h1 a x h2, h = h1 ++ AWrite a x :: h2 -> ok (l ++ handed h1) a) ->
  ref_answers r m s h = answers (@plain_model X Y A S fit score) t (seen m h).
Proof.
  intros X Y A r S fit score ok Rel Hf Hs Hw h. induction h as [|[a x|c] h IH]; intros m l s t R0 U; [reflexivity| |].
  - cbn [ref_answers seen]. apply (IH _ l). { apply Hw; auto. specialize (U [] a x h eq_refl). unfold handed in U. cbn in U. rewrite app_nil_r in U. exact U. } intros h1 a' x' h2 E. apply (U (AWrite a x :: h1) a' x' h2). rewrite E. reflexivity.
  - assert (Q : eval (model_call (rm_at r m) c) s = eval (model_call (plain_model S fit score) (by_value m c)) t /\
               Rel m (l ++ map fst (call_fit c)) (model_do (rm_at r m) s c) (model_do (@plain_model X Y A S fit score) t (by_value m c))).
    { unfold model_do, eval, exec. destruct c as [a y|a|a y]; cbn [by_value model_call md_fit md_score md_fit_score rm_at plain_model call_fit map fst].
      - destruct (Hf m l s t a y R0) as [E1 E2]. unfold eval, exec in *. destruct (rm_fit r m a y s), (fit (m a) y t). cbn [fst snd] in *. subst. auto.
      - destruct (Hs m l s t a R0) as [E1 E2]. unfold eval, exec in *. destruct (rm_score r m a s), (score (m a) t). cbn [fst snd] in *. subst. rewrite app_nil_r. auto.
      - unfold default_fit_score, bind. destruct (Hf m l s t a y R0) as [E1 E2]. unfold eval, exec in *. destruct (rm_fit r m a y s) as [v s1], (fit (m a) y t) as [v' t1]. cbn [fst snd] in *. subst. destruct v' as [u|e]; [|auto].
        destruct (Hs m _ s1 t1 a E2) as [E3 E4]. unfold eval, exec in *. destruct (rm_score r m a s1), (score (m a) t1). cbn [fst snd] in *. subst. auto. }
    destruct Q as [Q1 Q2]. cbn [ref_answers seen answers]. rewrite Q1. f_equal. apply (IH _ _ _ _ Q2).
    intros h1 a x h2 E. specialize (U (ACall c :: h1) a x h2). rewrite E in U. specialize (U eq_refl). unfold handed in *. cbn [flat_map] in U. rewrite fitted_instances_app in U. unfold fitted_instances at 1 in U. unfold fitted_calls in U. cbn [flat_map] in U. rewrite app_nil_r in U. rewrite <- app_assoc. exact U.
Qed.
Lemma map_mem_set : forall X (m : mem X) a x l, ~ In a l -> map (mem_set a x m) l = map m l.
Proof. intros X m a x l N. apply map_ext_in. intros b Hb. unfold mem_set. destruct (Nat.eqb_spec b a) as [->|]; [contradiction|reflexivity]. Qed.

(** ** C98 *)
(** ExactStorm behaves as if it had copied, provided the client leaves the last window_size arrays alone. *)
Theorem C98_exact_storm : forall Y A (NA : Num A) radius w m (h : list (aop (list A) Y)), untouched (Z.to_nat w) h ->
  ref_answers (ExactStormRef radius) m (Window_init w) h = answers (ExactStorm radius) (Window_init w) (seen m h).
Proof.
  intros Y A NA radius w m h U.
  refine (sim _ _ _ (ExactStormRef radius) _ _ _ (fun l a => ~ In a (lastn (Z.to_nat w) l)) (fun m l (s : window nat) (t : window (list A)) => wd_size s = w /\ wd_size t = w /\ wd_items s = lastn (Z.to_nat w) l /\ wd_items t = map m (wd_items s)) _ _ _ h m [] _ _ _ U).
  - clear. intros m l s t a y (S1 & S2 & I1 & I2). destruct (P_Utils.window_update_step _ a s l) as (s' & E & Z1 & J1); [rewrite S1; auto|].
    unfold eval, exec. cbn [rm_fit ExactStormRef]. rewrite E. cbn [fst snd]. split; [reflexivity|]. split; [congruence|]. unfold Window_update, bind, modify in *. cbn [fst snd wd_size wd_items] in *. injection E as E. subst s'.
    rewrite J1. cbn [wd_size wd_items] in *. rewrite S1, S2, I2 in *. rewrite !app_length, map_length in *. cbn [length] in *. destruct (w <? Z.of_nat (length (wd_items s) + 1))%Z; cbn [wd_size wd_items] in *; (split; [reflexivity|]; split; [reflexivity|]).
    + rewrite <- J1. destruct (wd_items s); reflexivity || (cbn [app map skipn]; rewrite map_app; reflexivity).
    + rewrite <- J1, map_app. reflexivity.
  - clear. intros m l s t a (S1 & S2 & I1 & I2). cbn [rm_score ExactStormRef]. unfold eval, exec, bind, Window_get, gets, lift, ret. rewrite I2. destruct (storm_score radius _ _); cbn [fst snd]; auto.
  - clear. intros m l s t a x (S1 & S2 & I1 & I2) N. split; [auto|]. split; [auto|]. split; [auto|]. rewrite I2. symmetry. apply map_mem_set. rewrite I1. exact N.
  - repeat split; auto.
Qed.
Print Assumptions C98_exact_storm.

(** RelativeEntropy: the last window_size - 1 arrays are read again. *)
Theorem C98_relative_entropy : forall Y A (NA : Num A) log ceil thr min_val step num_bins W m (h : list (aop (list A) Y)), 1 <= W -> untouched (W - 1) h ->
  ref_answers (RelativeEntropyRef log ceil thr min_val step num_bins W) m RER_init h = answers (RelativeEntropy log ceil thr min_val step num_bins W) RE_init (seen m h).
Proof.
  intros Y A NA log ceil thr min_val step num_bins W m h HW U.
  refine (sim _ _ _ (RelativeEntropyRef log ceil thr min_val step num_bins W) _ _ _ (fun l a => ~ In a (lastn (W - 1) l))
    (fun m l (s : rerst A) (t : rest A) => rer_util s = l /\ length (re_util t) = length l /\ lastn (W - 1) (re_util t) = map m (lastn (W - 1) l) /\ rer_m s = re_m t /\ rer_P s = re_P t /\ rer_c s = re_c t /\ rer_hat s = re_hat t) _ _ _ h m [] _ _ _ U).
  - clear h U m. intros m l s t a y (E1 & E2 & E3 & E4 & E5 & E6 & E7).
    assert (L : lastn W (re_util t ++ [m a]) = map m (lastn W (l ++ [a]))). { replace W with (S (W - 1)) at 1 2 by lia. rewrite !lastn_snoc, map_app, E3. reflexivity. }
    assert (L' : lastn (W - 1) (re_util t ++ [m a]) = map m (lastn (W - 1) (l ++ [a]))). { rewrite <- (lastn_lastn _ (W - 1) W), L, lastn_map, lastn_lastn by lia. reflexivity. }
    assert (PL : forall T (u : list T), py_last W u = lastn W u). { intros T u. unfold py_last, lastn. destruct (Nat.eqb_spec W 0); [lia|reflexivity]. }
    cbn [rm_fit RelativeEntropyRef]. unfold eval, exec, bind, modify, gets, lift, ret. cbn [rer_util rer_m rer_P rer_c rer_hat re_util re_m re_P re_c re_hat]. rewrite E1, !app_length, E2, !PL, L. cbn [length].
    destruct (W <=? length l + 1)%nat.
    + destruct (res_map _ _) as [bs|e]; cbn [fst snd]; [|cbn [rer_util rer_m rer_P rer_c rer_hat re_util re_m re_P re_c re_hat]; rewrite !app_length, E2; repeat split; auto].
      rewrite E4. destruct (re_m t =? 0)%nat; cbn [fst snd rer_util rer_m rer_P rer_c rer_hat re_util re_m re_P re_c re_hat]; rewrite ?app_length, ?E2, ?E5, ?E6; repeat split; auto.
    + cbn [fst snd rer_util rer_m rer_P rer_c rer_hat re_util re_m re_P re_c re_hat]. rewrite !app_length, E2. repeat split; auto.
  - clear h U m. intros m l s t a (E1 & E2 & E3 & E4 & E5 & E6 & E7). cbn [rm_score RelativeEntropyRef]. unfold eval, exec, bind, gets, ret. rewrite E7, E1, E2, E4, E5.
    destruct (re_hat t) eqn:Hh; [destruct (_ && _)%bool|]; cbn [fst snd]; rewrite ?Hh; repeat split; auto; congruence.
  - clear. intros m l s t a x (E1 & E2 & E3 & E4) N. split; [auto|]. split; [auto|]. split; [|exact E4]. rewrite map_mem_set by exact N. exact E3.
  - repeat split; auto.
Qed.
Print Assumptions C98_relative_entropy.

(** ReferenceWindowModel: the arrays handed over are never touched again. *)
Definition rw_read {X Y D} (m : mem X) (s : rwst (slot X) Y D) : rwst X Y D :=
  mkRW (map (slot_get m) (rw_curX s)) (rw_curY s) (option_map (map (slot_get m)) (rw_refX s)) (rw_refY s) (rw_initial s) (rw_model s) (rw_built s).
Lemma rw_fit_model_read : forall X Y A (d : Detector X Y A) m s,
  rw_fit_model d (rw_read m s) = (fst (rw_fit_model (det_at d m) s), rw_read m (snd (rw_fit_model (det_at d m) s))).
Proof. intros X Y A d m [cx cy rx ry ini mo bu]. unfold rw_fit_model. cbn [rw_read rw_refX rw_refY rw_built det_at dt_fit dt_new]. destruct rx as [r|]; cbn [option_map fst snd]; [|reflexivity]. destruct (dt_fit d _ _ _); reflexivity. Qed.
Lemma rw_fit_read : forall X Y A (d : Detector X Y A) W sl m a y s,
  rw_fit d W sl (m a) y (rw_read m s) = (fst (rw_fit (det_at d m) W sl (Held a) y s), rw_read m (snd (rw_fit (det_at d m) W sl (Held a) y s))).
Proof.
  intros X Y A d W sl m a y [cx cy rx ry ini mo bu]. unfold rw_fit, bind, modify, gets, lift, ret, raise.
  assert (K : forall cx' cy' rx' ry', let s := mkRW cx' cy' rx' ry' ini mo bu in rw_fit_model d (rw_read m s) = (fst (rw_fit_model (det_at d m) s), rw_read m (snd (rw_fit_model (det_at d m) s)))) by (intros; apply rw_fit_model_read).
  destruct y as [y|]; cbn [rw_read rw_set_cur rw_set_refX rw_set_refY rw_curX rw_curY rw_refX rw_refY rw_initial rw_model rw_built];
    rewrite !app_length, !map_length; cbn [length];
    (destruct (negb ini && (length cx + 1 <? W) && match option_map (map (slot_get m)) rx with None => true | Some r => length r <? W end)%bool eqn:B;
     replace (negb ini && (length cx + 1 <? W) && match rx with None => true | Some r => length r <? W end)%bool with (negb ini && (length cx + 1 <? W) && match option_map (map (slot_get m)) rx with None => true | Some r => length r <? W end)%bool by (destruct rx; cbn [option_map]; rewrite ?map_length; reflexivity); rewrite B).
  - specialize (K (cx ++ [Held a]) (cy ++ [y]) (Some (cx ++ [Held a])) (Some (cy ++ [y]))). cbn zeta in K. unfold rw_read in K at 1. cbn [rw_curX rw_curY rw_refX rw_refY rw_initial rw_model rw_built option_map] in K. rewrite map_app in K. exact K.
  - destruct (sl =? 0); [cbn [fst snd rw_read rw_curX]; unfold rw_read; cbn; rewrite map_app; reflexivity|].
    destruct (_ mod sl =? 0); [|cbn [fst snd rw_read rw_curX]; unfold rw_read; cbn; rewrite map_app; reflexivity].
    destruct rx as [r|]; cbn [option_map rw_slide]; [|cbn [fst snd]; unfold rw_read; cbn; rewrite map_app; reflexivity].
    rewrite !app_length, !map_length. cbn [length]. replace (map (slot_get m) r ++ map (slot_get m) cx ++ [m a]) with (map (slot_get m) (r ++ cx ++ [Held a])) by (rewrite !map_app; reflexivity). rewrite skipn_map.
    cbn [rw_refY rw_set_refX rw_curX rw_curY rw_refX rw_initial rw_model rw_built].
    destruct ry as [ry|]; cbn [rw_slide]; [|cbn [fst snd]; unfold rw_read; cbn; rewrite map_app; reflexivity].
    exact (K [] [] (Some (skipn (length r + (length cx + 1) - W) (r ++ cx ++ [Held a]))) (Some (skipn (length (ry ++ cy ++ [y]) - W) (ry ++ cy ++ [y])))).
  - specialize (K (cx ++ [Held a]) cy (Some (cx ++ [Held a])) None). cbn zeta in K. unfold rw_read in K at 1. cbn [rw_curX rw_curY rw_refX rw_refY rw_initial rw_model rw_built option_map] in K. rewrite map_app in K. exact K.
  - destruct (sl =? 0); [cbn [fst snd rw_read rw_curX]; unfold rw_read; cbn; rewrite map_app; reflexivity|].
    destruct (_ mod sl =? 0); [|cbn [fst snd rw_read rw_curX]; unfold rw_read; cbn; rewrite map_app; reflexivity].
    destruct rx as [r|]; cbn [option_map rw_slide]; [|cbn [fst snd]; unfold rw_read; cbn; rewrite map_app; reflexivity].
    rewrite !app_length, !map_length. cbn [length]. replace (map (slot_get m) r ++ map (slot_get m) cx ++ [m a]) with (map (slot_get m) (r ++ cx ++ [Held a])) by (rewrite !map_app; reflexivity). rewrite skipn_map.
    exact (K [] [] (Some (skipn (length r + (length cx + 1) - W) (r ++ cx ++ [Held a]))) ry).
Qed.
Lemma rw_read_copy : forall X Y D (m : mem X) (s : rwst (slot X) Y D),
  rw_read m (rw_set_refX (match rw_refX s with None => None | Some l => Some (map (fun e => Copied (slot_get m e)) l) end) s) = rw_read m s.
Proof. intros X Y D m [cx cy [r|] ry ini mo bu]; unfold rw_read; cbn; [|reflexivity]. rewrite map_map. cbn [slot_get]. reflexivity. Qed.
(** The arrays a state refers to. *)
Definition slot_addr {X} (e : slot X) : list nat := match e with Held a => [a] | Copied _ => [] end.
Definition rw_addrs {X Y D} (s : rwst (slot X) Y D) : list nat := flat_map slot_addr (rw_curX s) ++ match rw_refX s with None => [] | Some l => flat_map slot_addr l end.
Lemma rw_read_set : forall X Y D (m : mem X) a x (s : rwst (slot X) Y D), ~ In a (rw_addrs s) -> rw_read (mem_set a x m) s = rw_read m s.
Proof.
  intros X Y D m a x s N.
  assert (Q : forall l, ~ In a (flat_map slot_addr l) -> map (slot_get (mem_set a x m)) l = map (slot_get m) l).
  { intros l. induction l as [|[b|v] l IH]; intros K; [reflexivity| |]; cbn [flat_map slot_addr app] in K; cbn [map slot_get].
    - rewrite IH by (intros Hi; apply K; right; exact Hi). f_equal. unfold mem_set. destruct (Nat.eqb_spec b a) as [->|]; [exfalso; apply K; left; reflexivity|reflexivity].
    - rewrite IH by exact K. reflexivity. }
  unfold rw_addrs in N. unfold rw_read. rewrite Q by (intros Hi; apply N, in_or_app; left; exact Hi). destruct (rw_refX s) as [r|]; cbn [option_map]; [|reflexivity]. rewrite (Q r) by (intros Hi; apply N, in_or_app; right; exact Hi). reflexivity.
Qed.
Lemma rw_fit_addrs : forall X Y A (d : Detector (slot X) Y A) W sl a y s b, In b (rw_addrs (exec (rw_fit d W sl (Held a) y) s)) -> b = a \/ In b (rw_addrs s).
Proof.
  intros X Y A d W sl a y [cx cy rx ry ini mo bu] b H.
  assert (C : forall l, In b (flat_map slot_addr (l ++ [Held a : slot X])) -> b = a \/ In b (flat_map slot_addr l)).
  { intros l Hi. rewrite flat_map_app in Hi. apply in_app_or in Hi. destruct Hi as [Hi|Hi]; [right; exact Hi|]. cbn in Hi. destruct Hi as [->|[]]. left; reflexivity. }
  assert (Sk : forall n l, In b (flat_map slot_addr (skipn n l : list (slot X))) -> In b (flat_map slot_addr l)).
  { intros n l Hi. rewrite <- (firstn_skipn n l), flat_map_app. apply in_or_app. right. exact Hi. }
  assert (F : forall s', rw_addrs (exec (rw_fit_model d) s') = rw_addrs s').
  { intros s'. unfold exec, rw_fit_model. destruct (rw_refX s') eqn:E; [|reflexivity]. destruct (dt_fit d _ _ _). unfold rw_addrs. cbn. rewrite E. reflexivity. }
  unfold rw_addrs. cbn [rw_curX rw_refX]. unfold exec, rw_fit, bind, modify, gets, lift, ret, raise in H.
  destruct y as [y|]; cbn [rw_set_cur rw_set_refX rw_set_refY rw_curX rw_curY rw_refX rw_refY rw_initial rw_model rw_built] in H;
  (destruct (negb ini && _ && _)%bool;
   [ match type of H with In b (rw_addrs (snd (rw_fit_model d ?s'))) => change (In b (rw_addrs (exec (rw_fit_model d) s'))) in H; rewrite F in H end; unfold rw_addrs in H; cbn [rw_curX rw_refX] in H; apply in_app_or in H; destruct H as [H|H]; apply C in H; destruct H as [H|H]; auto; right; apply in_or_app; left; exact H
   | ]).
  - assert (B : In b (flat_map slot_addr (cx ++ [Held a : slot X]) ++ match rx with None => [] | Some l => flat_map slot_addr l end) -> b = a \/ In b (flat_map slot_addr cx ++ match rx with None => [] | Some l => flat_map slot_addr l end)).
    { intros Hi. apply in_app_or in Hi. destruct Hi as [Hi|Hi]; [apply C in Hi; destruct Hi as [Hi|Hi]; [left; exact Hi|right; apply in_or_app; left; exact Hi]|right; apply in_or_app; right; exact Hi]. }
    destruct (sl =? 0); [exact (B H)|]. destruct (_ mod sl =? 0); [|exact (B H)]. destruct rx as [r|]; cbn [rw_slide] in H; [|exact (B H)].
    assert (B' : forall n cy' ry' mo' bu', In b (rw_addrs (mkRW (cx ++ [Held a]) cy' (Some (skipn n (r ++ cx ++ [Held a]))) ry' ini mo' bu' : rwst (slot X) Y (dt_state d))) \/ In b (rw_addrs (mkRW [] cy' (Some (skipn n (r ++ cx ++ [Held a]))) ry' ini mo' bu' : rwst (slot X) Y (dt_state d))) -> b = a \/ In b (flat_map slot_addr cx ++ flat_map slot_addr r)).
    { intros n cy' ry' mo' bu' [Hi|Hi]; unfold rw_addrs in Hi; cbn [rw_curX rw_refX flat_map app] in Hi; [apply in_app_or in Hi; destruct Hi as [Hi|Hi]; [apply B, in_or_app; left; exact Hi|]|]; apply Sk in Hi; rewrite flat_map_app in Hi; apply in_app_or in Hi; destruct Hi as [Hi|Hi]; apply B, in_or_app; auto. }
    destruct ry as [ry|]; cbn [rw_slide] in H; [|apply (B' _ _ _ _ _ (or_introl H))].
    match type of H with In b (rw_addrs (snd (rw_fit_model d ?s'))) => change (In b (rw_addrs (exec (rw_fit_model d) s'))) in H; rewrite F in H end. apply (B' _ _ _ _ _ (or_intror H)).
  - assert (B : In b (flat_map slot_addr (cx ++ [Held a : slot X]) ++ match rx with None => [] | Some l => flat_map slot_addr l end) -> b = a \/ In b (flat_map slot_addr cx ++ match rx with None => [] | Some l => flat_map slot_addr l end)).
    { intros Hi. apply in_app_or in Hi. destruct Hi as [Hi|Hi]; [apply C in Hi; destruct Hi as [Hi|Hi]; [left; exact Hi|right; apply in_or_app; left; exact Hi]|right; apply in_or_app; right; exact Hi]. }
    destruct (sl =? 0); [exact (B H)|]. destruct (_ mod sl =? 0); [|exact (B H)]. destruct rx as [r|]; cbn [rw_slide] in H; [|exact (B H)].
    match type of H with In b (rw_addrs (snd (rw_fit_model d ?s'))) => change (In b (rw_addrs (exec (rw_fit_model d) s'))) in H; rewrite F in H end.
    unfold rw_addrs in H. cbn [rw_curX rw_refX flat_map app rw_set_cur rw_set_refX] in H. apply Sk in H; rewrite flat_map_app in H; apply in_app_or in H; destruct H as [H|H]; apply B, in_or_app; auto.
Qed.
Theorem C98_reference_window : forall X Y A (d : Detector X Y A) W sl m (h : list (aop X Y)), (forall k, untouched k h) ->
  ref_answers (ReferenceWindowRef d W sl) m (RWR_init d) h = answers (ReferenceWindowModel d W sl) (snd (RW_init d None None)) (seen m h).
Proof.
  intros X Y A d W sl m h U.
  refine (sim _ _ _ (ReferenceWindowRef d W sl) _ _ _ (fun l a => ~ In a l) (fun m l (s : rwst (slot X) Y (dt_state d)) (t : rwst X Y (dt_state d)) => t = rw_read m s /\ incl (rw_addrs s) l) _ _ _ h m [] _ _ _ _).
  - clear. intros m l s t a y [-> I]. cbn [rm_fit ReferenceWindowRef]. unfold rwr_fit, eval, exec. rewrite rw_fit_read.
    pose proof (rw_fit_addrs X Y A (det_at d m) W sl a y s) as FA. unfold exec in FA. change (dt_state (det_at d m)) with (dt_state d) in *.
    destruct (rw_fit (det_at d m) W sl (Held a) y s) as [r s'] eqn:E. change (rwst (slot X) Y (dt_state d)) in s'. cbn [fst snd] in *. split; [reflexivity|].
    change (dt_state (det_at d m)) with (dt_state d) in *.
    assert (I' : incl (rw_addrs s') (l ++ [a])). { intros b Hb. apply FA in Hb. apply in_or_app. destruct Hb as [->|Hb]; [right; left; reflexivity|left; apply I; exact Hb]. }
    destruct (rw_curX s') eqn:Ec; cbn [fst snd]; [|split; [reflexivity|exact I']].
    split; [symmetry; apply rw_read_copy|]. unfold rw_addrs. cbn [rw_set_refX rw_curX rw_refX]. rewrite Ec. destruct (rw_refX s') as [rr|]; [|intros b []]. cbn [flat_map app]. intros b Hb. exfalso. clear - Hb. induction rr as [|e rr IH]; [exact Hb|exact (IH Hb)].
  - clear. intros m l s t a [-> I]. cbn [rm_score ReferenceWindowRef]. unfold eval, exec, bind, gets, lift. cbn [rw_read rw_model]. split; [reflexivity|]. split; [reflexivity|exact I].
  - clear. intros m l s t a x [-> I] N. split; [|exact I]. symmetry. apply rw_read_set. intros Hi. apply N, I, Hi.
  - split; [reflexivity|]. intros b [].
  - intros h1 a x h2 E Hi. apply (U (length (handed h1)) h1 a x h2 E). rewrite lastn_all by lia. exact Hi.
Qed.
Print Assumptions C98_reference_window.

(** A client that reads its data into one array, over and over, as most stream readers with a buffer do. *)
Definition through_one_array {X Y} (xs : list X) : list (aop X Y) := flat_map (fun x => [AWrite 0 x; ACall (CFitScore 0 None)]) xs.
(** ExactStorm then compares the last instance with itself: every score but the first is 1, whatever the data. *)
Theorem C98_exact_storm_reused_array : forall Y w radius m (xs : list (list R)), (2 <= w)%Z -> (0 < radius)%R ->
  ref_answers (ExactStormRef (Y := Y) radius) m (Window_init w) (through_one_array xs) = map (fun i => Ok (Some (VScalar (if i =? 0 then 0 else 1)%R))) (seq 0 (length xs)).
Proof.
  intros Y w radius m xs Hw Hr.
  assert (G : forall xs m n, (Z.of_nat n <= w)%Z -> ref_answers (ExactStormRef (Y := Y) radius) m (mkWindow w (repeat 0 n)) (through_one_array xs) = map (fun i => Ok (Some (VScalar (if i =? 0 then 0 else 1)%R))) (map (Nat.add n) (seq 0 (length xs)))).
  2: { specialize (G xs m 0 ltac:(lia)). rewrite map_ext with (g := fun i => i) in G by (intros; reflexivity). rewrite map_id in G. exact G. }
  clear m xs. intros xs. induction xs as [|x xs IH]; intros m n Hn; [reflexivity|]. unfold through_one_array. cbn [flat_map app length seq map ref_answers].
  set (m' := mem_set 0 x m). remember (if (w <? Z.of_nat (n + 1))%Z then n else S n) as n' eqn:En.
  assert (Wn : (Z.of_nat n' <= w)%Z) by (rewrite En; destruct (Z.ltb_spec w (Z.of_nat (n + 1))); lia).
  assert (E : model_call (rm_at (ExactStormRef (Y := Y) radius) m') (CFitScore 0 None) (mkWindow w (repeat 0 n)) = (Ok (Some (VScalar (if n =? 0 then 0 else 1)%R)), mkWindow w (repeat 0 n'))).
  { cbn [model_call md_fit_score rm_at plain_model rm_fit rm_score ExactStormRef]. unfold default_fit_score, Window_update, Window_get, bind, modify, gets, lift, ret. cbn [wd_size wd_items].
    replace (repeat 0 n ++ [0]) with (repeat 0 (n + 1)) by (rewrite repeat_app; reflexivity). rewrite repeat_length.
    assert (K : (if (w <? Z.of_nat (n + 1))%Z then mkWindow w (skipn 1 (repeat 0 (n + 1))) else mkWindow w (repeat 0 (n + 1))) = mkWindow w (repeat 0 n')).
    { clear - En. subst n'. rewrite Nat.add_1_r. destruct (w <? Z.of_nat (S n))%Z; reflexivity. }
    rewrite K. cbn [wd_items]. assert (RL : forall k, removelast (map m' (repeat 0 k)) = repeat x (k - 1)).
    { intros k. destruct k as [|k]; [reflexivity|]. replace (S k) with (k + 1) at 1 by lia. rewrite repeat_app, map_app. cbn [repeat map]. rewrite removelast_last. replace (S k - 1) with k by lia. clear. induction k as [|k IH]; [reflexivity|]. cbn [repeat map]. rewrite IH. reflexivity. }
    unfold storm_score. rewrite RL, repeat_length.
    destruct (Nat.eqb_spec n 0) as [->|N0].
    - replace (n' - 1) with 0; [reflexivity|]. rewrite En. destruct (Z.ltb_spec w (Z.of_nat (0 + 1))); reflexivity.
    - assert (P : 1 <= n' - 1) by (rewrite En; destruct (Z.ltb_spec w (Z.of_nat (n + 1))); lia). destruct (Nat.eqb_spec (n' - 1) 0); [lia|].
      change (m' 0) with x. replace (forallb _ _) with true by (symmetry; apply forallb_forall; intros v Hv; apply repeat_spec in Hv; subst v; apply Nat.eqb_refl).
      replace (filter (fun r => oltb (euclid r x) radius) (repeat x (n' - 1))) with (repeat x (n' - 1)).
      + rewrite repeat_length. cbn [rmap]. do 4 f_equal. cbn. field. apply not_0_INR in n0. rewrite <- INR_IZR_INZ. exact n0.
      + assert (Z0 : euclid x x = 0%R). { unfold euclid. replace (map _ (combine x x)) with (map (fun _ => 0%R) x) by (clear; induction x as [|v x IH]; [reflexivity|]; cbn [combine map fst snd]; rewrite <- IH; f_equal; unfold nsq; cbn; ring). assert (Sz : forall l : list R, nsum (map (fun _ => 0%R) l) = 0%R) by (unfold nsum; intros l; cut (forall acc, fold_left nadd (map (fun _ : R => 0%R) l) acc = acc); [intros C; apply C|induction l as [|v l IHl]; intros acc; [reflexivity|cbn [map fold_left]; rewrite IHl; cbn; ring]]). rewrite Sz. cbn. apply sqrt_0. }
        clear - Z0 Hr. induction (n' - 1) as [|k IH]; [reflexivity|]. cbn [repeat filter]. rewrite Z0. replace (oltb 0%R radius) with true by (cbn; unfold Rltb; destruct (Rlt_dec 0 radius); [reflexivity|contradiction]). f_equal. exact IH. }
  unfold eval, model_do, exec. rewrite E. cbn [fst snd]. f_equal; [rewrite Nat.add_0_r; reflexivity|].
  fold (through_one_array (Y := Y) xs). rewrite IH by exact Wn. rewrite <- seq_shift, !map_map. apply map_ext. intros i.
  destruct (Nat.eqb_spec (n' + i) 0) as [Q|Q], (Nat.eqb_spec (n + S i) 0) as [Q'|Q']; try lia; try reflexivity. exfalso. rewrite En in Q. destruct (Z.ltb_spec w (Z.of_nat (n + 1))); lia.
Qed.
Print Assumptions C98_exact_storm_reused_array.

(** ** Refutations: with one array the answers are not those of the data *)
Definition zeros : mem (list float) := fun _ => [0%float].
Theorem C98_exact_storm_refuted : let xs := [[0]; [10]; [20]]%float in
  answers (ExactStorm (Y := unit) 1%float) (Window_init 5) (seen zeros (through_one_array xs)) = [Ok (Some (VScalar 0)); Ok (Some (VScalar 0)); Ok (Some (VScalar 0))]%float /\
  ref_answers (ExactStormRef (Y := unit) 1%float) zeros (Window_init 5) (through_one_array xs) = [Ok (Some (VScalar 0)); Ok (Some (VScalar 1)); Ok (Some (VScalar 1))]%float.
Proof. split; vm_compute; reflexivity. Qed.
Print Assumptions C98_exact_storm_refuted.
(** RelativeEntropy, window of 2 values, 2 bins: the data have windows {0,1} and {1,0}; with one array both windows have equal values. *)
Definition to_bin (a : float) : Z := if PrimFloat.ltb a 0.5 then 0%Z else if PrimFloat.ltb a 1.5 then 1%Z else 2%Z.
Theorem C98_relative_entropy_refuted : let xs := [[0]; [1]; [0]]%float in let log := (fun a => PrimFloat.sub a 1) in
  answers (RelativeEntropy (Y := unit) log to_bin 1 0 1 2 2)%float RE_init (seen zeros (through_one_array xs)) = [Ok (Some (VScalar 0)); Ok (Some (VScalar 0)); Ok (Some (VScalar 0))]%float /\
  ref_answers (RelativeEntropyRef (Y := unit) log to_bin 1 0 1 2 2)%float zeros RER_init (through_one_array xs) = [Ok (Some (VScalar 0)); Ok (Some (VScalar 0)); Ok (Some (VScalar (-1)))]%float.
Proof. split; vm_compute; reflexivity. Qed.
Print Assumptions C98_relative_entropy_refuted.
(** ReferenceWindowModel over a detector that answers the sum of its training data. *)
Definition summing : Detector Z unit Z := mkDetector Z unit Z Z (fun _ => 0%Z) (fun xs _ _ => (Ok tt, fold_left Z.add xs 0%Z)) (fun _ s => Ok s).
Theorem C98_reference_window_refuted : let xs := [1; 2; 3; 4; 5; 6]%Z in
  answers (ReferenceWindowModel summing 4 2) (snd (RW_init summing None None)) (seen (fun _ => 0%Z) (through_one_array xs)) = map (fun v => Ok (Some (VScalar v))) [1; 3; 6; 10; 10; 18]%Z /\
  ref_answers (ReferenceWindowRef summing 4 2) (fun _ => 0%Z) (RWR_init summing) (through_one_array xs) = map (fun v => Ok (Some (VScalar v))) [1; 4; 9; 16; 16; 20]%Z.
Proof. split; vm_compute; reflexivity. Qed.
Print Assumptions C98_reference_window_refuted.

(** ** Concrete cases: two arrays used in turn are enough for a window of one, and a fresh array each time always is. *)
Local Ltac stp E I h1 := destruct h1 as [|? h1]; [first [discriminate E | inversion E; subst; vm_compute in I; intuition discriminate]| cbn [app] in E; let E0 := fresh in let E1 := fresh in inversion E as [[E0 E1]]; subst; clear E; rename E1 into E].
Example C98_ex_two_arrays : let h := [AWrite 0 [1%Z]; ACall (CFit 0 (None : option unit)); AWrite 1 [2%Z]; ACall (CFitScore 1 None); AWrite 0 [3%Z]; ACall (CFitScore 0 None)] in untouched 1 h /\ ~ untouched 2 h.
Proof.
  intros h. split.
  - intros h1 a x h2 E Hi. unfold h in E. do 6 stp E Hi h1; destruct h1; discriminate.
  - intros U. specialize (U [AWrite 0 [1%Z]; ACall (CFit 0 None); AWrite 1 [2%Z]; ACall (CFitScore 1 None)] 0 [3%Z] [ACall (CFitScore 0 None)] eq_refl). apply U. vm_compute. auto.
Qed.
Example C98_ex_fresh : let h := [AWrite 0 [1%Z]; ACall (CFit 0 (None : option unit)); AWrite 1 [2%Z]; ACall (CFitScore 1 None)] in (forall k, untouched k h) /\ seen (fun _ => []) h = [CFit [1%Z] None; CFitScore [2%Z] None].
Proof.
  intros h. split; [|reflexivity]. intros k h1 a x h2 E Hi. assert (I : In a (handed h1)) by (unfold lastn in Hi; rewrite <- (firstn_skipn (length (handed h1) - k) (handed h1)); apply in_or_app; right; exact Hi).
  clear Hi. unfold h in E.
  do 4 stp E I h1; destruct h1; discriminate.
Qed.
