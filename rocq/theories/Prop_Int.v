(** * C139: instances whose values have a numpy integer type. *)
From Coq Require Import List ZArith Lia Bool Reals Lra.
From Verif Require Import Base Num Spec Model_Stats Model_Utils Model_Core Model_Simple Model_KNN Model_Int P_Lists P_Models Prop_Units Prop_Features.
Import ListNotations.
Open Scope R_scope.

(** ** Specification *)
(** The integer is a value of the type. *)
Definition fits (ty : inttype) (z : Z) : Prop :=
  match ty with UInt w => (0 <= z < 2 ^ Z.of_nat w)%Z | SInt w => (1 <= w)%nat /\ (- 2 ^ (Z.of_nat w - 1) <= z < 2 ^ (Z.of_nat w - 1))%Z end.
(** A client's calls with integer instances, and the same calls with the real numbers they stand for. *)
Definition typed {Y} (h : list (mcall (list Z) Y)) : list (mcall (list tnum) Y) := map (call_map (map TI)) h.
Definition exact {Y} (h : list (mcall (list Z) Y)) : list (mcall (list R) Y) := map (call_map (map IZR)) h.
Definition call_arg {X Y} (o : mcall X Y) : X := match o with CFit x _ => x | CScore x => x | CFitScore x _ => x end.
(** Every value in every call has the property. *)
Definition all_values {Y} (P : Z -> Prop) (h : list (mcall (list Z) Y)) : Prop := Forall (fun o => Forall P (call_arg o)) h.
(** The same answer: the same exception, or the same numbers. *)
Definition pyval_map {A B} (f : A -> B) (v : pyval A) : pyval B := match v with VNone => VNone | VScalar a => VScalar (f a) | VArray l => VArray (map f l) end.
Definition agrees (a : res (pyval (npres tnum))) (b : res (pyval (npres R))) : Prop := rmap (pyval_map (npmap tval)) a = b.
Definition mop_map {A B} (f : A -> B) (o : mop A) : mop B := match o with Upd x => Upd (f x) | Rem x => Rem (f x) | Get => Get end.
Definition mop_ok (P : Z -> Prop) (o : mop Z) : Prop := match o with Upd z => P z | Rem z => P z | Get => True end.

(** ** Wrapping *)
Lemma wrap_fits : forall ty z, fits ty z -> wrap ty z = z.
Proof.
  intros [w|w] z; cbn [fits wrap]; [intros H; apply Z.mod_small; exact H|]. intros [Hw H]. assert (E : (2 ^ Z.of_nat w = 2 * 2 ^ (Z.of_nat w - 1))%Z) by (rewrite <- Z.pow_succ_r by lia; f_equal; lia). rewrite Z.mod_small by lia. lia.
Qed.
Lemma unsigned_wraps : forall w z, (- 2 ^ Z.of_nat w <= z < 0)%Z -> wrap (UInt w) z = (z + 2 ^ Z.of_nat w)%Z.
Proof. intros w z H. cbn [wrap]. symmetry. apply (Z.mod_unique_pos _ _ (-1)); lia. Qed.
Lemma unsigned_carry : forall w z, (2 ^ Z.of_nat w <= z < 2 * 2 ^ Z.of_nat w)%Z -> wrap (UInt w) z = (z - 2 ^ Z.of_nat w)%Z.
Proof. intros w z H. cbn [wrap]. symmetry. apply (Z.mod_unique_pos _ _ 1); lia. Qed.

(** ** Two programs in step *)
Definition res_rel {A1 A2} (RA : A1 -> A2 -> Prop) (a : res A1) (b : res A2) : Prop := match a, b with Ok x, Ok y => RA x y | Raise e, Raise e' => e = e' | _, _ => False end.
Definition sim {S1 S2 A1 A2} (RS : S1 -> S2 -> Prop) (RA : A1 -> A2 -> Prop) (m1 : M S1 A1) (m2 : M S2 A2) : Prop :=
  forall s1 s2, RS s1 s2 -> RS (snd (m1 s1)) (snd (m2 s2)) /\ res_rel RA (fst (m1 s1)) (fst (m2 s2)).
Lemma sim_bind : forall S1 S2 A1 A2 B1 B2 (RS : S1 -> S2 -> Prop) (RA : A1 -> A2 -> Prop) (RB : B1 -> B2 -> Prop) m1 m2 k1 k2,
  sim RS RA m1 m2 -> (forall a b, RA a b -> sim RS RB (k1 a) (k2 b)) -> sim RS RB (bind m1 k1) (bind m2 k2).
Proof.
  intros S1 S2 A1 A2 B1 B2 RS RA RB m1 m2 k1 k2 Hm Hk s1 s2 H. specialize (Hm s1 s2 H). unfold bind. destruct (m1 s1) as [[a|e] t1'], (m2 s2) as [[b|e'] t2']; cbn [fst snd res_rel] in *; destruct Hm as [H1 H2]; try contradiction.
  - apply (Hk a b H2 t1' t2' H1).
  - split; auto.
Qed.
Lemma sim_ret : forall S1 S2 A1 A2 (RS : S1 -> S2 -> Prop) (RA : A1 -> A2 -> Prop) a b, RA a b -> sim RS RA (ret a) (ret b).
Proof. intros S1 S2 A1 A2 RS RA a b H s1 s2 Hs. split; auto. Qed.
Lemma sim_lift : forall S1 S2 A1 A2 (RS : S1 -> S2 -> Prop) (RA : A1 -> A2 -> Prop) a b, res_rel RA a b -> sim RS RA (lift a) (lift b).
Proof. intros S1 S2 A1 A2 RS RA a b H s1 s2 Hs. split; auto. Qed.
Lemma sim_modify : forall S1 S2 (RS : S1 -> S2 -> Prop) f g, (forall s1 s2, RS s1 s2 -> RS (f s1) (g s2)) -> sim RS eq (modify f) (modify g).
Proof. intros S1 S2 RS f g H s1 s2 Hs. split; [apply H, Hs|reflexivity]. Qed.
Lemma sim_gets : forall S1 S2 A1 A2 (RS : S1 -> S2 -> Prop) (RA : A1 -> A2 -> Prop) f g, (forall s1 s2, RS s1 s2 -> RA (f s1) (g s2)) -> sim RS RA (gets f) (gets g).
Proof. intros S1 S2 A1 A2 RS RA f g H s1 s2 Hs. split; [exact Hs|apply H, Hs]. Qed.
Lemma sim_zoom : forall S1 S2 T1 T2 A1 A2 (RS : S1 -> S2 -> Prop) (RT : T1 -> T2 -> Prop) (RA : A1 -> A2 -> Prop) g1 p1 g2 p2 m1 m2,
  (forall s1 s2, RS s1 s2 -> RT (g1 s1) (g2 s2)) -> (forall t1 t2 s1 s2, RS s1 s2 -> RT t1 t2 -> RS (p1 t1 s1) (p2 t2 s2)) -> sim RT RA m1 m2 -> sim RS RA (zoom g1 p1 m1) (zoom g2 p2 m2).
Proof.
  intros S1 S2 T1 T2 A1 A2 RS RT RA g1 p1 g2 p2 m1 m2 Hg Hp Hm s1 s2 H. specialize (Hm _ _ (Hg s1 s2 H)). unfold zoom. destruct (m1 (g1 s1)) as [a t1'], (m2 (g2 s2)) as [b t2']. cbn [fst snd] in *. destruct Hm. split; auto.
Qed.
Lemma sim_run : forall Y A1 A2 (S1 S2 : Type) fit1 score1 fit2 score2 (P : Z -> Prop) (RS : S1 -> S2 -> Prop) (RA : pyval A1 -> pyval A2 -> Prop),
  (forall x y, Forall P x -> sim RS eq (fit1 (map TI x) y) (fit2 (map IZR x) y)) -> (forall x, Forall P x -> sim RS RA (score1 (map TI x)) (score2 (map IZR x))) ->
  forall (h : list (mcall (list Z) Y)) s1 s2, RS s1 s2 -> all_values P h -> RS (model_run (plain_model S1 fit1 score1) s1 (typed h)) (model_run (plain_model S2 fit2 score2) s2 (exact h)).
Proof.
  intros Y A1 A2 S1 S2 fit1 score1 fit2 score2 P RS RA Hf Hs h. induction h as [|o h IH]; intros s1 s2 H F; [exact H|]. inversion F as [|? ? Fo F']; subst. cbn [typed exact map]. unfold model_run. cbn [fold_left]. apply IH; [|exact F'].
  destruct o as [x y|x|x y]; cbn [call_arg] in Fo; unfold model_do, exec; cbn [call_map model_call plain_model md_fit md_score md_fit_score].
  - specialize (Hf x y Fo s1 s2 H). destruct (fit1 (map TI x) y s1), (fit2 (map IZR x) y s2). apply Hf.
  - specialize (Hs x Fo s1 s2 H). destruct (score1 (map TI x) s1), (score2 (map IZR x) s2). apply Hs.
  - unfold default_fit_score. assert (Q : sim RS RA (bind (fit1 (map TI x) y) (fun _ => score1 (map TI x))) (bind (fit2 (map IZR x) y) (fun _ => score2 (map IZR x)))) by (apply sim_bind with (RA := eq); [apply Hf, Fo|intros; apply Hs, Fo]).
    specialize (Q s1 s2 H). destruct (bind (fit1 (map TI x) y) (fun _ => score1 (map TI x)) s1), (bind (fit2 (map IZR x) y) (fun _ => score2 (map IZR x)) s2). apply Q.
Qed.

(** ** Numbers *)
Definition small (B : Z) (t : tnum) : Prop := match t with TI z => (Z.abs z <= B)%Z | TF _ => True end.
Definition trel (B : Z) (t : tnum) (r : R) : Prop := tval t = r /\ small B t.
Definition isF (t : tnum) (r : R) : Prop := t = TF r.
Section Ty.
Variable ty : inttype.
Let N := NumT ty.
Local Existing Instance N.
Lemma isF_rel : forall B t r, isF t r -> trel B t r.
Proof. intros B t r ->. split; cbn; auto. Qed.
Lemma add_F : forall t r B u s, isF t r -> trel B u s -> isF (nadd t u) (r + s).
Proof. intros t r B u s -> [<- _]. reflexivity. Qed.
Lemma sub_F : forall t r B u s, isF t r -> trel B u s -> isF (nsub t u) (r - s).
Proof. intros t r B u s -> [<- _]. reflexivity. Qed.
Lemma sub_F2 : forall t r B u s, trel B u s -> isF t r -> isF (nsub u t) (s - r).
Proof. intros t r B u s [<- _] ->. destruct u; reflexivity. Qed.
Lemma mul_F : forall t r u s, isF t r -> isF u s -> isF (nmul t u) (r * s).
Proof. intros t r u s -> ->. reflexivity. Qed.
Lemma div_F : forall B t r u s, trel B t r -> tval u = s -> isF (ndiv t u) (r / s).
Proof. intros B t r u s [<- _] <-. reflexivity. Qed.
Lemma div_int_F : forall B t r n, trel B t r -> res_rel isF (div_int t n) (div_int r n).
Proof. intros B t r n [<- _]. unfold div_int. destruct (n =? 0)%Z; cbn [res_rel]; reflexivity. Qed.
Lemma add_small : forall B t r u s, (forall z, (Z.abs z <= 2 * B)%Z -> wrap ty z = z) -> trel B t r -> trel B u s -> trel (2 * B) (nadd t u) (r + s).
Proof.
  intros B [x|x] r [y|y] s Hw [<- Ht] [<- Hu]; cbn -[Z.abs Z.mul Z.add Z.sub wrap] in *; try (split; [reflexivity|exact I]). rewrite Hw by lia. split; [cbn [tval]; apply plus_IZR|cbn [small]; lia].
Qed.
Lemma sub_small : forall B t r u s, (forall z, (Z.abs z <= 2 * B)%Z -> wrap ty z = z) -> trel B t r -> trel B u s -> trel (2 * B) (nsub t u) (r - s).
Proof.
  intros B [x|x] r [y|y] s Hw [<- Ht] [<- Hu]; cbn -[Z.abs Z.mul Z.add Z.sub wrap] in *; try (split; [reflexivity|exact I]). rewrite Hw by lia. split; [cbn [tval]; apply minus_IZR|cbn [small]; lia].
Qed.
Lemma abs_small : forall B t r, (forall z, (Z.abs z <= B)%Z -> wrap ty z = z) -> trel B t r -> trel B (nabs t) (Rabs r).
Proof. intros B [x|x] r Hw [<- Ht]; cbn -[Z.abs Z.mul wrap] in *; [|split; [reflexivity|exact I]]. rewrite Hw by lia. split; [cbn [tval]; apply abs_IZR|cbn [small]; lia]. Qed.

(** ** Sums, averages and variances *)
Definition sum_sim (s1 : sumst tnum) (s2 : sumst R) : Prop := isF (ss_sum s1) (ss_sum s2) /\ ss_n s1 = ss_n s2.
Lemma run_sim : forall (m1 : Meter tnum tnum) (m2 : Meter R R) (P : Z -> Prop) (RS : mt_state m1 -> mt_state m2 -> Prop) (RB : tnum -> R -> Prop), RS (mt_init m1) (mt_init m2) ->
  (forall z, P z -> sim RS eq (mt_update m1 (TI z)) (mt_update m2 (IZR z))) -> (forall z, P z -> sim RS eq (mt_remove m1 (TI z)) (mt_remove m2 (IZR z))) -> sim RS RB (mt_get m1) (mt_get m2) ->
  forall h, Forall (mop_ok P) h -> res_rel RB (mt_answer m1 (map (mop_map TI) h)) (mt_answer m2 (map (mop_map IZR) h)).
Proof.
  intros m1 m2 P RS RB H0 Hu Hr Hg h F. assert (G : RS (mt_run m1 (map (mop_map TI) h)) (mt_run m2 (map (mop_map IZR) h))).
  { unfold mt_run. revert H0. generalize (mt_init m1) (mt_init m2). induction h as [|o h IH]; intros s1 s2 H; [exact H|]. inversion F as [|? ? Fo F']; subst. cbn [map fold_left]. apply IH; [exact F'|].
    destruct o as [z|z|]; cbn [mop_map mt_do mop_ok] in *; unfold exec; [apply (Hu z Fo s1 s2 H)|apply (Hr z Fo s1 s2 H)|apply (Hg s1 s2 H)]. }
  unfold mt_answer, eval. apply (Hg _ _ G).
Qed.
Lemma sum_update : forall B t r, trel B t r -> sim sum_sim eq (mt_update SumMeter t) (mt_update SumMeter r).
Proof. intros B t r H. apply sim_modify. intros s1 s2 [H1 H2]. split; cbn [ss_sum ss_n]; [eapply add_F; eauto|congruence]. Qed.
Lemma sum_remove : forall B t r, trel B t r -> sim sum_sim eq (mt_remove SumMeter t) (mt_remove SumMeter r).
Proof. intros B t r H. apply sim_modify. intros s1 s2 [H1 H2]. split; cbn [ss_sum ss_n]; [eapply sub_F; eauto|congruence]. Qed.
Lemma rel_TI : forall z, trel (Z.abs z) (TI z) (IZR z).
Proof. intros z. split; [reflexivity|cbn; lia]. Qed.
Lemma rel_sq : forall z, wrap ty (z * z) = (z * z)%Z -> trel (Z.abs (z * z)) (nsq (TI z)) (nsq (IZR z)).
Proof. intros z H. unfold nsq. cbn -[Z.abs Z.mul wrap]. rewrite H. split; [cbn [tval]; apply mult_IZR|cbn [small]; lia]. Qed.
Lemma sq_update : forall z, wrap ty (z * z) = (z * z)%Z -> sim sum_sim eq (mt_update SumSquaresMeter (TI z)) (mt_update SumSquaresMeter (IZR z)).
Proof. intros z H. apply sim_modify. intros s1 s2 [H1 H2]. split; cbn [ss_sum ss_n]; [eapply add_F; [exact H1|apply rel_sq, H]|congruence]. Qed.
Lemma sq_remove : forall z, wrap ty (z * z) = (z * z)%Z -> sim sum_sim eq (mt_remove SumSquaresMeter (TI z)) (mt_remove SumSquaresMeter (IZR z)).
Proof. intros z H. apply sim_modify. intros s1 s2 [H1 H2]. split; cbn [ss_sum ss_n]; [eapply sub_F; [exact H1|apply rel_sq, H]|congruence]. Qed.
Lemma avg_get : sim sum_sim isF (mt_get AverageMeter) (mt_get AverageMeter).
Proof.
  cbn [mt_get AverageMeter]. apply sim_bind with (RA := sum_sim); [apply sim_gets; auto|]. intros a b [H1 H2]. apply sim_lift. rewrite H2. apply div_int_F with (B := 0%Z). apply isF_rel, H1.
Qed.
Definition var_sim (s1 : varst tnum) (s2 : varst R) : Prop := sum_sim (vs_sum s1) (vs_sum s2) /\ sum_sim (vs_sq s1) (vs_sq s2) /\ vs_cnt s1 = vs_cnt s2.
Lemma var_update : forall z, wrap ty (z * z) = (z * z)%Z -> sim var_sim eq (mt_update VarianceMeter (TI z)) (mt_update VarianceMeter (IZR z)).
Proof.
  intros z H. cbn [mt_update VarianceMeter]. apply sim_bind with (RA := eq).
  { apply sim_zoom with (RT := sum_sim); [intros s1 s2 (A & B & C); exact B|intros t1 t2 s1 s2 (A & B & C) D; split; [exact A|split; [exact D|exact C]]|apply sq_update, H]. }
  intros _ _ _. apply sim_bind with (RA := eq).
  { apply sim_zoom with (RT := eq); [intros s1 s2 (A & B & C); exact C|intros t1 t2 s1 s2 (A & B & C) D; split; [exact A|split; [exact B|exact D]]|]. apply sim_modify. intros; congruence. }
  intros _ _ _. apply sim_zoom with (RT := sum_sim); [intros s1 s2 (A & B & C); exact A|intros t1 t2 s1 s2 (A & B & C) D; split; [exact D|split; [exact B|exact C]]|]. eapply sum_update, rel_TI.
Qed.
Lemma var_remove : forall z, wrap ty (z * z) = (z * z)%Z -> sim var_sim eq (mt_remove VarianceMeter (TI z)) (mt_remove VarianceMeter (IZR z)).
Proof.
  intros z H. cbn [mt_remove VarianceMeter]. apply sim_bind with (RA := eq).
  { apply sim_zoom with (RT := sum_sim); [intros s1 s2 (A & B & C); exact B|intros t1 t2 s1 s2 (A & B & C) D; split; [exact A|split; [exact D|exact C]]|apply sq_remove, H]. }
  intros _ _ _. apply sim_bind with (RA := eq).
  { apply sim_zoom with (RT := sum_sim); [intros s1 s2 (A & B & C); exact A|intros t1 t2 s1 s2 (A & B & C) D; split; [exact D|split; [exact B|exact C]]|]. eapply sum_remove, rel_TI. }
  intros _ _ _. apply sim_zoom with (RT := eq); [intros s1 s2 (A & B & C); exact C|intros t1 t2 s1 s2 (A & B & C) D; split; [exact A|split; [exact B|exact D]]|]. apply sim_modify. intros; congruence.
Qed.
Lemma var_get : sim var_sim isF (mt_get VarianceMeter) (mt_get VarianceMeter).
Proof.
  cbn [mt_get VarianceMeter]. apply sim_bind with (RA := isF).
  { apply sim_zoom with (RT := sum_sim); [intros s1 s2 (A & B & C); exact B|intros t1 t2 s1 s2 (A & B & C) D; split; [exact A|split; [exact D|exact C]]|]. apply sim_gets. intros s1 s2 [H _]. exact H. }
  intros sq1 sq2 Hsq. apply sim_bind with (RA := isF).
  { apply sim_zoom with (RT := sum_sim); [intros s1 s2 (A & B & C); exact A|intros t1 t2 s1 s2 (A & B & C) D; split; [exact D|split; [exact B|exact C]]|]. apply sim_gets. intros s1 s2 [H _]. exact H. }
  intros sm1 sm2 Hsm. apply sim_bind with (RA := eq).
  { apply sim_zoom with (RT := eq); [intros s1 s2 (A & B & C); exact C|intros t1 t2 s1 s2 (A & B & C) D; split; [exact A|split; [exact B|exact D]]|]. apply sim_gets. auto. }
  intros c1 c2 ->. apply sim_bind with (RA := isF).
  { apply sim_lift. apply div_int_F with (B := 0%Z), isF_rel. unfold nsq. apply mul_F; exact Hsm. }
  intros q1 q2 Hq. apply sim_lift, (div_int_F 0%Z), isF_rel. eapply sub_F; [exact Hsq|apply (isF_rel 0%Z), Hq].
Qed.

(** ** Medians *)
Lemma siftdown_map : forall fuel x heap pos, map tval (siftdown fuel x heap pos) = siftdown fuel (tval x) (map tval heap) pos.
Proof.
  induction fuel as [|fuel IH]; intros x heap pos; cbn [siftdown]; [symmetry; apply set_nth_map|]. destruct pos as [|pos]; [symmetry; apply set_nth_map|]. rewrite nth_error_map. destruct (nth_error heap ((S pos - 1) / 2)) as [p|]; cbn [option_map]; [|symmetry; apply set_nth_map].
  change (@oltb tnum _ x p) with (Rltb (tval x) (tval p)). change (@oltb R _ (tval x) (tval p)) with (Rltb (tval x) (tval p)). destruct (Rltb (tval x) (tval p)); [rewrite IH, set_nth_map; reflexivity|symmetry; apply set_nth_map].
Qed.
Lemma heappush_map : forall heap x, map tval (heappush heap x) = heappush (map tval heap) (tval x).
Proof. intros heap x. unfold heappush. rewrite siftdown_map, map_app, map_length. reflexivity. Qed.
Lemma insert_map : forall x l, map tval (insert_sorted x l) = insert_sorted (tval x) (map tval l).
Proof. intros x l. induction l as [|y l IH]; cbn [insert_sorted map]; [reflexivity|]. change (@oleb tnum _ x y) with (Rleb (tval x) (tval y)). change (@oleb R _ (tval x) (tval y)) with (Rleb (tval x) (tval y)). destruct (Rleb (tval x) (tval y)); cbn [map]; [reflexivity|rewrite IH; reflexivity]. Qed.
Lemma sorted_map : forall l, map tval (sorted l) = sorted (map tval l).
Proof. intros l. induction l as [|x l IH]; [reflexivity|]. unfold sorted in *. cbn [fold_right map]. rewrite insert_map, IH. reflexivity. Qed.
Lemma set_nth_Forall : forall (Q : tnum -> Prop) i v l, Q v -> Forall Q l -> Forall Q (set_nth i v l).
Proof. intros Q i v l Hv F. revert i. induction F as [|a l Ha F IH]; intros [|i]; cbn; auto. Qed.
Lemma siftdown_Forall : forall (Q : tnum -> Prop) fuel x heap pos, Q x -> Forall Q heap -> Forall Q (siftdown fuel x heap pos).
Proof.
  intros Q fuel. induction fuel as [|fuel IH]; intros x heap pos Hx F; cbn [siftdown]; [apply set_nth_Forall; auto|]. destruct pos as [|pos]; [apply set_nth_Forall; auto|]. destruct (nth_error heap ((S pos - 1) / 2)) as [p|] eqn:E; [|apply set_nth_Forall; auto].
  destruct (oltb x p); [|apply set_nth_Forall; auto]. apply IH; auto. apply set_nth_Forall; auto. rewrite Forall_forall in F. apply F. eapply nth_error_In, E.
Qed.
Lemma sorted_Forall : forall (Q : tnum -> Prop) l, Forall Q l -> Forall Q (sorted l).
Proof.
  intros Q l F. induction F as [|x l Hx F IH]; [constructor|]. unfold sorted in *. cbn [fold_right]. revert IH. generalize (fold_right insert_sorted [] l). intros k Hk. induction Hk as [|y k Hy Hk IH]; cbn [insert_sorted]; [constructor; auto|]. destruct (oleb x y); constructor; auto.
Qed.
Definition med_sim (B : Z) (s1 : medst tnum) (s2 : medst R) : Prop := md_lst s2 = map tval (md_lst s1) /\ md_n s1 = md_n s2 /\ Forall (small B) (md_lst s1).
Lemma med_update : forall B t r, trel B t r -> sim (med_sim B) eq (mt_update MedianMeter t) (mt_update MedianMeter r).
Proof.
  intros B t r [<- Ht]. apply sim_modify. intros s1 s2 (H1 & H2 & H3). split; [|split]; cbn [md_lst md_n]; [rewrite heappush_map, H1; reflexivity|congruence|]. unfold heappush. apply siftdown_Forall; auto. apply Forall_app. split; auto.
Qed.
Lemma py_index_rel : forall B l i, Forall (small B) l -> res_rel (trel B) (py_index l i) (py_index (map tval l) i).
Proof. intros B l i F. unfold py_index. rewrite nth_error_map. destruct (nth_error l i) as [t|] eqn:E; cbn; [|reflexivity]. split; [reflexivity|]. rewrite Forall_forall in F. apply F. eapply nth_error_In, E. Qed.
Lemma py_index_Z_rel : forall B l i, Forall (small B) l -> res_rel (trel B) (py_index_Z l i) (py_index_Z (map tval l) i).
Proof. intros B l i F. unfold py_index_Z. rewrite map_length. destruct (0 <=? i)%Z; [apply py_index_rel, F|]. destruct (0 <=? i + Z.of_nat (length l))%Z; [apply py_index_rel, F|reflexivity]. Qed.
Lemma med_get : forall B, (0 <= B)%Z -> (forall z, (Z.abs z <= 2 * B)%Z -> wrap ty z = z) -> sim (med_sim B) (trel B) (mt_get MedianMeter) (mt_get MedianMeter).
Proof.
  intros B HB Hw. cbn [mt_get MedianMeter]. apply sim_bind with (RA := eq).
  { apply sim_modify. intros s1 s2 (H1 & H2 & H3). split; [|split]; cbn [md_lst md_n]; [rewrite H1; symmetry; apply sorted_map|exact H2|apply sorted_Forall, H3]. }
  intros _ _ _. apply sim_bind with (RA := med_sim B); [apply sim_gets; auto|]. intros a b (H1 & H2 & H3). rewrite <- H2, H1. destruct (md_n a mod 2 =? 0)%Z; [|apply sim_lift, py_index_Z_rel, H3].
  apply sim_bind with (RA := trel B); [apply sim_lift, py_index_Z_rel, H3|]. intros x1 x2 Hx. apply sim_bind with (RA := trel B); [apply sim_lift, py_index_Z_rel, H3|]. intros y1 y2 Hy. apply sim_lift.
  assert (Q := div_int_F _ _ _ 2 (add_small B _ _ _ _ Hw Hx Hy)). cbn [nadd NumR] in Q |- *. destruct (div_int (nadd x1 y1) 2), (div_int (x2 + y2) 2); cbn [res_rel] in *; auto. apply isF_rel, Q.
Qed.

(** ** The detectors *)
Lemma deviation_rel : forall B eps ab x c1 c2 d1 d2, (forall z, (Z.abs z <= 2 * B)%Z -> wrap ty z = z) -> Forall (fun z => (Z.abs z <= B)%Z) x -> trel B c1 c2 -> isF d1 d2 ->
  pyval_map (npmap tval) (deviation_score (TF eps) ab (map TI x) c1 d1) = deviation_score eps ab (map IZR x) c2 d2.
Proof.
  intros B eps ab x c1 c2 d1 d2 Hw F Hc Hd. unfold deviation_score. cbn [pyval_map]. f_equal. rewrite !map_map. apply map_ext_in. intros z I. rewrite Forall_forall in F. specialize (F z I).
  assert (Hz : trel B (TI z) (IZR z)) by (split; [reflexivity|exact F]). destruct (sub_small B _ _ _ _ Hw Hz Hc) as [E _]. unfold isF in Hd. subst d1. unfold npdiv. cbn -[Z.abs wrap Reqb] in E |- *. destruct (Reqb (d2 + eps) 0).
  - destruct ab; reflexivity.
  - cbn -[Z.abs wrap Reqb]. destruct ab; cbn -[Z.abs wrap Reqb]; rewrite E; reflexivity.
Qed.
Lemma deviation_rel_mean : forall eps ab x c1 c2 d1 d2, isF c1 c2 -> isF d1 d2 -> pyval_map (npmap tval) (deviation_score (TF eps) ab (map TI x) c1 d1) = deviation_score eps ab (map IZR x) c2 d2.
Proof.
  intros eps ab x c1 c2 d1 d2 Hc Hd. unfold deviation_score. cbn [pyval_map]. f_equal. rewrite !map_map. apply map_ext_in. intros z I. unfold isF in Hc, Hd. subst c1 d1. unfold npdiv. cbn -[Z.abs wrap Reqb] in *. destruct (Reqb (d2 + eps) 0).
  - destruct ab; reflexivity.
  - destruct ab; reflexivity.
Qed.
Lemma the_value_rel : forall x, res_rel (fun t r => exists z, t = TI z /\ r = IZR z /\ In z x) (the_value (map TI x)) (the_value (map IZR x)).
Proof. intros [|z [|z' x]]; cbn; auto. exists z. auto. Qed.
Definition mad_sim (B : Z) (s1 : madst tnum) (s2 : madst R) : Prop := med_sim B (mad_median s1) (mad_median s2) /\ med_sim (2 * B) (mad_mad s1) (mad_mad s2).
Lemma on_median_sim : forall A1 A2 (RA : A1 -> A2 -> Prop) B m1 m2, sim (med_sim B) RA m1 m2 -> sim (mad_sim B) RA (on_median m1) (on_median m2).
Proof. intros A1 A2 RA B m1 m2 H. unfold on_median. apply sim_zoom with (RT := med_sim B); auto; [intros s1 s2 [H1 H2]; exact H1|intros t1 t2 s1 s2 [H1 H2] H3; split; auto]. Qed.
Lemma on_mad_sim : forall A1 A2 (RA : A1 -> A2 -> Prop) B m1 m2, sim (med_sim (2 * B)) RA m1 m2 -> sim (mad_sim B) RA (on_mad m1) (on_mad m2).
Proof. intros A1 A2 RA B m1 m2 H. unfold on_mad. apply sim_zoom with (RT := med_sim (2 * B)); auto; [intros s1 s2 [H1 H2]; exact H2|intros t1 t2 s1 s2 [H1 H2] H3; split; auto]. Qed.
End Ty.

Lemma rel_agrees : forall a b, res_rel (fun a b => pyval_map (npmap tval) a = b) a b -> agrees a b.
Proof. intros [a|e] [b|e'] H; cbn [res_rel] in H; try contradiction; unfold agrees; cbn [rmap]; rewrite H; reflexivity. Qed.

(** ** Theorems *)
(** Sums and averages are right for every integer type and every history of updates and removals. *)
Theorem C139_sums : forall ty h,
  rmap tval (@mt_answer tnum tnum (@SumMeter tnum (NumT ty)) (map (mop_map TI) h)) = mt_answer SumMeter (map (mop_map IZR) h) /\
  rmap tval (@mt_answer tnum tnum (@AverageMeter tnum (NumT ty)) (map (mop_map TI) h)) = mt_answer AverageMeter (map (mop_map IZR) h).
Proof.
  assert (G : forall (m1 : Meter tnum tnum) (m2 : Meter R R) (RS : mt_state m1 -> mt_state m2 -> Prop), RS (mt_init m1) (mt_init m2) -> (forall z, sim RS eq (mt_update m1 (TI z)) (mt_update m2 (IZR z))) -> (forall z, sim RS eq (mt_remove m1 (TI z)) (mt_remove m2 (IZR z))) ->
    sim RS isF (mt_get m1) (mt_get m2) -> forall h, rmap tval (mt_answer m1 (map (mop_map TI) h)) = mt_answer m2 (map (mop_map IZR) h)).
  { intros m1 m2 RS H0 Hu Hr Hg h. pose proof (run_sim m1 m2 (fun _ => True) RS isF H0 (fun z _ => Hu z) (fun z _ => Hr z) Hg h) as Q. destruct (mt_answer m1 (map (mop_map TI) h)), (mt_answer m2 (map (mop_map IZR) h)); cbn [res_rel] in Q; try (specialize (Q ltac:(apply Forall_forall; intros [z|z|] _; exact I))); try contradiction; cbn; [rewrite Q; reflexivity|congruence]. }
  intros ty h. split.
  - apply (G (@SumMeter tnum (NumT ty)) SumMeter sum_sim).
    + split; reflexivity.
    + intros z. eapply sum_update, rel_TI.
    + intros z. eapply sum_remove, rel_TI.
    + apply sim_gets. intros s1 s2 [H _]. exact H.
  - apply (G (@AverageMeter tnum (NumT ty)) AverageMeter sum_sim).
    + split; reflexivity.
    + intros z. eapply (sum_update ty), rel_TI.
    + intros z. eapply (sum_remove ty), rel_TI.
    + apply avg_get.
Qed.
Print Assumptions C139_sums.
(** Variances are right as long as the square of every value is a value of the type. *)
Theorem C139_variance : forall ty h, Forall (mop_ok (fun z => fits ty (z * z))) h ->
  rmap tval (@mt_answer tnum tnum (@VarianceMeter tnum (NumT ty)) (map (mop_map TI) h)) = mt_answer VarianceMeter (map (mop_map IZR) h).
Proof.
  intros ty h F. assert (Q : res_rel isF (@mt_answer tnum tnum (@VarianceMeter tnum (NumT ty)) (map (mop_map TI) h)) (mt_answer VarianceMeter (map (mop_map IZR) h))).
  { apply (run_sim (@VarianceMeter tnum (NumT ty)) VarianceMeter (fun z => fits ty (z * z)) (var_sim ty) isF); auto.
    - repeat split.
    - intros z Hz. apply var_update, wrap_fits, Hz.
    - intros z Hz. apply var_remove, wrap_fits, Hz.
    - apply var_get. }
  destruct (@mt_answer tnum tnum (@VarianceMeter tnum (NumT ty)) (map (mop_map TI) h)), (mt_answer VarianceMeter (map (mop_map IZR) h)); cbn [res_rel] in Q; try contradiction; cbn; [rewrite Q; reflexivity|congruence].
Qed.
Print Assumptions C139_variance.
(** StandardAbsoluteDeviation around the mean: squares that fit are enough. *)
Theorem C139_standard_deviation : forall Y ty eps ab (h : list (mcall (list Z) Y)) x, all_values (fun z => fits ty (z * z)) h ->
  agrees (eval (md_score (@StandardAbsoluteDeviation Y tnum (NumT ty) (TF eps) ab (@AverageMeter tnum (NumT ty))) (map TI x)) (model_run (@StandardAbsoluteDeviation Y tnum (NumT ty) (TF eps) ab (@AverageMeter tnum (NumT ty))) (@SAD_init tnum (NumT ty) (@AverageMeter tnum (NumT ty))) (typed h)))
         (eval (md_score (StandardAbsoluteDeviation eps ab AverageMeter) (map IZR x)) (model_run (StandardAbsoluteDeviation eps ab AverageMeter) (SAD_init AverageMeter) (exact h))).
Proof.
  intros Y ty eps ab h x F. set (RS := fun (s1 : @varst tnum (NumT ty) * sumst tnum) (s2 : varst R * sumst R) => var_sim ty (fst s1) (fst s2) /\ sum_sim (snd s1) (snd s2)).
  assert (Z1 : forall A1 A2 (RA : A1 -> A2 -> Prop) m1 m2, sim (var_sim ty) RA m1 m2 -> sim RS RA (zoom fst (fun t s => (t, snd s)) m1) (zoom fst (fun t s => (t, snd s)) m2)).
  { intros A1 A2 RA m1 m2 H. apply sim_zoom with (RT := var_sim ty); auto; [intros s1 s2 [H1 H2]; exact H1|intros t1 t2 s1 s2 [H1 H2] H3; split; auto]. }
  assert (Z2 : forall A1 A2 (RA : A1 -> A2 -> Prop) m1 m2, sim sum_sim RA m1 m2 -> sim RS RA (zoom snd (fun t s => (fst s, t)) m1) (zoom snd (fun t s => (fst s, t)) m2)).
  { intros A1 A2 RA m1 m2 H. apply sim_zoom with (RT := sum_sim); auto; [intros s1 s2 [H1 H2]; exact H2|intros t1 t2 s1 s2 [H1 H2] H3; split; auto]. }
  assert (SC : forall x, sim RS (fun a b => pyval_map (npmap tval) a = b) (md_score (@StandardAbsoluteDeviation Y tnum (NumT ty) (TF eps) ab (@AverageMeter tnum (NumT ty))) (map TI x)) (md_score (StandardAbsoluteDeviation (Y := Y) eps ab AverageMeter) (map IZR x))).
  { intros u. cbn [md_score StandardAbsoluteDeviation plain_model]. apply sim_bind with (RA := isF); [apply Z2, avg_get|]. intros c1 c2 Hc. apply sim_bind with (RA := isF); [apply Z1, var_get|]. intros q1 q2 Hq. apply sim_ret. apply deviation_rel_mean; auto. rewrite Hq. reflexivity. }
  assert (G : RS (model_run (@StandardAbsoluteDeviation Y tnum (NumT ty) (TF eps) ab (@AverageMeter tnum (NumT ty))) (@SAD_init tnum (NumT ty) (@AverageMeter tnum (NumT ty))) (typed h)) (model_run (StandardAbsoluteDeviation eps ab AverageMeter) (SAD_init AverageMeter) (exact h))).
  { apply (sim_run Y _ _ _ _ _ _ _ _ (fun z => fits ty (z * z)) RS (fun a b => pyval_map (npmap tval) a = b)).
    - intros v y Fv. apply sim_bind with (RA := fun t r => exists z, t = TI z /\ r = IZR z /\ In z v); [apply sim_lift, the_value_rel|]. intros t r (z & -> & -> & I). rewrite Forall_forall in Fv. specialize (Fv z I).
      apply sim_bind with (RA := eq); [apply Z1, var_update, wrap_fits, Fv|]. intros _ _ _. apply Z2. eapply (sum_update ty), rel_TI.
    - intros v _. apply SC.
    - split; repeat split.
    - exact F. }
  destruct (SC x _ _ G) as [_ Q]. apply rel_agrees. exact Q.
Qed.
Print Assumptions C139_standard_deviation.
(** MedianAbsoluteDeviation: signed types are right as long as no value exceeds a quarter of the range. *)
Theorem C139_median_deviation : forall Y ty eps b ab M (h : list (mcall (list Z) Y)) x, (0 <= M)%Z -> (forall z, (Z.abs z <= 4 * M)%Z -> fits ty z) ->
  all_values (fun z => (Z.abs z <= M)%Z) h -> Forall (fun z => (Z.abs z <= M)%Z) x ->
  agrees (eval (md_score (@MedianAbsoluteDeviation Y tnum (NumT ty) (TF eps) (TF b) ab) (map TI x)) (model_run (@MedianAbsoluteDeviation Y tnum (NumT ty) (TF eps) (TF b) ab) (@MAD_init tnum (NumT ty)) (typed h)))
         (eval (md_score (MedianAbsoluteDeviation eps b ab) (map IZR x)) (model_run (MedianAbsoluteDeviation eps b ab) MAD_init (exact h))).
Proof.
  intros Y ty eps b ab B h x HB HF F Fx. assert (W : forall z, (Z.abs z <= 4 * B)%Z -> wrap ty z = z) by (intros; apply wrap_fits; auto).
  assert (W1 : forall z, (Z.abs z <= 2 * B)%Z -> wrap ty z = z) by (intros; apply W; lia). assert (W2 : forall z, (Z.abs z <= 2 * (2 * B))%Z -> wrap ty z = z) by (intros; apply W; lia).
  assert (SC : forall x, Forall (fun z => (Z.abs z <= B)%Z) x -> sim (mad_sim B) (fun a b => pyval_map (npmap tval) a = b) (md_score (@MedianAbsoluteDeviation Y tnum (NumT ty) (TF eps) (TF b) ab) (map TI x)) (md_score (MedianAbsoluteDeviation (Y := Y) eps b ab) (map IZR x))).
  { intros u Fu. cbn [md_score MedianAbsoluteDeviation plain_model]. apply sim_bind with (RA := trel B); [apply on_median_sim, med_get; auto|]. intros c1 c2 Hc. apply sim_bind with (RA := trel (2 * B)); [apply on_mad_sim, med_get; auto; lia|]. intros d1 d2 [Hd _]. apply sim_ret.
    apply (deviation_rel ty B); auto. unfold isF. rewrite <- Hd. cbn. reflexivity. }
  assert (G : mad_sim B (model_run (@MedianAbsoluteDeviation Y tnum (NumT ty) (TF eps) (TF b) ab) (@MAD_init tnum (NumT ty)) (typed h)) (model_run (MedianAbsoluteDeviation eps b ab) MAD_init (exact h))).
  { apply (sim_run Y _ _ _ _ _ _ _ _ (fun z => (Z.abs z <= B)%Z) (mad_sim B) (fun a b => pyval_map (npmap tval) a = b)).
    - intros v y Fv. apply sim_bind with (RA := fun t r => exists z, t = TI z /\ r = IZR z /\ In z v); [apply sim_lift, the_value_rel|]. intros t r (z & -> & -> & I). rewrite Forall_forall in Fv. specialize (Fv z I). assert (Hz : trel B (TI z) (IZR z)) by (split; [reflexivity|exact Fv]).
      apply sim_bind with (RA := eq); [apply on_median_sim, med_update, Hz|]. intros _ _ _. apply sim_bind with (RA := trel B); [apply on_median_sim, med_get; auto|]. intros c1 c2 Hc. apply on_mad_sim, med_update. apply abs_small; auto. apply (sub_small ty B); auto.
    - apply SC.
    - split; (split; [reflexivity|split; [reflexivity|constructor]]).
    - exact F. }
  destruct (SC x Fx _ _ G) as [_ Q]. apply rel_agrees. exact Q.
Qed.
Print Assumptions C139_median_deviation.
(** Around the median twice every value has to fit too. *)
Theorem C139_standard_deviation_median : forall Y ty eps ab M (h : list (mcall (list Z) Y)) x, (0 <= M)%Z -> (forall z, (Z.abs z <= 2 * M)%Z -> fits ty z) ->
  all_values (fun z => fits ty (z * z) /\ (Z.abs z <= M)%Z) h -> Forall (fun z => (Z.abs z <= M)%Z) x ->
  agrees (eval (md_score (@StandardAbsoluteDeviation Y tnum (NumT ty) (TF eps) ab (@MedianMeter tnum (NumT ty))) (map TI x)) (model_run (@StandardAbsoluteDeviation Y tnum (NumT ty) (TF eps) ab (@MedianMeter tnum (NumT ty))) (@SAD_init tnum (NumT ty) (@MedianMeter tnum (NumT ty))) (typed h)))
         (eval (md_score (StandardAbsoluteDeviation eps ab MedianMeter) (map IZR x)) (model_run (StandardAbsoluteDeviation eps ab MedianMeter) (SAD_init MedianMeter) (exact h))).
Proof.
  intros Y ty eps ab B h x HB HF F Fx. assert (W : forall z, (Z.abs z <= 2 * B)%Z -> wrap ty z = z) by (intros; apply wrap_fits; auto).
  set (RS := fun (s1 : @varst tnum (NumT ty) * medst tnum) (s2 : varst R * medst R) => var_sim ty (fst s1) (fst s2) /\ med_sim B (snd s1) (snd s2)).
  assert (Z1 : forall A1 A2 (RA : A1 -> A2 -> Prop) m1 m2, sim (var_sim ty) RA m1 m2 -> sim RS RA (zoom fst (fun t s => (t, snd s)) m1) (zoom fst (fun t s => (t, snd s)) m2)).
  { intros A1 A2 RA m1 m2 H. apply sim_zoom with (RT := var_sim ty); auto; [intros s1 s2 [H1 H2]; exact H1|intros t1 t2 s1 s2 [H1 H2] H3; split; auto]. }
  assert (Z2 : forall A1 A2 (RA : A1 -> A2 -> Prop) m1 m2, sim (med_sim B) RA m1 m2 -> sim RS RA (zoom snd (fun t s => (fst s, t)) m1) (zoom snd (fun t s => (fst s, t)) m2)).
  { intros A1 A2 RA m1 m2 H. apply sim_zoom with (RT := med_sim B); auto; [intros s1 s2 [H1 H2]; exact H2|intros t1 t2 s1 s2 [H1 H2] H3; split; auto]. }
  assert (SC : forall x, Forall (fun z => fits ty (z * z) /\ (Z.abs z <= B)%Z) x \/ Forall (fun z => (Z.abs z <= B)%Z) x -> sim RS (fun a b => pyval_map (npmap tval) a = b) (md_score (@StandardAbsoluteDeviation Y tnum (NumT ty) (TF eps) ab (@MedianMeter tnum (NumT ty))) (map TI x)) (md_score (StandardAbsoluteDeviation (Y := Y) eps ab MedianMeter) (map IZR x))).
  { intros u Fu. assert (Fu' : Forall (fun z => (Z.abs z <= B)%Z) u) by (destruct Fu as [Fu|Fu]; [eapply Forall_impl; [|exact Fu]; cbn; tauto|exact Fu]). cbn [md_score StandardAbsoluteDeviation plain_model]. apply sim_bind with (RA := trel B); [apply Z2, med_get; auto|]. intros c1 c2 Hc. apply sim_bind with (RA := isF); [apply Z1, var_get|]. intros q1 q2 Hq. apply sim_ret. apply (deviation_rel ty B); auto. rewrite Hq. reflexivity. }
  assert (G : RS (model_run (@StandardAbsoluteDeviation Y tnum (NumT ty) (TF eps) ab (@MedianMeter tnum (NumT ty))) (@SAD_init tnum (NumT ty) (@MedianMeter tnum (NumT ty))) (typed h)) (model_run (StandardAbsoluteDeviation eps ab MedianMeter) (SAD_init MedianMeter) (exact h))).
  { apply (sim_run Y _ _ _ _ _ _ _ _ (fun z => fits ty (z * z) /\ (Z.abs z <= B)%Z) RS (fun a b => pyval_map (npmap tval) a = b)).
    - intros v y Fv. apply sim_bind with (RA := fun t r => exists z, t = TI z /\ r = IZR z /\ In z v); [apply sim_lift, the_value_rel|]. intros t r (z & -> & -> & I). rewrite Forall_forall in Fv. destruct (Fv z I) as [F1 F2].
      apply sim_bind with (RA := eq); [apply Z1, var_update, wrap_fits, F1|]. intros _ _ _. apply Z2, med_update. split; [reflexivity|exact F2].
    - intros v Fv. apply SC. left. exact Fv.
    - split; [repeat split|]. split; [reflexivity|split; [reflexivity|constructor]].
    - exact F. }
  destruct (SC x (or_intror Fx) _ _ G) as [_ Q]. apply rel_agrees. exact Q.
Qed.
Print Assumptions C139_standard_deviation_median.

(** ** Where the values of the type are too large, or unsigned *)
(** A value whose square wraps to 0 makes a variance negative. *)
Theorem C139_variance_refuted : forall ty z, (z <> 0)%Z -> wrap ty 0 = 0%Z -> wrap ty (z * z) = 0%Z ->
  @mt_answer tnum tnum (@VarianceMeter tnum (NumT ty)) [Upd (TI 0); Upd (TI z)] = Ok (TF (- (IZR z * IZR z / 4))) /\ - (IZR z * IZR z / 4) < 0 /\
  mt_answer VarianceMeter [Upd (IZR 0); Upd (IZR z)] = Ok (IZR z * IZR z / 4).
Proof.
  intros ty z Hz H0 Hw. assert (P : 0 < IZR z * IZR z) by (rewrite <- mult_IZR; apply (IZR_lt 0); nia). split; [|split; [lra|]].
  - unfold mt_answer, mt_run, eval. cbn -[wrap IZR Z.mul]. rewrite ?Z.mul_0_l, H0, Hw. unfold lift. do 2 f_equal. cbn [tval]. field.
  - unfold mt_answer, mt_run, eval. cbn -[IZR]. apply (f_equal Ok). unfold nsq. cbn [nmul NumR]. field.
Qed.
Print Assumptions C139_variance_refuted.
(** The median of two unsigned values can lie below both of them. *)
Theorem C139_median_refuted : forall w a b, (0 <= a <= b)%Z -> (b < 2 ^ Z.of_nat w)%Z -> (2 ^ Z.of_nat w <= a + b)%Z ->
  exists m, @mt_answer tnum tnum (@MedianMeter tnum (NumT (UInt w))) [Upd (TI a); Upd (TI b)] = Ok (TF m) /\ m = (IZR a + IZR b - IZR (2 ^ Z.of_nat w)) / 2 /\ m < IZR a.
Proof.
  intros w a b Hab Hb Hc. exists ((IZR a + IZR b - IZR (2 ^ Z.of_nat w)) / 2). split; [|split; [reflexivity|]].
  - assert (E : wrap (UInt w) (a + b) = (a + b - 2 ^ Z.of_nat w)%Z) by (apply unsigned_carry; lia). unfold mt_answer, mt_run, eval. cbn -[wrap IZR Z.pow Rltb Rleb]. assert (L1 : Rltb (IZR b) (IZR a) = false) by (apply Rltb_nlt; intros Q; apply lt_IZR in Q; lia). rewrite L1.
    cbn -[wrap IZR Z.pow Rltb Rleb]. assert (L2 : Rleb (IZR a) (IZR b) = true) by (apply Rleb_le, IZR_le; lia). rewrite L2. cbn -[wrap IZR Z.pow Rltb Rleb]. unfold lift. cbn -[wrap IZR Z.pow]. change (Pos.to_nat 1) with 1%nat. cbn -[wrap IZR Z.pow Z.add]. rewrite (Z.add_comm b a), E. apply (f_equal (fun r => Ok (TF r))). rewrite minus_IZR, plus_IZR. reflexivity.
  - apply IZR_lt in Hb. assert (0 <= IZR a) by (apply (IZR_le 0); lia). lra.
Qed.
Print Assumptions C139_median_refuted.
(** With an unsigned type a value below the median scores as if it lay 2^bits higher: the nearer it is the more anomalous. *)
Theorem C139_median_deviation_unsigned_refuted : forall w eps b ab u v, 0 < eps -> (0 <= u < v)%Z -> (v < 2 ^ Z.of_nat w)%Z ->
  let m := @MedianAbsoluteDeviation unit tnum (NumT (UInt w)) (TF eps) (TF b) ab in let s := model_run m (@MAD_init tnum (NumT (UInt w))) (typed [CFit [v] None]) in
  eval (md_score m [TI u]) s = Ok (VArray [FinV (TF ((IZR (2 ^ Z.of_nat w) - (IZR v - IZR u)) / eps))]) /\
  eval (md_score (MedianAbsoluteDeviation eps b ab) [IZR u]) (model_run (MedianAbsoluteDeviation eps b ab) MAD_init (exact [CFit [v] (@None unit)])) = Ok (VArray [FinV (if ab then (IZR v - IZR u) / eps else - ((IZR v - IZR u) / eps))]).
Proof.
  intros w eps b ab u v He Hu Hv m s. assert (E0 : wrap (UInt w) 0 = 0%Z) by (apply wrap_fits; cbn; lia). assert (E1 : wrap (UInt w) (u - v) = (u - v + 2 ^ Z.of_nat w)%Z) by (apply unsigned_wraps; lia).
  assert (P : 0 <= IZR v - IZR u) by (assert (IZR u < IZR v) by (apply IZR_lt; lia); lra). assert (Q : 0 <= IZR (2 ^ Z.of_nat w) - (IZR v - IZR u)) by (rewrite <- !minus_IZR; apply (IZR_le 0); lia).
  split.
  - subst s m. unfold typed, model_run, model_do, exec, eval. cbn -[wrap IZR Z.pow Reqb Z.sub]. rewrite Z.sub_diag, E0. cbn -[wrap IZR Z.pow Reqb Z.sub]. rewrite E0. cbn -[wrap IZR Z.pow Reqb Z.sub]. unfold deviation_score, npdiv. cbn -[wrap IZR Z.pow Reqb Z.sub]. rewrite E1.
    destruct (Reqb (b * 0 + eps) 0) eqn:R0; [apply Reqb_eq in R0; lra|]. assert (V : (IZR (u - v + 2 ^ Z.of_nat w)) / (b * 0 + eps) = (IZR (2 ^ Z.of_nat w) - (IZR v - IZR u)) / eps) by (rewrite plus_IZR, minus_IZR; field; lra).
    destruct ab; cbn -[wrap IZR Z.pow Reqb Z.sub]; rewrite V; do 5 f_equal. apply Rabs_pos_eq. apply Rmult_le_pos; [exact Q|left; apply Rinv_0_lt_compat; lra].
  - unfold exact, model_run, model_do, exec, eval. cbn -[IZR Reqb Rabs]. unfold deviation_score, npdiv. cbn -[IZR Reqb Rabs]. rewrite Rminus_diag_eq, Rabs_R0 by reflexivity. destruct (Reqb (b * 0 + eps) 0) eqn:R0; [apply Reqb_eq in R0; lra|].
    assert (V : (IZR u - IZR v) / (b * 0 + eps) = - ((IZR v - IZR u) / eps)) by (field; lra). destruct ab; cbn -[IZR Reqb Rabs]; rewrite V; do 4 f_equal. rewrite Rabs_Ropp. apply Rabs_pos_eq, Rmult_le_pos; [exact P|left; apply Rinv_0_lt_compat; lra].
Qed.
Print Assumptions C139_median_deviation_unsigned_refuted.
(** KNNCAD's initial distance is not symmetric on unsigned values: from a window one below, and from a window one above. *)
Theorem C139_knncad_distance_refuted : forall w, (0 < w)%nat ->
  let d := fun a b => tval (@kn_metric tnum (NumT (UInt w)) (@kn_identity tnum (NumT (UInt w))) (repeat (TI a) 19) (repeat (TI b) 19)) in
  forall v, (0 <= v)%Z -> (v + 1 < 2 ^ Z.of_nat w)%Z -> d (v + 1)%Z v = 19 /\ d v (v + 1)%Z = 19 * (IZR (2 ^ Z.of_nat w) - 1) * (IZR (2 ^ Z.of_nat w) - 1).
Proof.
  intros w Hw d v H0 H1.
  assert (G : forall a b, d a b = 19 * (IZR (wrap (UInt w) (a - b)) * IZR (wrap (UInt w) (a - b)))).
  { intros a b. subst d. cbv beta. unfold kn_metric, kn_identity, nsum. change kn_dim with 19%nat. cbn -[wrap IZR Z.sub]. ring. }
  rewrite !G. split.
  - rewrite (wrap_fits (UInt w)) by (cbn; lia). replace (v + 1 - v)%Z with 1%Z by lia. lra.
  - rewrite unsigned_wraps by lia. rewrite plus_IZR. replace (v - (v + 1))%Z with (-1)%Z by lia. lra.
Qed.
Print Assumptions C139_knncad_distance_refuted.

(** ** The hypotheses are met *)
Example C139_ex :
  (** an image's uint8 values: 200 and 100 have the median 22, 0 and 16 the variance -64, and 9 after 10 scores as 265 would *)
  (@mt_answer tnum tnum (@MedianMeter tnum (NumT (UInt 8))) [Upd (TI 100); Upd (TI 200)] = Ok (TF 22)) /\
  (@mt_answer tnum tnum (@VarianceMeter tnum (NumT (UInt 8))) [Upd (TI 0); Upd (TI 16)] = Ok (TF (-64))) /\
  (eval (md_score (@MedianAbsoluteDeviation unit tnum (NumT (UInt 8)) (TF 1) (TF 1) false) [TI 9]) (model_run (@MedianAbsoluteDeviation unit tnum (NumT (UInt 8)) (TF 1) (TF 1) false) (@MAD_init tnum (NumT (UInt 8))) (typed [CFit [10%Z] None])) = Ok (VArray [FinV (TF 255)])) /\
  (** int64: the square of 2^32 is stored as 0 *)
  wrap (SInt 64) (2 ^ 32 * 2 ^ 32) = 0%Z /\
  (** small values of int32 and int16, where everything fits *)
  Forall (fun z => fits (SInt 32) (z * z) /\ (Z.abs z <= 1000)%Z) [100; 200; 0; 16; 9; 10]%Z /\ (forall z, (Z.abs z <= 4 * 1000)%Z -> fits (SInt 16) z).
Proof.
  split; [|split; [|split; [|split; [|split]]]].
  - destruct (C139_median_refuted 8 100 200) as (m & E & -> & _); try (cbn; lia). rewrite E. apply (f_equal (fun r => Ok (TF r))). cbn -[IZR]. lra.
  - destruct (C139_variance_refuted (UInt 8) 16) as (E & _ & _); [lia|reflexivity|reflexivity|]. rewrite E. apply (f_equal (fun r => Ok (TF r))). lra.
  - destruct (C139_median_deviation_unsigned_refuted 8 1 1 false 9 10) as (E & _); [lra|lia|cbn; lia|]. cbv zeta in E. rewrite E. apply (f_equal (fun r => Ok (VArray [FinV (TF r)]))). cbn -[IZR]. lra.
  - reflexivity.
  - repeat constructor; cbn; lia.
  - intros z Hz. cbn. lia.
Qed.
Print Assumptions C139_ex.
