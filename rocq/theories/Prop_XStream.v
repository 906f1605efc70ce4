(** * Properties of xStream (C75-C77). *)
From Coq Require Import String.
From Coq Require Import List ZArith Lia Bool Reals Lra Arith.
From Verif Require Import Base Num Spec Model_Stats Model_Utils Model_Core Model_Trans Model_Simple Model_Sketch Model_XStream P_Lists P_Stats P_Utils P_Core P_Post P_Trans P_Models Prop_Utils Prop_Trans Prop_RSHash Prop_HST.
Import ListNotations.
Open Scope R_scope.
Local Notation length := List.length.

(** ** Specification *)
(** The bins of a projected instance after the feature tests [hits]: a feature tested c times has cells of width
    delta / 2^(c-1), shifted by a fraction rand; an untested feature is in one bin. *)
Definition bin (floor : R -> Z) (rand delta : list R) (hits : list nat) (z : list R) : list Z :=
  map (fun f => match count_occ Nat.eq_dec hits f with O => floor 0 | S c => floor (2 ^ c * (nth f z 0 / nth f delta 0) + nth f rand 0) end) (seq 0 (length z)).
(** Half the range of every component in a window, 1 where it is tiny; 1/2 for the first window. *)
Definition half_ranges (K : nat) (window : list (list R)) (delta : list R) : Prop :=
  length delta = K /\ forall j, (j < K)%nat -> exists mn mx, is_min mn (map (fun z => nth j z 0) window) /\ is_max mx (map (fun z => nth j z 0) window) /\
    nth j delta 0 = if Rle_dec ((mx - mn) / 2) (1 / 10000) then 1 else (mx - mn) / 2.
(** The ranges in use after q complete windows of the projected stream zs. *)
Definition ranges_after (K W q : nat) (zs : list (list R)) (delta : list R) : Prop :=
  match q with O => delta = repeat (1 / 2) K | S q' => half_ranges K (block W q' zs) delta end.
(** Number of instances of the reference window, binned with the ranges dref, in the bin of z for the ranges d. *)
Definition bin_count (floor : R -> Z) (rand dref d : list R) (hits : list nat) (ref : list (list R)) (z : list R) : nat :=
  length (filter (fun z' => if list_eq_dec Z.eq_dec (bin floor rand dref hits z') (bin floor rand d hits z) then true else false) ref).
Definition log2 (x : R) : R := ln x / ln 2.
(** The values log2(1 + count) + depth over the depths 1, 2, ... of a chain. *)
Definition depth_values (floor : R -> Z) (fs : list nat) (rand dref d : list R) (ref : list (list R)) (z : list R) : list R :=
  map (fun k => log2 (1 + INR (bin_count floor rand dref d (firstn k fs) ref z)) + INR k) (seq 1 (length fs)).
(** The random choices of the chains: depth >= 1 features and K shifts. *)
Definition chain_draws (K : nat) (draws : list (list nat * list R)) : Prop :=
  draws <> [] /\ Forall (fun d => fst d <> [] /\ Forall (fun f => (f < K)%nat) (fst d) /\ length (snd d) = K) draws.

(** ** Bins *)
Lemma nth_map_seq : forall B (g : nat -> B) n i d, (i < n)%nat -> nth i (map g (seq 0 n)) d = g i.
Proof. intros B g n i d H. rewrite (nth_indep _ d (g 0%nat)) by (rewrite map_length, seq_length; auto). rewrite map_nth. rewrite seq_nth; auto. Qed.
Definition prevalue (rand delta : list R) (hits : list nat) (z : list R) (f : nat) : R :=
  match count_occ Nat.eq_dec hits f with O => 0 | S c => 2 ^ c * (nth f z 0 / nth f delta 0) + nth f rand 0 end.
Lemma bin_alt : forall floor rand delta hits z, bin floor rand delta hits z = map (fun f => floor (prevalue rand delta hits z f)) (seq 0 (length z)).
Proof. intros. unfold bin, prevalue. apply map_ext. intros f. destruct (count_occ _ _ _); reflexivity. Qed.
Definition at_state (K : nat) (rand delta : list R) (hits : list nat) (z : list R) (st : list R * list nat) : Prop :=
  length (fst st) = K /\ length (snd st) = K /\ forall f, (f < K)%nat -> nth f (fst st) 0 = prevalue rand delta hits z f /\ nth f (snd st) 0%nat = count_occ Nat.eq_dec hits f.
Lemma shifts_nth : forall (rand delta : list R) f, length rand = length delta -> (f < length rand)%nat -> nth f (xc_shifts rand delta) 0 = nth f rand 0 * nth f delta 0.
Proof.
  intros rand delta f HL Hf. unfold xc_shifts. rewrite (nth_indep _ 0 ((fun p : R * R => nmul (fst p) (snd p)) (0, 0))) by (rewrite map_length, combine_length; lia).
  rewrite (map_nth (fun p : R * R => nmul (fst p) (snd p))), combine_nth by auto. reflexivity.
Qed.
Lemma prebin_step : forall K c z hits st f, length (xc_rand c) = K -> length (xc_delta c) = K -> xc_shift c = xc_shifts (xc_rand c) (xc_delta c) ->
  (f < K)%nat -> nth f (xc_delta c) 0 <> 0 -> at_state K (xc_rand c) (xc_delta c) hits z st -> at_state K (xc_rand c) (xc_delta c) (hits ++ [f]) z (xc_prebin c z st f).
Proof.
  intros K c z hits st f Hr Hd Hs Hf Hn (L1 & L2 & H). unfold xc_prebin, at_state. cbn [fst snd]. rewrite !set_nth_length. split; auto. split; auto.
  intros g Hg. rewrite count_occ_app. cbn [count_occ]. destruct (Nat.eq_dec f g) as [<-|Ne].
  - rewrite !nth_set_nth_eq by (rewrite ?L1, ?L2; auto). destruct (H f Hf) as [H1 H2]. rewrite H2. split; [|lia]. unfold prevalue. rewrite count_occ_app. cbn [count_occ]. destruct (Nat.eq_dec f f); [|congruence].
    rewrite Nat.add_1_r. rewrite Hs. change (@n0 R NumR) with 0. rewrite shifts_nth by (rewrite ?Hr, ?Hd; auto). rewrite H1. unfold prevalue. destruct (count_occ Nat.eq_dec hits f) as [|k]; cbn [Nat.eqb nadd nsub nmul ndiv nofZ NumR].
    + rewrite pow_O. field. auto.
    + change (2 ^ S k) with (2 * 2 ^ k). field. auto.
  - rewrite !nth_set_nth_neq by auto. rewrite Nat.add_0_r. destruct (H g Hg) as [H1 H2]. split; auto. rewrite H1. unfold prevalue. rewrite count_occ_app. cbn [count_occ]. destruct (Nat.eq_dec f g); [congruence|]. rewrite Nat.add_0_r. reflexivity.
Qed.
Lemma list_as_map : forall (l : list R) K (g : nat -> R), length l = K -> (forall f, (f < K)%nat -> nth f l 0 = g f) -> l = map g (seq 0 K).
Proof.
  intros l K g HL H. apply (nth_ext _ _ 0 0); [rewrite map_length, seq_length; auto|]. intros i Hi. rewrite nth_map_seq by lia. apply H. lia.
Qed.
Lemma keys_ok : forall floor K c z, length (xc_rand c) = K -> length (xc_delta c) = K -> xc_shift c = xc_shifts (xc_rand c) (xc_delta c) -> length z = K -> (forall f, (f < K)%nat -> nth f (xc_delta c) 0 <> 0) ->
  forall fs hits st, Forall (fun f => (f < K)%nat) fs -> at_state K (xc_rand c) (xc_delta c) hits z st ->
  xc_keys floor c z st fs = map (fun k => bin floor (xc_rand c) (xc_delta c) (hits ++ firstn k fs) z) (seq 1 (length fs)).
Proof.
  intros floor K c z Hr Hd Hs Hz Hn. induction fs as [|f fs IH]; intros hits st F A; [reflexivity|]. apply Forall_cons_iff in F. destruct F as [H1 H2]. cbn [xc_keys length seq map].
  pose proof (prebin_step K c z hits st f Hr Hd Hs H1 (Hn f H1) A) as A'. rewrite (IH (hits ++ [f]) _ H2 A'). f_equal.
  - cbn [firstn]. rewrite bin_alt. destruct A' as (L1 & _ & A'). rewrite (list_as_map _ _ _ L1 (fun f H => proj1 (A' f H))), map_map, Hz. reflexivity.
  - rewrite <- (seq_shift (length fs) 1), map_map. apply map_ext. intros k. cbn [firstn]. rewrite <- app_assoc. reflexivity.
Qed.
Lemma nth_repeat_any : forall B (a d : B) n i, (i < n)%nat -> nth i (repeat a n) d = a.
Proof. intros B a d n. induction n as [|n IH]; intros [|i] H; cbn; auto; try lia. apply IH. lia. Qed.
Lemma bins_ok : forall floor K c z, length (xc_rand c) = K -> length (xc_delta c) = K -> xc_shift c = xc_shifts (xc_rand c) (xc_delta c) -> length z = K -> (forall f, (f < K)%nat -> nth f (xc_delta c) 0 <> 0) -> Forall (fun f => (f < K)%nat) (xc_fs c) ->
  xc_bins floor c z = map (fun k => bin floor (xc_rand c) (xc_delta c) (firstn k (xc_fs c)) z) (seq 1 (length (xc_fs c))).
Proof.
  intros floor K c z Hr Hd Hs Hz Hn F. unfold xc_bins. apply (keys_ok floor K c z Hr Hd Hs Hz Hn (xc_fs c) []); auto.
  split; [cbn; rewrite repeat_length; auto|]. split; [cbn; rewrite repeat_length; auto|]. intros f Hf. cbn [fst snd]. rewrite nth_repeat_any by lia. rewrite nth_repeat_any by lia. split; reflexivity.
Qed.

(** ** Dictionaries *)
Definition cnt (key : list Z) (sk : list (list Z * Z)) : Z := match dict_get key sk with Some n => n | None => 0%Z end.
Lemma cnt_count : forall key k sk, cnt key (xc_count k sk) = (cnt key sk + (if keyeqb k key then 1 else 0))%Z.
Proof.
  intros key k sk. unfold cnt at 1, xc_count. rewrite dict_get_set. destruct (keyeqb_spec k key) as [->|N]; [reflexivity|]. fold (cnt key sk). lia.
Qed.
(** The dictionaries count the instances of a list, binned with [delta]. *)
Definition sketches_count (floor : R -> Z) (rand delta : list R) (fs : list nat) (zs : list (list R)) (sks : list (list (list Z * Z))) : Prop :=
  length sks = length fs /\ forall k, (1 <= k <= length fs)%nat -> forall key,
    cnt key (nth (k - 1) sks []) = Z.of_nat (length (filter (fun z => keyeqb (bin floor rand delta (firstn k fs) z) key) zs)).
Lemma sketches_nil : forall floor rand delta fs, sketches_count floor rand delta fs [] (repeat [] (length fs)).
Proof. intros. split; [apply repeat_length|]. intros k Hk key. rewrite nth_repeat_any by lia. reflexivity. Qed.
Lemma combine_nth_gen : forall B C D (g : B * C -> D) (a : list B) (b : list C) i da db dd, length a = length b -> (i < length a)%nat -> nth i (map g (combine a b)) dd = g (nth i a da, nth i b db).
Proof.
  intros B C D g a b i da db dd HL Hi. rewrite (nth_indep _ dd (g (da, db))) by (rewrite map_length, combine_length; lia). rewrite map_nth, combine_nth; auto.
Qed.
Lemma sketches_step : forall floor rand delta fs zs sks z, sketches_count floor rand delta fs zs sks ->
  sketches_count floor rand delta fs (zs ++ [z]) (map (fun p => xc_count (fst p) (snd p)) (combine (map (fun k => bin floor rand delta (firstn k fs) z) (seq 1 (length fs))) sks)).
Proof.
  intros floor rand delta fs zs sks z [L H]. split; [rewrite map_length, combine_length, map_length, seq_length; lia|]. intros k Hk key.
  rewrite (combine_nth_gen _ _ _ _ _ _ _ [] [] []) by (rewrite map_length, seq_length; lia). cbn [fst snd]. rewrite cnt_count, (H k Hk key), filter_app, app_length.
  rewrite (nth_indep _ [] ((fun k => bin floor rand delta (firstn k fs) z) 0%nat)) by (rewrite map_length, seq_length; lia).
  rewrite (map_nth (fun k => bin floor rand delta (firstn k fs) z)), seq_nth by lia. replace (1 + (k - 1))%nat with k by lia.
  cbn [filter]. destruct (keyeqb _ key); cbn [length]; lia.
Qed.

(** ** Invariant *)
Section XS.
Variables (Y : Type) (mmh3 : string -> nat -> Z) (p : shproj R) (floor : R -> Z) (K W : nat) (P : list R -> list R).
Hypothesis HP : forall x, xs_project 2 1 mmh3 p x = Ok (P x).
Hypothesis HK : forall x, length (P x) = K.
Hypothesis HW : (1 <= W)%nat.
Notation XM := (xStream (Y := Y) 2 1 (1 / 10000) mmh3 p floor log2 K W).
Definition chain_ok (dref delta : list R) (cur ref : list (list R)) (first : bool) (d : list nat * list R) (c : xchain R) : Prop :=
  xc_fs c = fst d /\ xc_rand c = snd d /\ xc_delta c = delta /\ xc_shift c = xc_shifts (snd d) delta /\ xc_first c = first /\
  sketches_count floor (snd d) dref (fst d) ref (xc_ref c) /\ sketches_count floor (snd d) delta (fst d) cur (xc_cur c).
Definition draw_ok (d : list nat * list R) : Prop := Forall (fun f => (f < K)%nat) (fst d) /\ length (snd d) = K.
Definition positive (delta : list R) : Prop := length delta = K /\ forall f, (f < K)%nat -> 1 / 10000 < nth f delta 0.
Lemma chain_bins : forall dref delta cur ref first d c z, draw_ok d -> positive delta -> chain_ok dref delta cur ref first d c -> length z = K ->
  xc_bins floor c z = map (fun k => bin floor (snd d) delta (firstn k (fst d)) z) (seq 1 (length (fst d))).
Proof.
  intros dref delta cur ref first d c z [D1 D2] [P1 P2] (E1 & E2 & E3 & E4 & _) Hz. rewrite (bins_ok floor K c z); rewrite ?E1, ?E2, ?E3, ?E4; auto.
  intros f Hf. specialize (P2 f Hf). lra.
Qed.
Lemma chain_fit : forall dref delta cur ref first d c z, draw_ok d -> positive delta -> length z = K -> (first = true -> dref = delta /\ ref = cur) ->
  chain_ok dref delta cur ref first d c -> chain_ok dref delta (cur ++ [z]) (if first then ref ++ [z] else ref) first d (xc_fit floor z c).
Proof.
  intros dref delta cur ref first d c z D Pd Hz Hf C. pose proof (chain_bins _ _ _ _ _ _ _ z D Pd C Hz) as B. destruct C as (E1 & E2 & E3 & E4 & E5 & S1 & S2).
  unfold xc_fit. rewrite B, E5. destruct first; unfold chain_ok; cbn [xc_fs xc_rand xc_delta xc_shift xc_first xc_ref xc_cur].
  - destruct (Hf eq_refl) as [-> ->]. repeat (split; [assumption || reflexivity|]). split; apply sketches_step; auto.
  - repeat (split; [assumption || reflexivity|]). apply sketches_step; auto.
Qed.
Lemma chain_next : forall dref delta delta' cur ref first d c, chain_ok dref delta cur ref first d c ->
  chain_ok delta delta' [] cur false d (xc_next_window (xc_set_deltamax delta' c)).
Proof.
  intros dref delta delta' cur ref first d c (E1 & E2 & E3 & E4 & E5 & S1 & S2). unfold chain_ok, xc_next_window, xc_set_deltamax. cbn [xc_fs xc_rand xc_delta xc_shift xc_first xc_ref xc_cur].
  rewrite E1, E2. repeat (split; [assumption || reflexivity|]). apply sketches_nil.
Qed.
Lemma deltamax_ok : forall window, window <> [] -> (forall z, In z window -> length z = K) ->
  exists delta, xs_compute_deltamax (1 / 10000) K window = Ok delta /\ half_ranges K window delta /\ positive delta.
Proof.
  intros window HN HL. destruct (C08_minmax_array R (@num_ord R NumR) OrdLawsR K window HN HL) as (mins & maxs & E & L1 & L2 & H). unfold xs_compute_deltamax. rewrite E. cbn [rmap fst snd]. eexists. split; [reflexivity|].
  set (g := fun q : R * R => xs_widen (1 / 10000) (ndiv (nsub (snd q) (fst q)) (nofZ 2))).
  assert (G : forall j, (j < K)%nat -> exists mn mx, is_min mn (map (fun z => nth j z 0) window) /\ is_max mx (map (fun z => nth j z 0) window) /\ nth j (map g (combine mins maxs)) 0 = if Rle_dec ((mx - mn) / 2) (1 / 10000) then 1 else (mx - mn) / 2).
  { intros j Hj. destruct (H j Hj) as (mn & mx & N1 & N2 & (r1 & I1 & R1) & (r2 & I2 & R2) & U). exists mn, mx. assert (Q : forall z, In z window -> mn <= nth j z 0 <= mx).
    { intros z Hz. assert (N : nth_error z j = Some (nth j z 0)) by (apply nth_error_nth'; rewrite HL; auto). destruct (U z _ Hz N) as [U1 U2]. apply Rleb_le in U1. apply Rleb_le in U2. split; auto. }
    split; [|split].
    - split; [apply in_map_iff; exists r1; split; auto; apply nth_error_nth; auto|]. intros a Ha. apply in_map_iff in Ha. destruct Ha as (z & <- & Hz). apply Q; auto.
    - split; [apply in_map_iff; exists r2; split; auto; apply nth_error_nth; auto|]. intros a Ha. apply in_map_iff in Ha. destruct Ha as (z & <- & Hz). apply Q; auto.
    - rewrite (combine_nth_gen _ _ _ g mins maxs j 0 0 0) by lia. rewrite (nth_error_nth mins j 0 N1), (nth_error_nth maxs j 0 N2). unfold g, xs_widen. cbn [fst snd oleb num_ord NumR OrdR nabs nsub ndiv nofZ]. unfold Rleb.
      assert (mn <= mx). { destruct (Q r1 I1). rewrite (nth_error_nth r1 j 0 R1) in *. lra. }
      rewrite Rabs_right by lra. destruct (Rle_dec ((mx - mn) / 2) (1 / 10000)); reflexivity. }
  assert (LL : length (map g (combine mins maxs)) = K) by (rewrite map_length, combine_length; lia).
  split; [split; auto|]. split; auto. intros f Hf. destruct (G f Hf) as (mn & mx & _ & _ & ->). destruct (Rle_dec _ _); lra.
Qed.
Definition xs_inv (draws : list (list nat * list R)) (xs : list (list R)) (s : xsst R) : Prop :=
  let zs := map P xs in let n := length xs in
  exists dref delta, ranges_after K W (n / W - 1) zs dref /\ ranges_after K W (n / W) zs delta /\ positive dref /\ positive delta /\ ((n < W)%nat -> dref = delta) /\
    xs_step s = n /\ xs_window s = current_window W zs /\
    Forall2 (chain_ok dref delta (current_window W zs) (reference_window W zs) (n <? W)%nat) draws (xs_chains s).
Lemma block_app : forall B q (l : list B) x, (S q * W <= length l)%nat -> block W q (l ++ [x]) = block W q l.
Proof. intros B q l x H. unfold block. rewrite skipn_app, firstn_app, skipn_length. replace (q * W - length l)%nat with 0%nat by lia. replace (W - (length l - q * W))%nat with 0%nat by lia. cbn [firstn]. apply app_nil_r. Qed.
Lemma ranges_app : forall q zs z delta, (q * W <= length zs)%nat -> ranges_after K W q zs delta -> ranges_after K W q (zs ++ [z]) delta.
Proof. intros [|q] zs z delta H R0; auto. unfold ranges_after in *. rewrite block_app; auto. Qed.
Lemma Forall2_map_r : forall B C (Q Q' : B -> C -> Prop) (g : C -> C) l1 l2, (forall b c, In b l1 -> Q b c -> Q' b (g c)) -> Forall2 Q l1 l2 -> Forall2 Q' l1 (map g l2).
Proof. intros B C Q Q' g l1 l2 H F. induction F; cbn [map]; constructor; auto. apply H; cbn; auto. apply IHF. intros; apply H; cbn; auto. Qed.
Lemma xs_fit_step : forall draws xs s x (y : option Y), Forall draw_ok draws -> xs_inv draws xs s ->
  exists s', md_fit XM x y s = (Ok tt, s') /\ xs_inv draws (xs ++ [x]) s'.
Proof.
  intros draws xs s x y FD (dref & delta & R1 & R2 & P1 & P2 & Eq & St & Wi & F2). set (zs := map P xs) in *. set (n := length xs) in *.
  assert (Lz : length zs = n) by (unfold zs; apply map_length).
  assert (F2' : Forall2 (chain_ok dref delta (current_window W zs ++ [P x]) (if (n <? W)%nat then reference_window W zs ++ [P x] else reference_window W zs) (n <? W)%nat) draws (map (xc_fit floor (P x)) (xs_chains s))).
  { eapply Forall2_map_r; [|exact F2]. intros d c Hd C. apply chain_fit; auto. rewrite Forall_forall in FD; auto. intros Hf. apply Nat.ltb_lt in Hf. split; auto.
    unfold reference_window, current_window. rewrite Lz. destruct (Nat.ltb_spec n W); [|lia]. rewrite Nat.mod_small by auto. rewrite <- Lz. unfold lastn. rewrite Nat.sub_diag. reflexivity. }
  cbn [md_fit xStream plain_model]. unfold bind, modify, gets, lift. rewrite HP. cbn [xs_step xs_window xs_chains]. destruct (Nat.eqb_spec W 0) as [|_]; [lia|]. rewrite St, Wi.
  pose proof (Nat.div_mod n W ltac:(lia)) as Ed. pose proof (Nat.mod_upper_bound n W ltac:(lia)) as Bd.
  destruct (Nat.eqb_spec (S n mod W) 0) as [Q|Q].
  - destruct (window_end _ W zs (P x) HW ltac:(rewrite Lz; auto)) as (E1 & E2 & E3).
    assert (Eb : (n mod W = W - 1)%nat). { destruct (Nat.eq_dec (S (n mod W)) W); [lia|]. exfalso. assert (S n mod W = S (n mod W))%nat by (symmetry; apply (Nat.mod_unique _ _ (n / W)%nat); lia). lia. }
    assert (Eq' : (S n / W = S (n / W))%nat) by (symmetry; apply (Nat.div_unique _ _ _ 0); nia).
    destruct (deltamax_ok (current_window W zs ++ [P x])) as (delta' & Ec & Hr & Hp).
    { intros Ee. apply app_eq_nil in Ee. destruct Ee; discriminate. }
    { intros z Hz. apply in_app_or in Hz. destruct Hz as [Hz|[<-|[]]]; auto. unfold current_window, lastn in Hz. assert (In z zs) as Hz'. { rewrite <- (firstn_skipn (length zs - length zs mod W) zs). apply in_or_app. auto. } unfold zs in Hz'. apply in_map_iff in Hz'. destruct Hz' as (? & <- & _). auto. }
    rewrite Ec. cbn [xs_step xs_window xs_chains]. eexists. split; [reflexivity|]. unfold xs_inv. cbn [xs_step xs_window xs_chains]. rewrite app_length, map_app. cbn [length map]. fold zs. fold n. rewrite Nat.add_1_r, E1, E2, Eq'. exists delta, delta'.
    replace (S (n / W) - 1)%nat with (n / W)%nat by lia. split; [apply ranges_app; auto; rewrite Lz; nia|].
    split. { unfold ranges_after. replace (block W (n / W) (zs ++ [P x])) with (current_window W zs ++ [P x]); auto. rewrite <- E2. unfold reference_window. rewrite app_length. cbn [length]. rewrite Lz, Nat.add_1_r, Eq'. destruct (Nat.ltb_spec (S n) W); [lia|]. f_equal. lia. }
    split; auto. split; auto. split; [intros; lia|]. split; auto. split; auto.
    destruct (Nat.ltb_spec (S n) W); [lia|]. eapply Forall2_map_r; [|exact F2']. intros d c Hd C. eapply chain_next; eauto.
  - destruct (window_mid _ W zs (P x) HW ltac:(rewrite Lz; auto)) as (E1 & E2). unfold ret.
    assert (Eb : (S (n mod W) < W)%nat). { destruct (Nat.eq_dec (S (n mod W)) W) as [E|]; [|lia]. exfalso. apply Q. replace (S n) with ((n / W + 1) * W)%nat by nia. apply Nat.mod_mul. lia. }
    assert (Eq' : (S n / W = n / W)%nat) by (symmetry; apply (Nat.div_unique _ _ _ (S (n mod W))); lia).
    eexists. split; [reflexivity|]. unfold xs_inv. cbn [xs_step xs_window xs_chains]. rewrite app_length, map_app. cbn [length map]. fold zs. fold n. rewrite Nat.add_1_r, E1, E2, Eq', Lz. exists dref, delta.
    split; [apply ranges_app; auto; rewrite Lz; nia|]. split; [apply ranges_app; auto; rewrite Lz; nia|]. split; auto. split; auto. split; [intros; apply Eq; lia|]. split; auto. split; auto.
    replace (S n <? W)%nat with (n <? W)%nat; auto. destruct (Nat.ltb_spec n W), (Nat.ltb_spec (S n) W); auto; try lia. exfalso. apply Q. replace (S n) with W by lia. apply Nat.mod_same. lia.
Qed.
Lemma xs_score_state : forall x s, exec (md_score XM x) s = s.
Proof. intros x s. unfold exec. cbn [md_score xStream plain_model]. unfold bind, gets, lift, ret. destruct (xs_project _ _ _ _ _); auto. destruct (xs_score _ _ _ _); reflexivity. Qed.
Lemma xs_init_inv : forall draws, Forall draw_ok draws -> xs_inv draws [] (xStream_init (1 / 10000) (1 / 2) K draws).
Proof.
  intros draws FD. unfold xs_inv, xStream_init. cbn [map length xs_step xs_window xs_chains]. rewrite Nat.div_0_l by lia. cbn [Nat.sub ranges_after]. exists (repeat (1 / 2) K), (repeat (1 / 2) K).
  assert (Pp : positive (repeat (1 / 2) K)). { split; [apply repeat_length|]. intros f Hf. rewrite nth_repeat_any by auto. lra. }
  assert (E : map (xs_widen (1 / 10000)) (repeat (1 / 2) K) = repeat (1 / 2) K). { assert (xs_widen (1 / 10000) (1 / 2) = 1 / 2) as Ew. { unfold xs_widen. cbn [oleb num_ord NumR OrdR nabs nofZ]. unfold Rleb. rewrite Rabs_right by lra. destruct (Rle_dec _ _); [lra|reflexivity]. } clear - Ew. induction K as [|k IH]; cbn [repeat map]; congruence. }
  split; auto. split; auto. split; auto. split; auto. split; auto. split; auto. split; [unfold current_window; rewrite lastn_nil; reflexivity|].
  unfold current_window, reference_window. cbn [length]. rewrite lastn_nil. destruct (Nat.ltb_spec 0 W); [|lia]. cbv iota. rewrite E. clear - FD. induction draws as [|d draws IH]; cbn [map]; constructor; [|inversion FD; auto].
  unfold chain_ok, xc_init. cbn [xc_fs xc_rand xc_delta xc_shift xc_first xc_ref xc_cur]. repeat (split; [reflexivity|]). split; apply sketches_nil.
Qed.
Lemma xs_run : forall draws (h : list (mcall (list R) Y)), Forall draw_ok draws -> xs_inv draws (fitted_instances h) (model_run XM (xStream_init (1 / 10000) (1 / 2) K draws) h).
Proof.
  intros draws h FD. refine (plain_run_all _ _ _ _ _ _ (xs_inv draws) _ _ h _ _).
  - intros xs s x y H. destruct (xs_fit_step draws xs s x y FD H) as (s' & E & H'). unfold exec. cbn [md_fit xStream plain_model] in E. rewrite E. auto.
  - intros xs s x H. change (xs_inv draws xs (exec (md_score XM x) s)). rewrite xs_score_state. auto.
  - apply xs_init_inv; auto.
Qed.
(** Scoring in a state that satisfies the invariant. *)
Lemma np_min_is_min : forall l, l <> [] -> exists m, @np_min R (@num_ord R NumR) l = Ok m /\ is_min m l.
Proof. intros l H. destruct (np_min_ok l H) as (m & E & I & U). exists m. split; auto. split; auto. intros a Ha. apply Rleb_le. apply U; auto. Qed.
Lemma filter_keyeq : forall (g : list R -> list Z) key l, filter (fun z => keyeqb (g z) key) l = filter (fun z => if list_eq_dec Z.eq_dec (g z) key then true else false) l.
Proof. intros. apply filter_ext. intros z. reflexivity. Qed.
Lemma chain_score : forall dref delta cur ref first d c z, draw_ok d -> fst d <> [] -> positive delta -> length z = K -> chain_ok dref delta cur ref first d c ->
  exists m, xc_score floor log2 c z = Ok (- m) /\ is_min m (depth_values floor (fst d) (snd d) dref delta ref z).
Proof.
  intros dref delta cur ref first d c z D Dn Pd Hz C. pose proof (chain_bins _ _ _ _ _ _ _ z D Pd C Hz) as B. destruct C as (E1 & _ & _ & _ & _ & [L S1] & _).
  unfold xc_score, xc_bincount. rewrite B, E1. set (l := map _ (combine (seq 1 _) _)).
  assert (El : l = depth_values floor (fst d) (snd d) dref delta ref z).
  { unfold l, depth_values. apply (nth_ext _ _ 0 0); [rewrite !map_length, !combine_length, !map_length, !combine_length, !map_length, seq_length; lia|]. intros i Hi. rewrite map_length, combine_length, map_length, combine_length, map_length, seq_length in Hi.
    rewrite (combine_nth_gen _ _ _ _ _ _ _ 0%nat 0%Z 0) by (rewrite ?map_length, ?combine_length, ?map_length, ?seq_length; lia). cbn [fst snd]. rewrite seq_nth by lia.
    rewrite (combine_nth_gen _ _ _ _ _ _ _ [] [] 0%Z) by (rewrite ?map_length, ?seq_length; lia). cbn [fst snd].
    rewrite (nth_indep (map _ (seq 1 (length (fst d)))) [] ((fun k => bin floor (snd d) delta (firstn k (fst d)) z) 0%nat)) by (rewrite map_length, seq_length; lia).
    rewrite (map_nth (fun k => bin floor (snd d) delta (firstn k (fst d)) z)), seq_nth by lia.
    rewrite (nth_indep (map _ (seq 1 (length (fst d)))) 0 ((fun k => log2 (1 + INR (bin_count floor (snd d) dref delta (firstn k (fst d)) ref z)) + INR k) 0%nat)) by (rewrite map_length, seq_length; lia).
    rewrite (map_nth (fun k => log2 (1 + INR (bin_count floor (snd d) dref delta (firstn k (fst d)) ref z)) + INR k)), seq_nth by lia.
    specialize (S1 (1 + i)%nat ltac:(lia) (bin floor (snd d) delta (firstn (1 + i) (fst d)) z)). unfold cnt in S1. replace (1 + i - 1)%nat with i in S1 by lia. rewrite S1.
    cbn [nadd nofZ NumR]. unfold bin_count. rewrite filter_keyeq. rewrite !INR_IZR_INZ. reflexivity. }
  rewrite El. destruct (np_min_is_min (depth_values floor (fst d) (snd d) dref delta ref z)) as (m & Em & Im). { unfold depth_values. destruct (fst d); [congruence|]. discriminate. }
  rewrite Em. exists m. split; auto.
Qed.
Lemma nsum_Rsum : forall l, nsum l = Rsum l.
Proof. intros l. unfold nsum. cbn [n0 nadd NumR]. rewrite <- (Rplus_0_l (Rsum l)). generalize 0. induction l as [|a l IH]; intros b; cbn [fold_left]; [rewrite Rsum_nil; ring|]. rewrite IH, Rsum_cons. ring. Qed.
Lemma xs_score_value : forall draws xs s x, Forall draw_ok draws -> Forall (fun d => fst d <> []) draws -> draws <> [] -> xs_inv draws xs s ->
  exists dref delta mins, let q := (length xs / W)%nat in ranges_after K W (q - 1) (map P xs) dref /\ ranges_after K W q (map P xs) delta /\ positive dref /\ positive delta /\ ((length xs < W)%nat -> dref = delta) /\
    Forall2 (fun d m => is_min m (depth_values floor (fst d) (snd d) dref delta (reference_window W (map P xs)) (P x))) draws mins /\
    md_score XM x s = (Ok (VArray [mean (map Ropp mins)]), s).
Proof.
  intros draws xs s x FD FN DN (dref & delta & R1 & R2 & P1 & P2 & Eq & St & Wi & F2). exists dref, delta. cbv zeta.
  assert (G : exists mins, res_map (fun c => xc_score floor log2 c (P x)) (xs_chains s) = Ok (map Ropp mins) /\ Forall2 (fun d m => is_min m (depth_values floor (fst d) (snd d) dref delta (reference_window W (map P xs)) (P x))) draws mins).
  { clear - HK HW HP FD FN F2 P2. induction F2 as [|d c draws cs C F2 IH]; [exists []; split; [reflexivity|constructor]|]. inversion FD; subst. inversion FN; subst. destruct (IH H2 H4) as (mins & E & F). cbn [res_map].
    destruct (chain_score _ _ _ _ _ _ _ (P x) H1 H3 P2 (HK x) C) as (m & Em & Im). rewrite Em. cbn [rbind]. rewrite E. cbn [rmap]. exists (m :: mins). split; [reflexivity|constructor; auto]. }
  destruct G as (mins & E & F). exists mins. split; auto. split; auto. split; auto. split; auto. split; auto. split; auto. cbn [md_score xStream plain_model]. unfold bind, gets, lift, ret. rewrite HP. unfold xs_score. rewrite E. cbn [rmap].
  f_equal. f_equal. f_equal. f_equal. unfold mean, Rlen. rewrite nsum_Rsum. cbn [ndiv nofZ NumR]. rewrite <- INR_IZR_INZ. f_equal. f_equal. rewrite map_length, <- (Forall2_length _ _ _ _ _ F). symmetry. apply (Forall2_length _ _ _ _ _ F2).
Qed.
End XS.

(** ** C75 *)
Definition xstream_new (K : nat) (draws : list (list nat * list R)) : xsst R := xStream_init (1 / 10000) (1 / 2) K draws.
Notation XStream mmh3 p floor K W := (xStream 2 1 (1 / 10000) mmh3 p floor log2 K W).
Lemma project_total : forall mmh3 (n : Z) density p, (1 <= n)%Z -> Streamhash_init 1 n density = Ok p ->
  exists P, (forall x, xs_project 2 1 mmh3 p x = Ok (P x)) /\ (forall x, length (P x) = Z.to_nat n) /\ forall x, projects mmh3 p x (P x).
Proof.
  intros mmh3 n density p Hn E. exists (fun x => map (fun k => weighted (sh_weight mmh3 density (sqrt (1 / density) / sqrt (IZR n))) k x) (seq 0 (Z.to_nat n))). split; [|split].
  - intros x. unfold xs_project. rewrite (streamhash_value mmh3 n density p x Hn E). cbn [rmap]. f_equal. rewrite <- (components_squeeze R (map _ _)) at 2. reflexivity.
  - intros x. rewrite map_length, seq_length. reflexivity.
  - intros x. apply projects_value; auto.
Qed.
(** The score after any history: the mean over the chains of the negated least log2(1 + count) + depth, where the counts are
    those of the bins of the reference window.  The reference window is the previous complete window (during the first one:
    everything seen so far); its instances were binned with the ranges known before it was filled, the scored instance is
    binned with the ranges of the reference window itself.  fit_partial never fails. *)
Theorem C75_score : forall Y mmh3 n density p floor W draws (h : list (mcall (list R) Y)) x, (1 <= n)%Z -> Streamhash_init 1 n density = Ok p -> (1 <= W)%nat ->
  let K := Z.to_nat n in let xs := fitted_instances h in let q := (length xs / W)%nat in let s := model_run (XStream mmh3 p floor K W) (xstream_new K draws) h in
  chain_draws K draws -> exists zs z dref delta mins, Forall2 (projects mmh3 p) xs zs /\ projects mmh3 p x z /\
    ranges_after K W (q - 1) zs dref /\ ranges_after K W q zs delta /\
    Forall2 (fun d m => is_min m (depth_values floor (fst d) (snd d) dref delta (if (length xs <? W)%nat then zs else block W (q - 1) zs) z)) draws mins /\
    md_score (XStream mmh3 p floor K W) x s = (Ok (VArray [mean (map Ropp mins)]), s) /\
    forall y, eval (md_fit (XStream mmh3 p floor K W) x y) s = Ok tt.
Proof.
  intros Y mmh3 n density p floor W draws h x Hn E HW K xs q s [DN FD]. destruct (project_total mmh3 n density p Hn E) as (P & HP & HK & HQ).
  assert (F1 : Forall (draw_ok K) draws) by (eapply Forall_impl; [|exact FD]; intros d (_ & ? & ?); split; auto).
  assert (F3 : Forall (fun d : list nat * list R => fst d <> []) draws) by (eapply Forall_impl; [|exact FD]; intros d (? & _); auto).
  pose proof (xs_run Y mmh3 p floor K W P HP HK HW draws h F1) as I.
  destruct (xs_score_value Y mmh3 p floor K W P HP HK HW draws _ _ x F1 F3 DN I) as (dref & delta & mins & R1 & R2 & _ & _ & _ & F & S).
  exists (map P xs), (P x), dref, delta, mins. split; [clear - HQ; induction xs; constructor; auto|]. split; auto. split; auto. split; auto. split.
  - revert F. unfold reference_window. rewrite map_length. auto.
  - split; auto. intros y. destruct (xs_fit_step Y mmh3 p floor K W P HP HK HW draws _ _ x y F1 I) as (s' & Es & _). unfold eval, s, xstream_new. rewrite Es. reflexivity.
Qed.
Print Assumptions C75_score.
(** The bin of a feature tested c + 1 times. *)
Theorem C75_bin_width : forall floor rand delta hits z f c, (f < length z)%nat -> count_occ Nat.eq_dec hits f = S c -> nth f delta 0 <> 0 ->
  nth f (bin floor rand delta hits z) 0%Z = floor ((nth f z 0 + nth f rand 0 * nth f delta 0 / 2 ^ c) / (nth f delta 0 / 2 ^ c)).
Proof.
  intros floor rand delta hits z f c Hf Hc Hd. unfold bin. rewrite nth_map_seq by auto. rewrite Hc. f_equal. field. split; auto. apply pow_nonzero. lra.
Qed.
Print Assumptions C75_bin_width.
(** With window_size = 0 every fit raises ZeroDivisionError after having counted the instance. *)
Theorem C75_zero_window_fails : forall Y mmh3 p floor K x (y : option Y) (s : xsst R) z, xs_project 2 1 mmh3 p x = Ok z ->
  md_fit (XStream mmh3 p floor K 0) x y s = (Raise ZeroDivisionError, mkXS (S (xs_step s)) (xs_window s ++ [z]) (map (xc_fit floor z) (xs_chains s))).
Proof. intros Y mmh3 p floor K x y s z E. cbn [md_fit xStream plain_model]. unfold bind, modify, gets, lift. rewrite E. reflexivity. Qed.
Print Assumptions C75_zero_window_fails.

(** ** C76 *)
Lemma log2_1 : log2 1 = 0. Proof. unfold log2. rewrite ln_1. unfold Rdiv. ring. Qed.
Lemma log2_le : forall a b, 0 < a -> a <= b -> log2 a <= log2 b.
Proof. intros a b Ha Hb. unfold log2, Rdiv. apply Rmult_le_compat_r; [left; apply Rinv_0_lt_compat; rewrite <- ln_1; apply ln_increasing; lra|]. apply ln_le; auto. Qed.
Lemma log2_2 : log2 2 = 1. Proof. unfold log2. apply Rinv_r. assert (0 < ln 2) by (rewrite <- ln_1; apply ln_increasing; lra). lra. Qed.
Lemma bin_count_le : forall floor rand dref d hits ref z, (bin_count floor rand dref d hits ref z <= length ref)%nat.
Proof. intros. apply filter_length_le. Qed.
Lemma chain_range : forall floor fs rand dref d ref z m, fs <> [] -> is_min m (depth_values floor fs rand dref d ref z) -> 1 <= m <= 1 + log2 (1 + INR (length ref)).
Proof.
  intros floor fs rand dref d ref z m Hf [I U]. assert (G : forall k, 0 <= log2 (1 + INR (bin_count floor rand dref d (firstn k fs) ref z)) <= log2 (1 + INR (length ref))).
  { intros k. pose proof (pos_INR (bin_count floor rand dref d (firstn k fs) ref z)). pose proof (le_INR _ _ (bin_count_le floor rand dref d (firstn k fs) ref z)). split; [rewrite <- log2_1|]; apply log2_le; lra. }
  unfold depth_values in *. split.
  - apply in_map_iff in I. destruct I as (k & <- & Hk). apply in_seq in Hk. specialize (G k). assert (1 <= INR k) by (change 1 with (INR 1); apply le_INR; lia). lra.
  - specialize (U (log2 (1 + INR (bin_count floor rand dref d (firstn 1 fs) ref z)) + INR 1)). specialize (G 1%nat). change (INR 1) with 1 in U. cut (m <= log2 (1 + INR (bin_count floor rand dref d (firstn 1 fs) ref z)) + 1); [lra|]. apply U. apply in_map_iff. exists 1%nat. split; auto. apply in_seq. destruct fs; [congruence|]. cbn [length]. lia.
Qed.
Lemma mean_range : forall l a b, l <> [] -> (forall x, In x l -> a <= x <= b) -> a <= mean l <= b.
Proof.
  intros l a b Hn H. assert (G : Rlen l * a <= Rsum l <= Rlen l * b).
  { clear Hn. unfold Rlen. induction l as [|x l IH]; [rewrite Rsum_nil; cbn; lra|]. rewrite Rsum_cons. cbn [length]. rewrite S_INR. pose proof (H x (or_introl eq_refl)). assert (INR (length l) * a <= Rsum l <= INR (length l) * b) by (apply IH; intros; apply H; right; auto). lra. }
  assert (0 < Rlen l). { unfold Rlen. apply lt_0_INR. destruct l; [congruence|cbn; lia]. }
  unfold mean. split; [apply Rmult_le_reg_l with (Rlen l)|apply Rmult_le_reg_l with (Rlen l)]; auto; replace (Rlen l * (Rsum l / Rlen l)) with (Rsum l) by (field; lra); lra.
Qed.
(** Every score of every history lies between -(1 + log2(1 + w)), w the size of the reference window, and -1. *)
Theorem C76_score_range : forall Y mmh3 n density p floor W draws (h : list (mcall (list R) Y)) x, (1 <= n)%Z -> Streamhash_init 1 n density = Ok p -> (1 <= W)%nat ->
  let K := Z.to_nat n in chain_draws K draws -> exists v, eval (md_score (XStream mmh3 p floor K W) x) (model_run (XStream mmh3 p floor K W) (xstream_new K draws) h) = Ok (VArray [v]) /\
    - (1 + log2 (1 + INR (Nat.min W (length (fitted_instances h))))) <= v <= -1.
Proof.
  intros Y mmh3 n density p floor W draws h x Hn E HW K D. destruct (C75_score Y mmh3 n density p floor W draws h x Hn E HW D) as (zs & z & dref & delta & mins & Fz & _ & _ & _ & F & S & _).
  exists (mean (map Ropp mins)). split; [unfold eval, K; rewrite S; reflexivity|]. destruct D as [DN FD].
  assert (LW : length (if (length (fitted_instances h) <? W)%nat then zs else block W (length (fitted_instances h) / W - 1) zs) = Nat.min W (length (fitted_instances h))).
  { pose proof (Forall2_length _ _ _ _ _ Fz) as L. rewrite L. destruct (Nat.ltb_spec (length zs) W); [lia|]. unfold block. rewrite firstn_length, skipn_length. pose proof (Nat.div_mod (length zs) W ltac:(lia)). pose proof (Nat.div_le_mono W (length zs) W ltac:(lia) H). rewrite Nat.div_same in H1 by lia.
    assert (W * (length zs / W - 1) + W <= length zs)%nat by nia. lia. }
  apply mean_range.
  - intros Em. apply map_eq_nil in Em. subst mins. inversion F. congruence.
  - intros v Hv. apply in_map_iff in Hv. destruct Hv as (m & <- & Hm). assert (1 <= m <= 1 + log2 (1 + INR (Nat.min W (length (fitted_instances h))))); [|lra].
    rewrite <- LW. clear - F FD Hm. revert F. generalize (if (length (fitted_instances h) <? W)%nat then zs else block W (length (fitted_instances h) / W - 1) zs). intros ref F. induction F as [|d m' draws mins Im F IH]; [destruct Hm|]. inversion FD as [|? ? (D1 & _) FD']; subst. destruct Hm as [<-|Hm]; auto. eapply chain_range; eauto.
Qed.
Print Assumptions C76_score_range.
(** In the first window an instance that has been fitted is counted at every depth of every chain: it scores at most -2. *)
Theorem C76_first_window_member : forall Y mmh3 n density p floor W draws (h : list (mcall (list R) Y)) x, (1 <= n)%Z -> Streamhash_init 1 n density = Ok p -> (length (fitted_instances h) < W)%nat ->
  let K := Z.to_nat n in chain_draws K draws -> In x (fitted_instances h) ->
  exists v, eval (md_score (XStream mmh3 p floor K W) x) (model_run (XStream mmh3 p floor K W) (xstream_new K draws) h) = Ok (VArray [v]) /\ v <= -2.
Proof.
  intros Y mmh3 n density p floor W draws h x Hn E HW K D Hx. destruct (C75_score Y mmh3 n density p floor W draws h x Hn E ltac:(lia) D) as (zs & z & dref & delta & mins & Fz & Pz & R1 & R2 & F & S & _).
  exists (mean (map Ropp mins)). split; [unfold eval, K; rewrite S; reflexivity|]. destruct D as [DN FD]. rewrite Nat.div_small in * by auto. cbn [Nat.sub ranges_after] in *. subst dref delta.
  assert (Hz : In z zs). { clear - Fz Pz Hx. induction Fz; [destruct Hx|]. destruct Hx as [<-|Hx]; [left; eapply projects_unique; eauto|right; auto]. }
  destruct (Nat.ltb_spec (length (fitted_instances h)) W); [|lia].
  assert (HL : mins <> []) by (intros ->; inversion F; congruence).
  assert (G : forall v, In v (map Ropp mins) -> v <= -2).
  { intros v Hv. apply in_map_iff in Hv. destruct Hv as (m & <- & Hm). cut (2 <= m); [lra|]. clear - F Hm Hz. induction F as [|d m' draws mins Im F IH]; [destruct Hm|]. destruct Hm as [<-|Hm]; auto. clear IH.
    destruct Im as [I _]. apply in_map_iff in I. destruct I as (k & <- & Hk). apply in_seq in Hk.
    assert (1 <= bin_count floor (snd d) (repeat (1 / 2)%R (Z.to_nat n)) (repeat (1 / 2)%R (Z.to_nat n)) (firstn k (fst d)) zs z)%nat.
    { unfold bin_count. assert (In z (filter (fun z' => if list_eq_dec Z.eq_dec (bin floor (snd d) (repeat (1 / 2)%R (Z.to_nat n)) (firstn k (fst d)) z') (bin floor (snd d) (repeat (1 / 2)%R (Z.to_nat n)) (firstn k (fst d)) z) then true else false) zs)) as If by (apply filter_In; split; auto; destruct (list_eq_dec _ _ _); congruence). destruct (filter _ zs); [destruct If|cbn; lia]. }
    apply le_INR in H. change (INR 1) with 1 in H. assert (1 <= INR k) by (change 1 with (INR 1); apply le_INR; lia). assert (log2 2 <= log2 (1 + INR (bin_count floor (snd d) (repeat (1 / 2)%R (Z.to_nat n)) (repeat (1 / 2)%R (Z.to_nat n)) (firstn k (fst d)) zs z))) by (apply log2_le; lra). rewrite log2_2 in *. lra. }
  assert (Ln : (map Ropp mins) <> []) by (intros Em; apply map_eq_nil in Em; auto).
  clear - G Ln. revert Ln G. generalize (map Ropp mins). intros l Ln G. set (b := Rsum (map Rabs l)). assert (Q : forall v, In v l -> - (b + 2) <= v <= -2).
  { intros v Hv. split; [|auto]. assert (Rabs v <= b). { unfold b. clear - Hv. induction l as [|a l IH]; [destruct Hv|]. cbn [map]. rewrite Rsum_cons. assert (0 <= Rsum (map Rabs l)). { clear. induction l as [|a l IH]; [cbn [map]; rewrite Rsum_nil; lra|]. cbn [map]. rewrite Rsum_cons. pose proof (Rabs_pos a). lra. } destruct Hv as [<-|Hv]; [lra|]. specialize (IH Hv). pose proof (Rabs_pos a). lra. }
    pose proof (Rle_abs (- v)). rewrite Rabs_Ropp in H0. lra. }
  apply (mean_range l _ _ Ln Q).
Qed.
Print Assumptions C76_first_window_member.
(** The ranges in use are always larger than 0.0001, so that no bin computation divides by zero. *)
Theorem C76_ranges_positive : forall K W q zs delta j, ranges_after K W q zs delta -> (j < K)%nat -> 1 / 10000 < nth j delta 0.
Proof.
  intros K W [|q] zs delta j H Hj; unfold ranges_after in H.
  - subst. rewrite nth_repeat_any by auto. lra.
  - destruct H as [_ H]. destruct (H j Hj) as (mn & mx & _ & _ & ->). destruct (Rle_dec _ _); lra.
Qed.
Print Assumptions C76_ranges_positive.

(** ** C77 *)
Lemma in_repeat_eq : forall B (a b : B) n, In b (repeat a n) -> b = a.
Proof. intros. eapply repeat_spec; eauto. Qed.
(** After a first window that consists of copies of one instance, that very instance gets the score of an instance that was
    never seen, -1, the largest one possible: its bin was computed with the range 1/2 and is looked up with the range 1. *)
Theorem C77_seen_instances_are_recognised_refuted : forall Y mmh3 density p floor W x z, Streamhash_init 1 1 density = Ok p -> is_floor floor -> (1 <= W)%nat ->
  projects mmh3 p x [z] -> 1 / 2 <= z < 1 ->
  let h := repeat (CFit x (@None Y)) W in
  eval (md_score (XStream mmh3 p floor 1 W) x) (model_run (XStream mmh3 p floor 1 W) (xstream_new 1 [([0%nat], [0])]) h) = Ok (VArray [-1]).
Proof.
  intros Y mmh3 density p floor W x z E HF HW Hp Hz h.
  assert (Fh : fitted_instances h = repeat x W). { unfold h. clear. induction W as [|k IH]; [reflexivity|]. cbn [repeat]. change (fitted_instances (CFit x (@None Y) :: repeat (CFit x None) k)) with (x :: fitted_instances (repeat (CFit x (@None Y)) k)). congruence. }
  assert (D : chain_draws 1 [([0%nat], [0])]). { split; [discriminate|]. constructor; [|constructor]. cbn. split; [discriminate|]. split; auto. }
  destruct (C75_score Y mmh3 1 density p floor W [([0%nat], [0])] h x ltac:(lia) E HW D) as (zs & z' & dref & delta & mins & Fz & Pz & R1 & R2 & F & S & _).
  pose proof (projects_unique _ _ _ _ _ Pz Hp) as ->. rewrite Fh in *. rewrite repeat_length in *. rewrite Nat.div_same in * by lia. change (Z.to_nat 1) with 1%nat in *. cbn [Nat.sub] in *.
  assert (Ez : zs = repeat [z] W). { clear - Fz Hp. revert zs Fz. induction W as [|k IH]; intros zs Fz; inversion Fz; subst; auto. cbn [repeat]. f_equal; auto. eapply projects_unique; eauto. }
  cbn [ranges_after repeat] in R1. subst dref. destruct R2 as [Ld R2].
  assert (Ed : delta = [1]).
  { destruct delta as [|a [|? ?]]; try discriminate. f_equal. destruct (R2 0%nat ltac:(lia)) as (mn & mx & [I1 _] & [I2 _] & Ea). cbn [nth] in Ea.
    assert (Q : forall v, In v (map (fun z : list R => nth 0 z 0) (block W 0 zs)) -> v = z). { intros v Hv. apply in_map_iff in Hv. destruct Hv as (w & <- & Hw). unfold block in Hw. cbn [Nat.mul skipn] in Hw. assert (In w zs). { rewrite <- (firstn_skipn W zs). apply in_or_app. auto. } subst zs. apply in_repeat_eq in H. subst w. reflexivity. }
    apply Q in I1. apply Q in I2. subst mn mx. destruct (Rle_dec _ _) as [_|N]; auto. exfalso. apply N. lra. }
  subst delta. inversion F as [|d m ds ms Hm F' E1 E2]; subst. inversion F'; subst. cbn [fst snd] in Hm.
  unfold eval. rewrite S. cbn [fst]. f_equal. f_equal. f_equal. unfold mean, Rlen. cbn [map length]. rewrite Rsum_cons, Rsum_nil. change (INR 1) with 1.
  cut (m = 1); [intros ->; field|]. destruct Hm as [Hm _]. unfold depth_values in Hm. cbn [length seq map] in Hm. destruct Hm as [Hm|[]].
  rewrite <- Hm. change (INR 1) with 1. replace (bin_count floor [0] [1 / 2] [1] (firstn 1 [0%nat]) (if (W <? W)%nat then repeat [z] W else block W 0 (repeat [z] W)) [z]) with 0%nat; [rewrite Rplus_0_r, log2_1; lra|].
  rewrite Nat.ltb_irrefl. unfold bin_count. symmetry. destruct (filter _ (block W 0 (repeat [z] W))) as [|w l] eqn:Ef; auto. exfalso.
  assert (Iw : In w (w :: l)) by (left; auto). rewrite <- Ef in Iw. apply filter_In in Iw. destruct Iw as [Iw B]. assert (w = [z]). { unfold block in Iw. apply (in_repeat_eq _ _ _ W). rewrite <- (firstn_skipn W (repeat [z] W)). apply in_or_app. left. exact Iw. }
  subst w. destruct (list_eq_dec _ _ _) as [Eb|]; [|discriminate]. unfold bin in Eb. cbn in Eb. injection Eb as Eb. 
  pose proof (HF (1 * (z / (1 / 2)) + 0)) as B1. pose proof (HF (1 * (z / 1) + 0)) as B2. rewrite Eb in B1.
  assert (IZR (floor (1 * (z / 1) + 0)) < 1) by lra. apply (lt_IZR _ 1) in H. assert (0 < IZR (floor (1 * (z / 1) + 0))) by lra. apply (lt_IZR 0) in H0. lia.
Qed.
Print Assumptions C77_seen_instances_are_recognised_refuted.
Lemma Int_part_floor : is_floor Int_part.
Proof. intros a. destruct (base_Int_part a). lra. Qed.
Example C77_ex : exists p, Streamhash_init 1 1 1 = Ok p /\ is_floor Int_part /\ projects (fun _ _ => 0%Z) p [-3/4] [3/4] /\ chain_draws 1 [([0%nat], [0])].
Proof.
  assert (E : exists p, Streamhash_init (A := R) 1 1 1 = Ok p).
  { unfold Streamhash_init, pydiv. cbn [oeqb num_ord NumR OrdR n0]. destruct (Reqb 1 0) eqn:Q; [apply Reqb_eq in Q; lra|]. eexists. reflexivity. }
  destruct E as [p E]. exists p. split; auto. split; [apply Int_part_floor|]. split.
  - pose proof (projects_value (fun _ _ => 0%Z) 1 1 p [-3/4] ltac:(lia) E) as Hp. replace [3/4] with (map (fun k => weighted (sh_weight (fun _ _ => 0%Z) 1 (sqrt (1 / 1) / sqrt 1)) k [-3/4]) (seq 0 (Z.to_nat 1))); auto.
    change (Z.to_nat 1) with 1%nat. cbn [seq map]. f_equal. unfold weighted. cbn [length seq map nth]. rewrite Rsum_cons, Rsum_nil. unfold sh_weight. rewrite Rmult_0_l || idtac. replace (1 / 1) with 1 by lra. rewrite sqrt_1. destruct (Rle_dec _ _) as [|N]; [lra|]. exfalso. apply N. unfold Rdiv. rewrite Rmult_0_l. lra.
  - split; [discriminate|]. constructor; [|constructor]. cbn. split; [discriminate|]. split; auto.
Qed.
(** An instance of the hypotheses of C75 and C76 with two chains of different features. *)
Example C75_ex : chain_draws 2 [([0; 1; 0]%nat, [0; 1 / 2]); ([1; 1; 1]%nat, [1 / 3; 0])] /\
  bin Int_part [0; 1 / 2] [1 / 2; 1 / 2] [0; 1; 0]%nat [3 / 4; 1 / 4] = [3; 1]%Z.
Proof.
  split; [split; [discriminate|]; repeat constructor; cbn; try discriminate; repeat constructor|].
  unfold bin. cbn [length seq map count_occ Nat.eq_dec nat_rec nat_rect sumbool_rec sumbool_rect nth]. cbn.
  assert (G : forall r k, IZR k <= r < IZR k + 1 -> Int_part r = k).
  { intros r k H. unfold Int_part. rewrite <- (tech_up r (k + 1)); [lia| |]; rewrite plus_IZR; lra. }
  f_equal; [|f_equal]; apply G; lra.
Qed.
