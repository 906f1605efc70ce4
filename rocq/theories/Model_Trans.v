(** * Model of pysad/transform/projection and pysad/transform/preprocessing *)
From Coq Require Import String.
From Coq Require Import List ZArith Lia Bool Decimal DecimalString.
From Verif Require Import Base Num Spec Model_Stats Model_Utils Model_Core Model_Post.
Import ListNotations.
Open Scope m_scope.

(** numpy elementwise operation on two 1-D arrays, with broadcasting of one-element arrays. *)
Definition map2 {A B C} (f : A -> B -> C) (a : list A) (b : list B) : list C := map (fun p => f (fst p) (snd p)) (combine a b).
Definition np_zip {A} (f : A -> A -> A) (a b : list A) : res (list A) :=
  if (length a =? length b)%nat then Ok (map2 f a b)
  else match a, b with
       | [x], _ => Ok (map (f x) b)
       | _, [y] => Ok (map (fun x => f x y) a)
       | _, _ => Raise ValueError
       end.

(** What transform_partial does with the pair that only fit produces: never executed by the base class. *)
Definition on_instance {X S B} (f : X -> M S B) (a : pyarg X) : M S B :=
  match a with AInst x => f x | APair _ => raise AttributeError end.
(** base_transformer.py:36-45: the inherited fit_transform_partial. *)
Definition default_fit_transform {X S B} (fit : pyarg X -> M S unit) (tr : pyarg X -> M S B) (x : pyarg X) : M S B :=
  fit x ;;; tr x.

(** ** pysad/transform/projection/streamhash_projector.py *)
Record shproj (A : Type) : Type := mkSH { sh_keys : list nat; sh_constant : A; sh_density : A; sh_ncomp : Z }.
Arguments mkSH {A}.
Arguments sh_keys {A}.
Arguments sh_constant {A}.
Arguments sh_density {A}.
Arguments sh_ncomp {A}.
(** 13-18.  The constant is not finite for num_components <= 0 or density < 0; then there is no key,
    respectively no coefficient that uses it (a hash value is never negative), so any value will do. *)
Definition Streamhash_init {A} `{Num A} (one : A) (num_components : Z) (density : A) : res (shproj A) :=
  rmap (fun q => mkSH (seq 0 (Z.to_nat num_components)) (ndiv (nsqrt q) (nsqrt (nofZ num_components))) density num_components)
       (pydiv one density).
(** 54-63 _hash_string; [mmh3 s k] is the unsigned 32 bit hash of [s] with seed [k]. *)
Definition hash_string {A} `{Num A} (two one : A) (mmh3 : string -> nat -> Z) (p : shproj A) (k : nat) (s : string) : A :=
  let hash_value := ndiv (nofZ (mmh3 s k)) (nofZ (2 ^ 32 - 1)) in
  if oleb hash_value (ndiv (sh_density p) two) then nmul (nneg one) (sh_constant p)
  else if oleb hash_value (sh_density p) then sh_constant p
  else n0.
(** str(i) *)
Definition py_str (i : nat) : string := NilZero.string_of_uint (Nat.to_uint i).
(** 31-52 transform_partial.  With no key, np.array([]) has shape (0,) and np.dot fails on a non-empty instance
    (an empty instance then gives the scalar 0.0).
    squeeze() turns a single component into a 0-d array. *)
Definition dot {A} `{Num A} (a b : list A) : A := nsum (map2 nmul a b).
Definition squeeze {A} (l : list A) : pyval A := match l with [a] => VScalar a | _ => VArray l end.
Definition streamhash_transform {A} `{Num A} (two one : A) (mmh3 : string -> nat -> Z) (p : shproj A) (x : list A) : res (pyval A) :=
  let feature_names := map py_str (seq 0 (length x)) in
  let R := map (fun k => map (hash_string two one mmh3 p k) feature_names) (sh_keys p) in
  match R, x with
  | [], [] => Ok (VScalar n0)
  | [], _ => Raise ValueError
  | _, _ => Ok (squeeze (map (dot x) R))
  end.
(** The object: fit_partial (20-29) returns self.  The attributes never change, so the state is unit. *)
Definition StreamhashProjector {A} `{Num A} two one mmh3 (p : shproj A) : Transformer (list A) A :=
  let fit := fun _ => ret tt in
  let tr := on_instance (fun x => lift (streamhash_transform two one mmh3 p x)) in
  {| tr_state := unit; tr_dims := DInt (sh_ncomp p); tr_fit := fit; tr_transform := tr;
     tr_fit_transform := default_fit_transform fit tr |}.

(** ** pysad/transform/projection/random_projector.py *)
(** 34-46: transform_partial builds a new sklearn projector and calls its fit_transform on the single row.
    Gaussian (74-81) and Sparse (110-121) differ only in the law of the matrix.
    External sklearn behaviour: n_components='auto' asks the Johnson-Lindenstrauss dimension for n_samples = 1,
    4 log(1) / (eps^2/2 - eps^3/3) = 0, and a dimension <= 0 raises ValueError, as does a non-positive
    n_components.  [draw i n d] is the n x d matrix drawn at the i-th call (numpy's global generator); the object
    state is the number of calls made so far. *)
Definition random_transform {A} `{Num A} (draw : nat -> nat -> nat -> list (list A)) (d : dims) (x : list A) : M nat (pyval A) :=
  i <- gets (fun i => i) ;;
  match d with
  | DAuto => raise ValueError
  | DInt n => if (n <=? 0)%Z then raise ValueError
              else modify S ;;; ret (VArray (map (dot x) (draw i (Z.to_nat n) (length x))))
  end.
Definition RandomProjector {A} `{Num A} draw (d : dims) : Transformer (list A) A :=
  let fit := fun _ => ret tt in                                            (* 24-32 *)
  let tr := on_instance (random_transform draw d) in
  {| tr_state := nat; tr_dims := d; tr_fit := fit; tr_transform := tr;
     tr_fit_transform := default_fit_transform fit tr |}.

(** ** pysad/transform/preprocessing/identity_scaler.py:8-31 *)
Definition IdentityScaler {A} : Transformer (list A) A :=
  let fit := fun _ => ret tt in
  let tr := on_instance (fun x => ret (VArray x)) in
  {| tr_state := unit; tr_dims := DInt (-1); tr_fit := fit; tr_transform := tr;
     tr_fit_transform := default_fit_transform fit tr |}.

(** ** pysad/transform/preprocessing/instance_standard_scaler.py:9-35.
    X.mean() and X.std() are numpy scalars: a zero std gives nan/inf, not an exception.
    Simplification: sums are added from left to right (numpy adds long arrays pairwise). *)
Definition vec_mean {A} `{Num A} (x : list A) : A := ndiv (nsum x) (nofZ (Z.of_nat (length x))).
Definition vec_std {A} `{Num A} (x : list A) : A :=
  nsqrt (vec_mean (map (fun v => nsq (nabs (nsub v (vec_mean x)))) x)).
Definition standard_scale {A} `{Num A} (x : list A) : list (npres A) :=
  map (fun v => npdiv (nsub v (vec_mean x)) (vec_std x)) x.
Definition InstanceStandardScaler {A} `{Num A} : Transformer (list A) (npres A) :=
  let fit := fun _ => ret tt in
  let tr := on_instance (fun x => ret (VArray (standard_scale x))) in
  {| tr_state := unit; tr_dims := DInt (-1); tr_fit := fit; tr_transform := tr;
     tr_fit_transform := default_fit_transform fit tr |}.

(** ** pysad/transform/preprocessing/instance_unit_norm_scaler.py:12-38 *)
(** The [pow] argument, passed to numpy.linalg.norm as ord. *)
Inductive normord (A : Type) : Type := OInf | OMInf | OPow (p : A).
Arguments OInf {A}.
Arguments OMInf {A}.
Arguments OPow {A}.
(** numpy.linalg.norm of a 1-D array: inf and -inf: max / min of |x| (ValueError on an empty array); 0: number of
    non-zero entries; 1: sum of |x|; 2: square root of the sum of squares; otherwise (sum |x|^p)^(1/p).
    For p < 0 a zero entry makes the inner sum infinite and the result 0.  [pw] is ** on positive numbers;
    zero entries contribute 0 for p > 0.  Simplification: sums are added from left to right. *)
Definition np_norm {A} `{Num A} (one two : A) (pw : A -> A -> A) (o : normord A) (x : list A) : res A :=
  match o with
  | OInf => np_max (map nabs x)
  | OMInf => np_min (map nabs x)
  | OPow p =>
    let nz := filter (fun v => negb (oeqb v n0)) x in
    if oeqb p n0 then Ok (nofZ (Z.of_nat (length nz)))
    else if oeqb p one then Ok (nsum (map nabs x))
    else if oeqb p two then Ok (nsqrt (nsum (map nsq x)))
    else if oltb p n0 && negb (length nz =? length x)%nat then Ok n0
    else match nz with
         | [] => Ok n0
         | _ => Ok (pw (nsum (map (fun v => pw (nabs v) p) nz)) (ndiv one p))
         end
  end.
Definition unit_scale {A} `{Num A} one two pw (o : normord A) (x : list A) : res (list (npres A)) :=
  rmap (fun n => map (fun v => npdiv v n) x) (np_norm one two pw o x).
Definition InstanceUnitNormScaler {A} `{Num A} one two pw (o : normord A) : Transformer (list A) (npres A) :=
  let fit := fun _ => ret tt in
  let tr := on_instance (fun x => v <- lift (unit_scale one two pw o x) ;; ret (VArray v)) in
  {| tr_state := unit; tr_dims := DInt (-1); tr_fit := fit; tr_transform := tr;
     tr_fit_transform := default_fit_transform fit tr |}.

(** ** pysad/transform/preprocessing/seasonal_trend_decomposer.py *)
Record stdst (A : Type) : Type := mkSTD {
  st_season : Z; st_trendw : Z; st_window : list (list A);
  st_sums : option (list (list A)); st_counts : list Z; st_seen : Z }.
Arguments mkSTD {A}.
Arguments st_season {A}.
Arguments st_trendw {A}.
Arguments st_window {A}.
Arguments st_sums {A}.
Arguments st_counts {A}.
Arguments st_seen {A}.
(** 24-40 *)
Definition STD_init {A} (season_length : Z) (trend_window : option Z) : res (stdst A) :=
  if (season_length <? 1)%Z then Raise ValueError
  else match trend_window with
       | None => Ok (mkSTD season_length season_length [] None [] 0)
       | Some w => if (w <? 1)%Z then Raise ValueError else Ok (mkSTD season_length w [] None [] 0)
       end.
(** 42-46 _as_array: tuples are unwrapped. *)
Definition as_array {X} (a : pyarg X) : X := match a with AInst x => x | APair x => x end.
(** 48-50 _init_seasonal_state, guarded by "is None" at each call site (75-76, 101-102, 118-119). *)
Definition std_ensure {A} `{Num A} (x : list A) : M (stdst A) unit :=
  modify (fun s => match st_sums s with
                   | Some _ => s
                   | None => mkSTD (st_season s) (st_trendw s) (st_window s)
                               (Some (repeat (repeat n0 (length x)) (Z.to_nat (st_season s))))
                               (repeat 0%Z (Z.to_nat (st_season s))) (st_seen s)
                   end).
(** deque.append with maxlen *)
Definition deque_append {A} (maxlen : Z) (x : A) (l : list A) : list A :=
  if (Z.of_nat (length l) <? maxlen)%Z then l ++ [x] else skipn 1 l ++ [x].
(** 52-56 _trend: None stands for the scalar 0.0.  np.asarray of rows of different length raises ValueError. *)
Definition std_trend {A} `{Num A} (window : list (list A)) : res (option (list A)) :=
  match window with
  | [] => Ok None
  | r0 :: rest =>
    if forallb (fun r => (length r =? length r0)%nat) rest
    then rbind (res_map (fun j => column j window) (seq 0 (length r0))) (fun cols => Ok (Some (map vec_mean cols)))
    else Raise ValueError
  end.
(** 58-62 _seasonal *)
Definition std_seasonal {A} `{Num A} (s : stdst A) (phase : nat) : res (option (list A)) :=
  rbind (py_index (st_counts s) phase) (fun c =>
  if (c =? 0)%Z then Ok None
  else rbind (py_index (match st_sums s with Some m => m | None => [] end) phase) (fun row =>
       Ok (Some (map (fun v => ndiv v (nofZ c)) row)))).
Definition std_phase {A} (s : stdst A) : nat := Z.to_nat (st_seen s mod st_season s).
(** X - (0.0 or an array) *)
Definition sub_opt {A} `{Num A} (x : list A) (t : option (list A)) : res (list A) :=
  match t with None => Ok x | Some t => np_zip nsub x t end.
(** 79-84 = 122-127: append, trend, and the seasonal update when the window is full; returns the trend. *)
Definition std_absorb {A} `{Num A} (phase : nat) (x : list A) : M (stdst A) (option (list A)) :=
  modify (fun s => mkSTD (st_season s) (st_trendw s) (deque_append (st_trendw s) x (st_window s)) (st_sums s) (st_counts s) (st_seen s)) ;;;
  s <- gets (fun s => s) ;;
  trend <- lift (std_trend (st_window s)) ;;
  (if (Z.of_nat (length (st_window s)) =? st_trendw s)%Z then
     row <- lift (py_index (match st_sums s with Some m => m | None => [] end) phase) ;;
     delta <- lift (sub_opt x trend) ;;
     (* in-place +=: the result must have the shape of the row *)
     new <- lift (rbind (np_zip nadd row delta) (fun r => if (length r =? length row)%nat then Ok r else Raise ValueError)) ;;
     c <- lift (py_index (st_counts s) phase) ;;
     modify (fun s => mkSTD (st_season s) (st_trendw s) (st_window s)
                        (match st_sums s with Some m => Some (set_nth phase new m) | None => None end)
                        (set_nth phase (c + 1)%Z (st_counts s)) (st_seen s))
   else ret tt) ;;;
  ret trend.
Definition std_tick {A} : M (stdst A) unit :=
  modify (fun s => mkSTD (st_season s) (st_trendw s) (st_window s) (st_sums s) (st_counts s) (st_seen s + 1)).
(** 64-88 fit_partial *)
Definition std_fit {A} `{Num A} (a : pyarg (list A)) : M (stdst A) unit :=
  let x := as_array a in
  std_ensure x ;;; p <- gets std_phase ;; _ <- std_absorb p x ;; std_tick.
(** 90-105 transform_partial *)
Definition std_transform {A} `{Num A} (a : pyarg (list A)) : M (stdst A) (pyval A) :=
  let x := as_array a in
  std_ensure x ;;; p <- gets std_phase ;;
  s <- gets (fun s => s) ;;
  t <- lift (std_trend (st_window s)) ;;
  d <- lift (sub_opt x t) ;;
  q <- lift (std_seasonal s p) ;;
  v <- lift (sub_opt d q) ;; ret (VArray v).
(** 107-132 fit_transform_partial *)
Definition std_fit_transform {A} `{Num A} (a : pyarg (list A)) : M (stdst A) (pyval A) :=
  let x := as_array a in
  std_ensure x ;;; p <- gets std_phase ;; t <- std_absorb p x ;;
  s <- gets (fun s => s) ;;
  q <- lift (std_seasonal s p) ;;
  std_tick ;;;
  d <- lift (sub_opt x t) ;;
  v <- lift (sub_opt d q) ;; ret (VArray v).
Definition SeasonalTrendDecomposer {A} `{Num A} : Transformer (list A) A :=
  {| tr_state := stdst A; tr_dims := DInt (-1); tr_fit := std_fit; tr_transform := std_transform; tr_fit_transform := std_fit_transform |}.

(** ** pysad/transform/preprocessing/modified_stl_residual.py *)
Record mstl (A : Type) : Type := mkMSTL { ms_period : Z; ms_wsize : option Z; ms_window : option (window A) }.
Arguments mkMSTL {A}.
Arguments ms_period {A}.
Arguments ms_wsize {A}.
Arguments ms_window {A}.
(** 26-39 *)
Definition MSTL_init {A} (period : Z) (window_size : option Z) : res (mstl A) :=
  if (period <? 2)%Z then Raise ValueError
  else match window_size with
       | Some w => if (w <? 2 * period)%Z then Raise ValueError
                   else Ok (mkMSTL period (Some w) (Some (Window_init w)))
       | None => Ok (mkMSTL period None None)
       end.
(** 41-45 _normalize_input and 47-56 _as_univariate.  An input is an array of at most two dimensions; a 2-D
    array with no row is treated as having other than one column. *)
Definition as_univariate {A} (a : pyarg (ndarray A)) : res (list A) :=
  match as_array a with
  | Arr1 l => Ok l
  | Arr2 (r :: rows) => if forallb (fun r => (length r =? 1)%nat) (r :: rows) then Ok (concat (r :: rows)) else Raise ValueError
  | _ => Raise ValueError
  end.
(** 58-81 transform_window; [stl x] is the seasonal component statsmodels' STL computes. *)
Definition transform_window {A} `{Num A} (stl : list A -> res (list A)) (period : Z) (a : pyarg (ndarray A)) : res (list A) :=
  rbind (as_univariate a) (fun x =>
  if (Z.of_nat (length x) <? 2 * period)%Z then Raise ValueError
  else rbind (stl x) (fun seasonal =>
       rbind (np_zip nsub x seasonal) (fun d =>
       rbind (np_median x) (fun m => Ok (map (fun v => nsub v m) d))))).
(** 83-93 fit_partial (and 95-100 _as_partial_value, same checks) *)
Definition as_partial_value {A} (a : pyarg (ndarray A)) : res A :=
  rbind (as_univariate a) (fun x => match x with [v] => Ok v | _ => Raise ValueError end).
Definition mstl_fit {A} (a : pyarg (ndarray A)) : M (mstl A) unit := fun s =>
  match ms_window s with
  | None => (Raise ValueError, s)
  | Some w => match as_partial_value a with
              | Raise e => (Raise e, s)
              | Ok v => let '(r, w') := Window_update v w in (r, mkMSTL (ms_period s) (ms_wsize s) (Some w'))
              end
  end.
(** 111-116 _latest_residual *)
Definition latest_residual {A} `{Num A} stl (period : Z) (values : list A) : res A :=
  if (Z.of_nat (length values) <? 2 * period)%Z then Ok n0
  else rbind (transform_window stl period (AInst (Arr1 values))) (fun l => py_index_Z l (-1)).
(** values[-n:] for an integer n: for n > 0 the last n items. *)
Definition py_last_slice {A} (n : Z) (l : list A) : list A :=
  if (n <=? 0)%Z then skipn (Z.to_nat (- n)) l else lastn (Z.to_nat n) l.
(** 118-123 transform_partial with 105-109 _candidate_values *)
Definition mstl_transform {A} `{Num A} stl (a : pyarg (ndarray A)) : M (mstl A) (pyval A) := fun s =>
  match ms_window s, ms_wsize s with
  | Some w, Some n =>
    (rbind (as_partial_value a) (fun v =>
     rmap VScalar (latest_residual stl (ms_period s) (py_last_slice n (wd_items w ++ [v])))), s)
  | _, _ => (Raise ValueError, s)
  end.
(** 125-128 fit_transform_partial with 102-103 _current_values *)
Definition mstl_fit_transform {A} `{Num A} stl (a : pyarg (ndarray A)) : M (mstl A) (pyval A) :=
  mstl_fit a ;;;
  s <- gets (fun s => s) ;;
  v <- lift (latest_residual stl (ms_period s) (match ms_window s with Some w => wd_items w | None => [] end)) ;;
  ret (VScalar v).
Definition ModifiedSTLResidualTransformer {A} `{Num A} stl : Transformer (ndarray A) A :=
  {| tr_state := mstl A; tr_dims := DInt (-1); tr_fit := mstl_fit; tr_transform := mstl_transform stl;
     tr_fit_transform := mstl_fit_transform stl |}.
