(** * Model of pysad/utils *)
From Coq Require Import String.
From Coq Require Import List ZArith Lia Bool Arith.
From Verif Require Import Base Num Model_Stats.
Import ListNotations.
Open Scope m_scope.

(** ** pysad/utils/window.py *)
(** Window: 10-12 __init__ (any integer size). *)
Record window (A : Type) : Type := mkWindow { wd_size : Z; wd_items : list A }.
Arguments mkWindow {A}.
Arguments wd_size {A}.
Arguments wd_items {A}.
Definition Window_init {A} (size : Z) : window A := mkWindow size [].

(** 14-22: update: append, then drop the first item if the length exceeds the size. *)
Definition Window_update {A} (x : A) : M (window A) unit :=
  modify (fun w => mkWindow (wd_size w) (wd_items w ++ [x])) ;;;
  modify (fun w => if (wd_size w <? Z.of_nat (length (wd_items w)))%Z
                   then mkWindow (wd_size w) (skipn 1 (wd_items w)) else w).
(** 24-30: get. *)
Definition Window_get {A} : M (window A) (list A) := gets wd_items.

(** UnlimitedWindow: 37-38 __init__, 40-46 update.  The size attribute is None. *)
Definition UnlimitedWindow_init {A} : list A := [].
Definition UnlimitedWindow_update {A} (x : A) : M (list A) unit := modify (fun l => l ++ [x]).
Definition UnlimitedWindow_get {A} : M (list A) (list A) := gets (fun l => l).

(** *** Window with object identities.
    The Python attribute [self.window] is a reference to a list object.  [append]
    mutates that object; the slice [self.window[1:]] allocates a new one.  The heap is
    the list of all list objects ever allocated, references are positions in it. *)
Record hwindow (A : Type) : Type := mkHW { hw_size : Z; hw_ref : nat; hw_heap : list (list A) }.
Arguments mkHW {A}.
Arguments hw_size {A}.
Arguments hw_ref {A}.
Arguments hw_heap {A}.
Definition deref {A} (h : list (list A)) (r : nat) : list A := nth r h [].
Definition HWindow_init {A} (size : Z) : hwindow A := mkHW size 0 [[]].
(** window.py:14-22 *)
Definition HWindow_update {A} (x : A) : M (hwindow A) unit :=
  modify (fun w => mkHW (hw_size w) (hw_ref w)
            (set_nth (hw_ref w) (deref (hw_heap w) (hw_ref w) ++ [x]) (hw_heap w))) ;;;
  modify (fun w =>
    let cur := deref (hw_heap w) (hw_ref w) in
    if (hw_size w <? Z.of_nat (length cur))%Z
    then mkHW (hw_size w) (length (hw_heap w)) (hw_heap w ++ [skipn 1 cur])
    else w).
(** window.py:24-30: returns the reference itself, not a copy. *)
Definition HWindow_get {A} : M (hwindow A) nat := gets hw_ref.

(** ** numpy.random.shuffle on a Python list (Fisher-Yates):
    [for i in reversed(range(1, n)): j = random integer in 0..i; swap x[i], x[j]].
    The generator is the oracle [draw : nat -> nat] (the integer drawn for index i). *)
Definition swap {A} (i j : nat) (l : list A) : list A :=
  match nth_error l i, nth_error l j with
  | Some a, Some b => set_nth j a (set_nth i b l)
  | _, _ => l
  end.
Fixpoint shuffle_from {A} (draw : nat -> nat) (i : nat) (l : list A) : list A :=
  match i with
  | O => l
  | S i' => shuffle_from draw i' (swap i (draw i) l)
  end.
Definition np_shuffle {A} (draw : nat -> nat) (l : list A) : list A :=
  shuffle_from draw (length l - 1) l.

(** ** pysad/utils/array_streamer.py *)
(** [for i in indices: yield f(i)], [f] may raise. *)
Fixpoint yields {B} (f : nat -> res B) (indices : list nat) : gen B :=
  match indices with
  | [] => ([], None)
  | i :: rest => match f i with
                 | Ok b => let '(bs, e) := yields f rest in (b :: bs, e)
                 | Raise e => ([], Some e)
                 end
  end.

(** 12-13 + 15-28: iter(X) without labels.  [shuffle] is None for shuffle=False, otherwise the
    generator's draws. *)
Definition stream_indices (n : nat) (shuffle : option (nat -> nat)) : list nat :=
  match shuffle with None => seq 0 n | Some draw => np_shuffle draw (seq 0 n) end.
Definition ArrayStreamer_iter {X} (shuffle : option (nat -> nat)) (xs : list X) : gen X :=
  yields (py_index xs) (stream_indices (length xs) shuffle).
(** 15-24 + 29-32: iter(X, y). *)
Definition ArrayStreamer_iter_xy {X Y} (shuffle : option (nat -> nat)) (xs : list X) (ys : list Y)
  : gen (X * Y) :=
  if (length xs =? length ys)
  then yields (fun i => rbind (py_index xs i) (fun x => rmap (fun y => (x, y)) (py_index ys i)))
              (stream_indices (length xs) shuffle)
  else ([], Some AssertionError).

(** ** pysad/utils/__init__.py:54-69 _iterate(X, y): (xi, None) or (xi, yi) pairs. *)
Definition iterate {X Y} (xs : list X) (ys : option (list Y)) : gen (X * option Y) :=
  match ys with
  | None => let '(l, e) := ArrayStreamer_iter None xs in (map (fun x => (x, None)) l, e)
  | Some ys => let '(l, e) := ArrayStreamer_iter_xy None xs ys in (map (fun p => (fst p, Some (snd p))) l, e)
  end.

(** ** pysad/utils/pandas_streamer.py:17-31.  A data frame is the list of its rows
    (to_numpy()); a label column is the list of its values. *)
Definition PandasStreamer_iter {X} (shuffle : option (nat -> nat)) (df : list X) : gen X :=
  ArrayStreamer_iter shuffle df.
Definition PandasStreamer_iter_xy {X Y} (shuffle : option (nat -> nat)) (df : list X) (ys : list Y) : gen (X * Y) :=
  if (length df =? length ys) then ArrayStreamer_iter_xy shuffle df ys else ([], Some AssertionError).

(** ** pysad/utils/data.py *)
(** numpy arrays of at most two dimensions. *)
Inductive ndarray (A : Type) : Type := Arr0 (a : A) | Arr1 (l : list A) | Arr2 (rows : list (list A)).
Arguments Arr0 {A}.
Arguments Arr1 {A}.
Arguments Arr2 {A}.

(** np.loadtxt(path, delimiter=","): the file is given as the table of its parsed lines (blank
    lines are skipped by numpy, so every row has at least one field).  Rows of different
    length raise ValueError; the result is squeezed (ndmin=0). *)
Definition loadtxt {A} (table : list (list A)) : res (ndarray A) :=
  match table with
  | [] => Ok (Arr1 [])
  | r0 :: rest =>
    if forallb (fun r => length r =? length r0) rest then
      match rest, r0 with
      | [], [a] => Ok (Arr0 a)
      | [], _ => Ok (Arr1 r0)
      | _, [_] => Ok (Arr1 (concat table))
      | _, _ => Ok (Arr2 table)
      end
    else Raise ValueError
  end.

(** X[:, -1].ravel() and X[:, :-1]: IndexError on arrays with fewer than 2 dimensions. *)
Definition last_column {A} (a : ndarray A) : res (list A) :=
  match a with
  | Arr2 rows => (fix go rs := match rs with
                               | [] => Ok []
                               | r :: rs' => rbind (py_index_Z r (-1)) (fun x => rmap (cons x) (go rs'))
                               end) rows
  | _ => Raise IndexError
  end.
Definition all_but_last_column {A} (a : ndarray A) : res (list (list A)) :=
  match a with Arr2 rows => Ok (map (@removelast A) rows) | _ => Raise IndexError end.

(** Substring test [".mat" in data_file]. *)
Fixpoint contains (sub s : string) : bool :=
  String.prefix sub s ||
  match s with EmptyString => false | String _ s' => contains sub s' end.

(** 60-85: get_data.  [fs_mat]/[fs_txt] are the file system seen by scipy.io.loadmat (the 'X' matrix
    and the 'y' matrix) and by np.loadtxt. *)
Definition get_data {A} (fs_mat : string -> res (list (list A) * list (list A)))
  (fs_txt : string -> list (list A)) (data_file : string) : res (list (list A) * list A) :=
  if contains ".mat" data_file then
    rmap (fun xy => (fst xy, concat (snd xy))) (fs_mat data_file)
  else
    rbind (loadtxt (fs_txt data_file)) (fun X =>
    rbind (last_column X) (fun y =>
    rmap (fun X' => (X', y)) (all_but_last_column X))).

(** 87-106: get_iterator (the seed only selects the draws). *)
Definition get_iterator {A} fs_mat fs_txt (data_file : string) (shuffle : option (nat -> nat))
  : res (gen (list A * A)) :=
  rmap (fun xy => ArrayStreamer_iter_xy shuffle (fst xy) (snd xy)) (get_data fs_mat fs_txt data_file).

(** ** pysad/utils/__init__.py:24-51 *)
(** np.min(X, axis=0) of a table with [d] columns. *)
Definition column {A} (j : nat) (rows : list (list A)) : res (list A) :=
  (fix go rs := match rs with
                | [] => Ok []
                | r :: rs' => rbind (py_index r j) (fun x => rmap (cons x) (go rs'))
                end) rows.
Fixpoint res_map {A B} (f : A -> res B) (l : list A) : res (list B) :=
  match l with
  | [] => Ok []
  | a :: l' => rbind (f a) (fun b => rmap (cons b) (res_map f l'))
  end.
(** 24-36 get_minmax_array on a 2-D array with [d] columns. *)
Definition get_minmax_array {A} `{Ord A} (d : nat) (rows : list (list A)) : res (list A * list A) :=
  rbind (res_map (fun j => rbind (column j rows) np_min) (seq 0 d)) (fun mins =>
  rmap (fun maxs => (mins, maxs)) (res_map (fun j => rbind (column j rows) np_max) (seq 0 d))).
(** 39-51 get_minmax_scalar (also get_minmax_array on a 1-D array). *)
Definition get_minmax_scalar {A} `{Ord A} (l : list A) : res (A * A) :=
  rbind (np_min l) (fun mn => rmap (fun mx => (mn, mx)) (np_max l)).
