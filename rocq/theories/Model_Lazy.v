(** * The streamers as the generators they are: they read the arrays when an item is asked for, so the client may have
    changed the arrays since (pysad/utils/array_streamer.py, pandas_streamer.py).  Model_Utils has them run to exhaustion on
    arrays nobody changes. *)
From Coq Require Import List Arith.
From Verif Require Import Base Num Model_Stats Model_Utils.
Import ListNotations.

(** Where the execution of the generator is: before the first line, in the for loop with these indices left, or over. *)
Inductive lazyst : Type := Fresh | Live (indices : list nat) | Over.
(** What next() does: returns an item, raises StopIteration, or raises another exception. *)
Inductive nexted (B : Type) : Type := Yield (b : B) | Stop | Error (e : exn).
Arguments Yield {B}.
Arguments Stop {B}.
Arguments Error {B}.
(** One iteration of the for loops (27-28, 31-32): [read i] evaluates the yielded expression. *)
Definition lazy_loop {B} (read : nat -> res B) (indices : list nat) : nexted B * lazyst :=
  match indices with
  | [] => (Stop, Over)
  | i :: rest => match read i with Ok b => (Yield b, Live rest) | Raise e => (Error e, Over) end
  end.
(** next() on the generator: lines 22-24 and 30 run at the first call, not when iter is called. *)
Definition lazy_next {B} (indices : list nat) (check : option exn) (read : nat -> res B) (g : lazyst) : nexted B * lazyst :=
  match g with
  | Fresh => match check with Some e => (Error e, Over) | None => lazy_loop read indices end
  | Live l => lazy_loop read l
  | Over => (Stop, Over)
  end.
(** array_streamer.py 15-28: next() on iter(X) when X holds the rows [xs]. *)
Definition array_next {X} (shuffle : option (nat -> nat)) (xs : list X) (g : lazyst) : nexted X * lazyst :=
  lazy_next (stream_indices (length xs) shuffle) None (py_index xs) g.
(** array_streamer.py 15-24, 29-32: next() on iter(X, y). *)
Definition array_next_xy {X Y} (shuffle : option (nat -> nat)) (xy : list X * list Y) (g : lazyst) : nexted (X * Y) * lazyst :=
  lazy_next (stream_indices (length (fst xy)) shuffle) (if length (fst xy) =? length (snd xy) then None else Some AssertionError)
    (fun i => rbind (py_index (fst xy) i) (fun x => rmap (fun y => (x, y)) (py_index (snd xy) i))) g.
(** A client that calls next() once for every element of [cs], the contents of the arrays at that moment. *)
Fixpoint lazy_run {C B} (next : C -> lazyst -> nexted B * lazyst) (cs : list C) (g : lazyst) : list (nexted B) :=
  match cs with
  | [] => []
  | c :: r => let '(a, g') := next c g in a :: lazy_run next r g'
  end.
(** pandas_streamer.py 25-31: X.to_numpy() is evaluated at the first next(); the array is a copy, or shares the memory of the frame
    ([shares], which depends on the types of the columns), in which case later writes to the frame are seen. *)
Definition pandas_run {X} (shares : bool) (shuffle : option (nat -> nat)) (cs : list (list X)) : list (nexted X) :=
  match cs with
  | [] => []
  | c0 :: _ => lazy_run (array_next shuffle) (if shares then cs else map (fun _ => c0) cs) Fresh
  end.
