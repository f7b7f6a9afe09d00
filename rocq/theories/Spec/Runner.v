(** Total orders given by a comparison, and batches of jobs. *)
From Coq Require Import List ZArith Sorting.Permutation Sorted.
Import ListNotations.

(** [cmp] orders the elements satisfying [P] totally: a value is equal to itself only,
    the two directions agree, and the order is transitive. *)
Definition total_order {A} (P : A -> Prop) (cmp : A -> A -> option comparison) : Prop :=
  (forall a b, P a -> P b -> exists c, cmp a b = Some c) /\
  (forall a b, P a -> P b -> (cmp a b = Some Eq <-> a = b)) /\
  (forall a b, P a -> P b -> (cmp a b = Some Lt <-> cmp b a = Some Gt)) /\
  (forall a b c, P a -> P b -> P c -> cmp a b = Some Lt -> cmp b c = Some Lt -> cmp a c = Some Lt).

(** A name with a number at its end: [prefix] ends with an ASCII character that is no
    digit (or is empty). *)
Definition is_digit (b : Z) : Prop := (48 <= b <= 57)%Z.
Definition plain_name (s : list Z) : Prop :=
  exists prefix digits, s = prefix ++ digits /\ Forall is_digit digits /\
    (prefix = [] \/ exists p x, prefix = p ++ [x] /\ (0 <= x < 128)%Z /\ ~ is_digit x).

(** The outcome of job [i] is [outcome i]; what the report of the batch must be. *)
Definition failures {E} (outcomes : list (option E)) : list (nat * E) :=
  flat_map (fun p => match snd p with Some e => [(fst p, e)] | None => [] end)
           (combine (seq 0 (length outcomes)) outcomes).

(** Running [f] on the jobs one after the other, from job number [i] and state [st],
    gives the outcomes [outs] and ends in state [st']. *)
Inductive runs {S J R} (f : S -> nat -> J -> S * R) : S -> nat -> list J -> list R -> S -> Prop :=
  | runs_nil st i : runs f st i [] [] st
  | runs_cons st i j jobs st1 x outs st' :
      f st i j = (st1, x) -> runs f st1 (i + 1) jobs outs st' -> runs f st i (j :: jobs) (x :: outs) st'.

(** The number written in decimal digits *)
Definition decimal (ds : list Z) : Z := fold_left (fun acc b => acc * 10 + (b - 48))%Z ds 0%Z.
