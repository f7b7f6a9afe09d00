(** rust/jstprove_circuits/src/runner/main_runner.rs: batches of jobs and the ordering
    of named inputs.  Strings are their UTF-8 bytes; printing is left out. *)
From Coq Require Import List ZArith Bool Arith.
From Verif Require Import Base.Array Base.Machine.
Import ListNotations.
Local Open Scope list_scope.

(** ** Batches *)
Inductive result (T : Type) := Ok (msg : T) | Err (msg : T).
Arguments Ok {T}. Arguments Err {T}.
(** main_runner.rs:360-365 BatchResult *)
Record batch_result (T : Type) := { succeeded : nat; failed : nat; errors : list (nat * T) }.
Arguments succeeded {T}. Arguments failed {T}. Arguments errors {T}. Arguments Build_batch_result {T}.

Section Batch.
Context {J T : Type}.

(** main_runner.rs:397-409 and 433-445: the accounting of one result *)
Definition account (r : batch_result T) (idx : nat) (x : result T) : batch_result T :=
  match x with
  | Ok _ => {| succeeded := succeeded r + 1; failed := failed r; errors := errors r |}
  | Err m => {| succeeded := succeeded r; failed := failed r + 1; errors := errors r ++ [(idx, m)] |}
  end.
Definition empty_result : batch_result T := {| succeeded := 0; failed := 0; errors := [] |}.

(** main_runner.rs:387-416 run_batch_loop: [execute] may change its own state [S] *)
Fixpoint batch_loop {S} (execute : S -> nat -> J -> S * result T) (st : S) (r : batch_result T) (idx : nat) (jobs : list J) : S * batch_result T :=
  match jobs with
  | [] => (st, r)
  | job :: rest =>
      let (st, x) := execute st idx job in
      batch_loop execute st (account r idx x) (idx + 1) rest
  end.
Definition run_batch_loop {S} (execute : S -> nat -> J -> S * result T) (st : S) (jobs : list J) : S * batch_result T :=
  batch_loop execute st empty_result 0 jobs.

(** main_runner.rs:418-452 run_batch_loop_parallel.  The jobs finish in the order
    [schedule]; rayon's indexed collect stores the result of job [idx] in slot [idx].
    [execute] also returns the file it writes (main_runner.rs:1121-1138: the witness at
    the job's own path, when it succeeds), and the files are written in the order of
    the schedule.  [None]: a job did not run. *)
Definition fs (P C : Type) := list (P * C).
Fixpoint run_slots {P C} (execute : nat -> J -> result T * option (P * C)) (jobs : list J) (schedule : list nat)
    (slots : list (option (nat * result T))) (files : fs P C) : option (list (option (nat * result T)) * fs P C) :=
  match schedule with
  | [] => Some (slots, files)
  | idx :: rest =>
      let* job := aget jobs idx in
      let (x, w) := execute idx job in
      let* slots := aset slots idx (Some (idx, x)) in
      run_slots execute jobs rest slots (match w with Some f => f :: files | None => files end)
  end.
Definition run_batch_loop_parallel {P C} (execute : nat -> J -> result T * option (P * C)) (jobs : list J) (schedule : list nat)
    (files : fs P C) : option (batch_result T * fs P C) :=
  let* (slots, files) := run_slots execute jobs schedule (repeat None (length jobs)) files in
  let* results := omap (fun s => s) slots in
  Some (fold_left (fun r p => account r (fst p) (snd p)) results empty_result, files).

(** A file's content is the last one written *)
Fixpoint content {P C} (eqb : P -> P -> bool) (files : fs P C) (path : P) : option C :=
  match files with
  | [] => None
  | (p, c) :: rest => if eqb p path then Some c else content eqb rest path
  end.

(** main_runner.rs:464-474 *)
Fixpoint unique_from {P} (eqb : P -> P -> bool) (seen paths : list P) : bool :=
  match paths with
  | [] => true
  | p :: rest => if existsb (eqb p) seen then false else unique_from eqb (p :: seen) rest
  end.
Definition ensure_unique_witness_paths {P} (eqb : P -> P -> bool) (paths : list P) : bool := unique_from eqb [] paths.

(** main_runner.rs:367-385: the error lists the failed jobs *)
Definition check_batch_result (r : batch_result T) : option (nat * list (nat * T)) :=
  if 0 <? failed r then Some (failed r, errors r) else None.
End Batch.

(** ** Names *)
Definition digitb (b : Z) : bool := (48 <=? b)%Z && (b <=? 57)%Z.
(** A continuation byte: no character starts here *)
Definition contb (b : Z) : bool := (128 <=? b)%Z && (b <=? 191)%Z.

(** str::rfind(|c| !c.is_ascii_digit()): the start of the last character that is no digit *)
Fixpoint rfind_from (i : nat) (s : list Z) : option nat :=
  match s with
  | [] => None
  | b :: r =>
      match rfind_from (i + 1) r with
      | Some k => Some k
      | None => if digitb b || contb b then None else Some i
      end
  end.
Definition rfind (s : list Z) : option nat := rfind_from 0 s.

(** str::parse::<u64>().ok() of a non-empty string *)
Fixpoint digits_value (acc : Z) (s : list Z) : option Z :=
  match s with
  | [] => Some acc
  | b :: r => if digitb b then digits_value (acc * 10 + (b - 48)) r else None
  end.
Definition parse_u64 (s : list Z) : option Z :=
  let* v := digits_value 0 s in if (v <? U64)%Z then Some v else None.

(** main_runner.rs:1778-1785; slicing inside a character panics *)
Definition split_trailing_number (s : list Z) : option (list Z * option Z) :=
  let pos := match rfind s with Some i => i + 1 | None => 0 end in
  if pos <? length s then
    match nth_error s pos with
    | Some b => if contb b then None else Some (firstn pos s, parse_u64 (skipn pos s))
    | None => None
    end
  else Some (s, None).

(** str::cmp *)
Fixpoint bytes_cmp (a b : list Z) : comparison :=
  match a, b with
  | [], [] => Eq
  | [], _ => Lt
  | _, [] => Gt
  | x :: a, y :: b => match (x ?= y)%Z with Eq => bytes_cmp a b | c => c end
  end.
(** Option<u64>::cmp: None is the least *)
Definition opt_cmp (a b : option Z) : comparison :=
  match a, b with
  | None, None => Eq
  | None, Some _ => Lt
  | Some _, None => Gt
  | Some x, Some y => (x ?= y)%Z
  end.
Definition then_with (a b : comparison) : comparison := match a with Eq => b | c => c end.
(** main_runner.rs:1787-1794 *)
Definition natural_key_cmp (a b : list Z) : option comparison :=
  let* (ap, an) := split_trailing_number a in
  let* (bp, bn) := split_trailing_number b in
  Some (then_with (bytes_cmp ap bp) (then_with (opt_cmp an bn) (bytes_cmp a b))).

(** slice::sort_by, a stable sort, as insertion from the right *)
Fixpoint insert_by {V} (cmp : list Z -> list Z -> option comparison) (x : list Z * V) (l : list (list Z * V)) : option (list (list Z * V)) :=
  match l with
  | [] => Some [x]
  | y :: r =>
      let* c := cmp (fst x) (fst y) in
      match c with
      | Gt => let* r := insert_by cmp x r in Some (y :: r)
      | _ => Some (x :: y :: r)
      end
  end.
Fixpoint sort_by {V} (cmp : list Z -> list Z -> option comparison) (l : list (list Z * V)) : option (list (list Z * V)) :=
  match l with
  | [] => Some []
  | x :: r => let* r := sort_by cmp r in insert_by cmp x r
  end.

(** rmpv::Value as far as it matters here: a leaf is the number it converts to, or
    [None] when it does not; keys that are not strings have no bytes *)
Inductive value (T : Type) :=
  | Array (items : list (value T))
  | Map (entries : list (option (list Z) * value T))
  | Leaf (v : option T).
Arguments Array {T}. Arguments Map {T}. Arguments Leaf {T}.

(** main_runner.rs:1799-1803: entries whose key is a string *)
Definition string_entries {V} (l : list (option (list Z) * V)) : list (list Z * V) :=
  flat_map (fun e => match fst e with Some k => [(k, snd e)] | None => [] end) l.

(** main_runner.rs:1796-1847 flatten_rmpv_to_f64.  The outer [None] is a panic, the inner
    one the error.  Entries are flattened before they are sorted by key, which changes
    nothing: the order depends on the keys only. *)
Definition and_then {T} (a b : option (list T)) : option (list T) := match a, b with Some x, Some y => Some (x ++ y) | _, _ => None end.
Fixpoint flatten {T} (v : value T) : option (option (list T)) :=
  match v with
  | Leaf o => Some (option_map (fun x => [x]) o)
  | Array l =>
      (fix go l := match l with
        | [] => Some (Some [])
        | x :: r => let* a := flatten x in
                    match a with None => Some None | Some a => let* b := go r in Some (and_then (Some a) b) end
        end) l
  | Map l =>
      let flat := (fix go l := match l with [] => [] | (k, x) :: r => (k, flatten x) :: go r end) l in
      let* sorted := sort_by natural_key_cmp (string_entries flat) in
      (fix seq_results l := match l with
        | [] => Some (Some [])
        | (_, x) :: r => let* a := x in
                    match a with None => Some None | Some a => let* b := seq_results r in Some (and_then (Some a) b) end
        end) sorted
  end.
