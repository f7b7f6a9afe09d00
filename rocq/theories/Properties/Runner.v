(** Batches and the ordering of input names (C45, C46). *)
From Coq Require Import List ZArith Bool Arith Permutation Sorted.
From Verif Require Import Base.Array Base.Machine Spec.Runner Model.Runner.
From Verif.Proofs Require Runner.
Import ListNotations.
Local Open Scope list_scope.

(** C45.  Whatever the jobs do, the report counts every job once and lists exactly the
    failed ones, each with its own index and message, in increasing order. *)
Theorem C45_accounting {S J T} (execute : S -> nat -> J -> S * result T) st jobs :
  exists outs st' r, runs execute st 0 jobs outs st' /\ length outs = length jobs /\ run_batch_loop execute st jobs = (st', r) /\
    errors r = failures (map (fun x => match x with Ok _ => None | Err m => Some m end) outs) /\
    failed r = length (errors r) /\ succeeded r + failed r = length jobs.
Proof. exact (Runner.sequential_ok execute st jobs). Qed.
Print Assumptions C45_accounting.
Theorem C45_failures {E} (outs : list (option E)) :
  StronglySorted (fun a b => fst a < fst b) (failures outs) /\
  forall k e, In (k, e) (failures outs) <-> nth_error outs k = Some (Some e).
Proof. exact (Runner.failures_spec outs). Qed.
Print Assumptions C45_failures.
(** The command fails exactly when some job failed, and then names all failed jobs. *)
Theorem C45_exit_status {S J T} (execute : S -> nat -> J -> S * result T) st jobs :
  (check_batch_result (snd (run_batch_loop execute st jobs)) = None <->
   forall outs st', runs execute st 0 jobs outs st' -> Forall (fun x => exists m, x = Ok m) outs) /\
  (forall n l, check_batch_result (snd (run_batch_loop execute st jobs)) = Some (n, l) ->
    n = length l /\ 0 < n /\
    forall outs st', runs execute st 0 jobs outs st' -> l = failures (map (fun x => match x with Ok _ => None | Err m => Some m end) outs)).
Proof. exact (Runner.check_ok execute st jobs). Qed.
Print Assumptions C45_exit_status.
(** Jobs running in parallel give the report of the sequential loop, in whatever order
    they finish. *)
Theorem C45_parallel {J T P C} (execute : nat -> J -> result T * option (P * C)) jobs schedule files :
  Permutation schedule (seq 0 (length jobs)) ->
  exists files', run_batch_loop_parallel execute jobs schedule files =
    Some (snd (run_batch_loop (fun (_ : unit) i j => (tt, fst (execute i j))) tt jobs), files').
Proof. exact (Runner.parallel_ok execute jobs schedule files). Qed.
Print Assumptions C45_parallel.
(** With distinct witness paths, each path ends up with the witness of its own job (or
    untouched if that job wrote nothing), and no other file changes, in every order. *)
Theorem C45_witness_files {J T P C} (execute : nat -> J -> result T * option (P * C)) jobs
    (eqb : P -> P -> bool) (path : J -> P) schedule files r files' :
  (forall a b, eqb a b = true <-> a = b) ->
  (forall i j p c, snd (execute i j) = Some (p, c) -> p = path j) ->
  ensure_unique_witness_paths eqb (map path jobs) = true ->
  Permutation schedule (seq 0 (length jobs)) -> run_batch_loop_parallel execute jobs schedule files = Some (r, files') ->
  (forall i j, nth_error jobs i = Some j ->
    content eqb files' (path j) =
      match snd (execute i j) with Some (_, c) => Some c | None => content eqb files (path j) end) /\
  (forall p, ~ In p (map path jobs) -> content eqb files' p = content eqb files p).
Proof. exact (fun Q O => Runner.files_ok execute jobs eqb path Q O schedule files r files'). Qed.
Print Assumptions C45_witness_files.
Theorem C45_unique_paths {P} (eqb : P -> P -> bool) paths : (forall a b, eqb a b = true <-> a = b) ->
  (ensure_unique_witness_paths eqb paths = true <-> NoDup paths).
Proof. exact (fun Q => Runner.ensure_unique_iff eqb Q paths). Qed.
Print Assumptions C45_unique_paths.
Definition odd_fails (i j : nat) : result nat * option (nat * nat) := if Nat.odd j then (Err j, None) else (Ok j, Some (j, 100 + j)).
Example C45_applies :
  Permutation [2; 0; 1] (seq 0 (length [4; 7; 9])) /\
  ensure_unique_witness_paths Nat.eqb [4; 7; 9] = true /\
  run_batch_loop_parallel odd_fails [4; 7; 9] [2; 0; 1] [(4, 0)] =
    Some ({| succeeded := 1; failed := 2; errors := [(1, 7); (2, 9)] |}, [(4, 104); (4, 0)]).
Proof.
  split; [|split; reflexivity]. cbn. apply perm_trans with [0; 2; 1]; [apply perm_swap|apply perm_skip, perm_swap].
Qed.

(** C46.  For names that end in an ASCII character before their digits, the comparison is
    a total order: it never panics, is equal only on equal names, agrees in both
    directions and is transitive. *)
Theorem C46_total_order_partial : total_order plain_name natural_key_cmp.
Proof. exact Runner.natural_order. Qed.
Print Assumptions C46_total_order_partial.
(** Names with the same text are ordered by their numbers, if these have 64 bits. *)
Theorem C46_numbers p da db :
  p = [] \/ (exists q x, p = q ++ [x] /\ (0 <= x < 128)%Z /\ ~ is_digit x) ->
  da <> [] -> db <> [] -> Forall is_digit da -> Forall is_digit db ->
  (decimal da < decimal db < U64)%Z -> natural_key_cmp (p ++ da) (p ++ db) = Some Lt.
Proof. exact (Runner.numeric_order p da db). Qed.
Print Assumptions C46_numbers.
(** The flattened inputs are those of the entries in order of their names ... *)
Theorem C46_flattened {T} (entries : list (option (list Z) * value T)) :
  Forall (fun e => plain_name (fst e)) (string_entries entries) ->
  exists order, Permutation (string_entries entries) order /\
    StronglySorted (fun x y => natural_key_cmp (fst x) (fst y) = Some Lt \/ fst x = fst y) order /\
    flatten (Map entries) = flatten (Array (map snd order)).
Proof. exact (Runner.flatten_sorted entries). Qed.
Print Assumptions C46_flattened.
(** ... and do not depend on the order of a map's entries, at any depth. *)
Theorem C46_deterministic {T} (C : Runner.context T) (l m : list (option (list Z) * value T)) :
  Permutation l m -> Forall (fun e => plain_name (fst e)) (string_entries l) -> NoDup (map fst (string_entries l)) ->
  flatten (Runner.plug C (Map l)) = flatten (Runner.plug C (Map m)).
Proof. exact (fun HP HF HN => Runner.flatten_plug C (Map l) (Map m) (Runner.flatten_perm l m HP HF HN)). Qed.
Print Assumptions C46_deterministic.
(** For all other names the comparison panics: [x] is the first byte of a character
    outside ASCII, [cs] the rest of it. *)
Theorem C46_panics p x cs ds b :
  (192 <= x)%Z -> cs <> [] -> Forall (fun b => 128 <= b <= 191)%Z cs -> Forall is_digit ds ->
  natural_key_cmp (p ++ [x] ++ cs ++ ds) b = None /\ natural_key_cmp b (p ++ [x] ++ cs ++ ds) = None.
Proof. exact (fun HX HC HF HD => Runner.cmp_panics _ b (Runner.split_panics p x cs ds HX HC HF HD)). Qed.
Print Assumptions C46_panics.
(** So the property fails: "é" is not even comparable with itself. *)
Theorem C46_non_ascii_refuted : exists s, natural_key_cmp s s = None.
Proof. exact (ex_intro _ [195; 169]%Z eq_refl). Qed.
Print Assumptions C46_non_ascii_refuted.
(** "in2" and "in10", and a map with both. *)
Definition in2 : list Z := [105; 110; 50]%Z.
Definition in10 : list Z := [105; 110; 49; 48]%Z.
Example C46_applies :
  plain_name in2 /\ plain_name in10 /\ natural_key_cmp in2 in10 = Some Lt /\ bytes_cmp in2 in10 = Gt /\
  flatten (Map [(Some in10, Leaf (Some 10)); (None, Leaf None); (Some in2, Array [Leaf (Some 2); Leaf (Some 3)])]) = Some (Some [2; 3; 10]).
Proof.
  assert (Hi : forall x : Z, (48 <=? x)%Z && (x <=? 57)%Z = true -> is_digit x).
  { intros x H. apply andb_true_iff in H as (A & B). split; now apply Z.leb_le. }
  assert (HP : exists p x, [105; 110]%Z = p ++ [x] /\ (0 <= x < 128)%Z /\ ~ is_digit x).
  { exists [105%Z], 110%Z. split; [reflexivity|]. split; [split; [discriminate|reflexivity]|]. intros (_ & H). apply H. reflexivity. }
  split; [|split; [|repeat split]].
  - exists [105; 110]%Z, [50]%Z. split; [reflexivity|]. split; [repeat constructor; now apply Hi|now right].
  - exists [105; 110]%Z, [49; 48]%Z. split; [reflexivity|]. split; [repeat constructor; now apply Hi|now right].
Qed.
