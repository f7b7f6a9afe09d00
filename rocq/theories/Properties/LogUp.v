(** C04, C05, C17: the LogUp lookup argument. *)
From Coq Require Import ZArith List Bool Znumtheory Lia.
From Verif Require Import Base.Field Base.Pocklington Spec.Numbers Model.LogUp Model.LogUpHints Model.Builder
  Model.Gadgets Model.Trace Proofs.LogUp Proofs.LogUpHints Proofs.LogUpKeys Proofs.RangeCheck Proofs.Gadgets Proofs.RescaleArray
  Proofs.Trace Proofs.TraceComplete.
Import ListNotations.
Local Open Scope Z_scope.

(** C04.  One-column (range) tables: if a query is not in the table, then,
    whatever multiplicities the prover supplied, fewer than
    |table| + |queries| challenges satisfy the final check.  The characteristic
    must exceed the number of queries. *)
Theorem C04_range_table_sound (K : field) (table queries counts : list K) q alphas :
  length counts = length table ->
  In q queries -> ~ In q table ->
  (forall m, (0 < m <= length queries)%nat -> f_of_nat (K:=K) m <> f0) ->
  NoDup alphas ->
  (forall a, In a alphas -> range_final_check table queries counts a) ->
  (length alphas < length table + length queries)%nat.
Proof. exact (range_sound K table queries counts q alphas). Qed.
Print Assumptions C04_range_table_sound.

(** C04.  Key/value tables have a second challenge (beta): at most |table| values
    of beta admit |table| + |queries| or more accepting values of alpha. *)
Theorem C04_function_table_sound (K : field) (table queries : list (K * K)) counts k v (betas : list K) :
  let rows := map (fun kv : K * K => [fst kv; snd kv]) in
  length counts = length table -> In (k, v) queries -> ~ In (k, v) table ->
  (forall m, (0 < m <= length queries)%nat -> f_of_nat (K:=K) m <> f0) ->
  NoDup betas ->
  (forall b, In b betas -> exists alphas, NoDup alphas /\
     (length table + length queries <= length alphas)%nat /\
     forall a, In a alphas -> single_key_final_check (rows table) (rows queries) counts a [b]) ->
  (length betas <= length table)%nat.
Proof. exact (single_key_sound_both K table queries counts k v betas). Qed.
Print Assumptions C04_function_table_sound.

(** C04, end to end for the rescaling layer: fix the hint outputs [hs] and the
    multiplicities [counts]; if the claimed output [ys] is not the exact
    rescaling of the inputs, fewer than (table size + number of queries)
    challenges make the whole circuit (assertions and final LogUp check) accept. *)
Theorem C04_rescale_circuit_sound p (Hp : prime p) c k s relu xs ys hs counts alphas :
  (0 < c)%nat -> (k < 32)%nat -> (s < 64)%nat -> (0 < k)%nat ->
  (k mod c = 0)%nat -> ((s + 1) mod c = 0)%nat ->
  2 * (2 ^ Z.of_nat k * 2 ^ Z.of_nat (s + 1) + 2 ^ Z.of_nat k) <= p -> 2 ^ Z.of_nat c <= p ->
  Forall (fun x => - (2 ^ Z.of_nat k * 2 ^ Z.of_nat s) <= x < 2 ^ Z.of_nat k * 2 ^ Z.of_nat s) xs ->
  Forall (Forall (fun v => 0 <= v < p)) hs ->
  length counts = (2 ^ c)%nat ->
  (forall r qs, trace (rescale_array p c (map (enc p) xs) k s relu) hs = Some (ys, r, qs) ->
     Z.of_nat (length qs) < p) ->
  ys <> map (enc p) (map (rescaled k relu) xs) ->
  NoDup alphas ->
  (forall al, In al alphas ->
     circuit_accepts p Hp c (rescale_array p c (map (enc p) xs) k s relu) ys hs counts al) ->
  (length alphas < 2 ^ c + match trace (rescale_array p c (map (enc p) xs) k s relu) hs with
                           | Some (_, _, qs) => length qs | None => 1 end)%nat.
Proof.
  intros Hc Hk Hs Hk0 Hdk Hds Hbig Hpc Hxs Hhs Hcl Hq Hne ND Hacc.
  destruct (scope_rescale_array p Hp c (map (enc p) xs) k s relu) as (Hro & Hfr).
  assert (Hwk : width_ok c k) by (split; [lia|intros; lia]).
  assert (Hws : width_ok c (s + 1)) by (split; [lia|intros; lia]).
  eapply (bridge_sound p Hp _ c (fun _ => [])); eauto.
  intros Ha. apply Hne.
  apply (rescale_array_exact p Hp c Hc (fun _ => []) k s Hk Hs Hwk Hws) in Ha; auto.
  rewrite (rounded_exact c (s + 1)), (rounded_exact c k) by auto. exact Hbig.
Qed.
Print Assumptions C04_rescale_circuit_sound.

(** [rescaled k relu x] is floor(x / 2^k), clamped at 0 when [relu] is set. *)
Example C04_rescaled_meaning : rescaled 12 false (-4097) = -2 /\ rescaled 12 true (-4097) = 0 /\
  rescaled 12 true 8191 = 1.
Proof. repeat split; vm_compute; reflexivity. Qed.

Example C04_applies :
  (forall m, (0 < m <= 1000)%nat -> f_of_nat (K:=Fp_field goldilocks_p goldilocks_prime) m <> f0) /\
  2 * (2 ^ Z.of_nat 24 * 2 ^ Z.of_nat (35 + 1) + 2 ^ Z.of_nat 24) <= goldilocks_p /\
  2 * (2 ^ Z.of_nat 12 * 2 ^ Z.of_nat (59 + 1) + 2 ^ Z.of_nat 12) <= bn254_r /\
  2 ^ Z.of_nat 12 <= bn254_r.
Proof.
  split; [|repeat split; vm_compute; congruence].
  intros m Hm. apply f_of_nat_nz; [lia|]. unfold goldilocks_p. lia.
Qed.

(** C05.  Queries inside the table and true multiplicities: accepted for every
    challenge, the poles included. *)
Theorem C05_range_table_complete (K : field) (table queries : list K) alpha :
  NoDup table -> (forall q, In q queries -> In q table) ->
  range_final_check table queries
    (map (fun t => f_of_nat (count_occ feq_dec queries t)) table) alpha.
Proof. exact (range_complete K table queries alpha). Qed.
Print Assumptions C05_range_table_complete.

Theorem C05_function_table_complete (K : field) (table queries : list (list K)) alpha betas :
  table <> [] -> queries <> [] -> NoDup table -> (forall q, In q queries -> In q table) ->
  single_key_final_check table queries
    (map (fun t => f_of_nat (count_occ (list_eq_dec feq_dec) queries t)) table) alpha betas.
Proof. exact (single_key_complete_rows K table queries alpha betas). Qed.
Print Assumptions C05_function_table_complete.

(** C05, end to end: a gadget program whose honest witness generation succeeds is
    accepted, with the multiplicities of the code's own hint, for every
    challenge. *)
Theorem C05_honest_circuit_complete p (Hp : prime p) A c F (m : prog A) a :
  range_only m -> 2 ^ Z.of_nat c <= p -> (c <= 64)%nat ->
  run honest_hint (table_rowsb c F) m = Some a ->
  exists hs qs, trace m hs = Some (a, [], qs) /\
    (Z.of_nat (length qs) < 2 ^ 32 ->
     exists counts, query_count_hint (range_queries qs) (2 ^ c) = Some counts /\
     forall alpha, circuit_accepts p Hp c m a hs (map (to_fp p) counts) alpha).
Proof. exact (bridge_complete p Hp A honest_hint c F m a). Qed.
Print Assumptions C05_honest_circuit_complete.

Example C05_applies : range_only (rescale_array goldilocks_p 12 [5000; enc goldilocks_p (-1)] 12 23 true) /\
  run honest_hint (table_rowsb 12 (fun _ => []))
    (rescale_array goldilocks_p 12 [5000; enc goldilocks_p (-1)] 12 23 true) = Some [1; 0].
Proof.
  split; [exact (proj1 (scope_rescale_array goldilocks_p goldilocks_prime _ _ _ _ _))|].
  vm_compute. reflexivity.
Qed.

(** C17 is false on Goldilocks: the one-bit signed table (keys -1 and 0) with the
    single query of key 0.  The honest multiplicities make the final check fail
    for every challenge alpha except one. *)
Theorem C17_goldilocks_signed_keys_refuted (Hp : prime goldilocks_p) (v0 v1 : Z)
    (alpha beta : Fp_field goldilocks_p Hp) :
  let table := [(enc goldilocks_p (-1), v1); (enc goldilocks_p 0, v0)] in
  let queries := [(enc goldilocks_p 0, v0)] in
  alpha <> combine_row (frow goldilocks_p Hp (enc goldilocks_p 0, v0)) (column_randomness [beta]) ->
  ~ single_key_final_check (map (frow goldilocks_p Hp) table) (map (frow goldilocks_p Hp) queries)
      (map (to_fp goldilocks_p : Z -> Fp_field goldilocks_p Hp)
         (query_count_by_key_hint (map fst table) (map fst queries))) alpha [beta].
Proof. exact (fun Hne H => Hne (goldilocks_collision Hp v0 v1 alpha beta H)). Qed.
Print Assumptions C17_goldilocks_signed_keys_refuted.

(** On Goldilocks -1 and 0 are the only colliding pair of signed 32-bit keys. *)
Theorem C17_goldilocks_collisions_partial x y : - 2 ^ 31 < x < 2 ^ 31 -> - 2 ^ 31 < y < 2 ^ 31 -> x <> y ->
  key32 (enc goldilocks_p x) = key32 (enc goldilocks_p y) <-> (x = -1 /\ y = 0 \/ x = 0 /\ y = -1).
Proof. exact (key32_goldilocks x y). Qed.
Print Assumptions C17_goldilocks_collisions_partial.

(** On BN254 signed keys of up to 28 bits never collide ... *)
Theorem C17_bn254_keys_distinct x y : - 2 ^ 27 <= x < 2 ^ 27 -> - 2 ^ 27 <= y < 2 ^ 27 ->
  key32 (enc bn254_r x) = key32 (enc bn254_r y) -> x = y.
Proof. exact (key32_bn254 x y). Qed.
Print Assumptions C17_bn254_keys_distinct.

(** ... and collision-free keys are all that is needed for an honest table to
    be accepted, on any prime field, for every challenge. *)
Theorem C17_collision_free_table_complete p (Hp : prime p) (table queries : list (Z * Z)) alpha betas :
  table <> [] -> queries <> [] ->
  (forall a b, In a table -> In b table -> fst a = fst b -> a = b) -> NoDup table ->
  (forall kv, In kv table -> 0 <= fst kv < p /\ 0 <= snd kv < p) ->
  (forall kv, In kv queries -> In kv table) ->
  (forall a b, In a table -> In b table -> key32 (fst a) = key32 (fst b) -> fst a = fst b) ->
  Z.of_nat (length queries) < 2 ^ 32 ->
  single_key_final_check (map (frow p Hp) table) (map (frow p Hp) queries)
    (map (to_fp p : Z -> Fp_field p Hp) (query_count_by_key_hint (map fst table) (map fst queries))) alpha betas.
Proof. exact (honest_key_table p Hp table queries alpha betas). Qed.
Print Assumptions C17_collision_free_table_complete.

Example C17_applies :
  let table := [(enc bn254_r (-1), 7); (enc bn254_r 0, 9)] in
  (forall a b, In a table -> In b table -> fst a = fst b -> a = b) /\ NoDup table /\
  (forall kv, In kv table -> 0 <= fst kv < bn254_r /\ 0 <= snd kv < bn254_r) /\
  (forall a b, In a table -> In b table -> key32 (fst a) = key32 (fst b) -> fst a = fst b).
Proof.
  intros table. assert (N : enc bn254_r (-1) <> enc bn254_r 0) by (vm_compute; congruence).
  split; [|split; [|split]].
  - intros a b [<-|[<-|[]]] [<-|[<-|[]]]; cbn [fst]; congruence.
  - repeat constructor; cbn; intuition congruence.
  - intros kv [<-|[<-|[]]]; vm_compute; repeat split; congruence.
  - intros a b [<-|[<-|[]]] [<-|[<-|[]]]; cbn [fst]; try reflexivity; vm_compute; congruence.
Qed.
