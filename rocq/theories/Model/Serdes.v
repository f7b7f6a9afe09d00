(** The binary format: the ExpSerde implementations.  A reader is the list of bytes
    left; [None] is an error (or, for invalid tags of prover gates, a panic).  Writing
    cannot fail.  A usize is a natural number, its encoding has 64 bits. *)
From Coq Require Import List ZArith Bool.
From Verif Require Import Base.Array Base.Machine Model.Fields.
Import ListNotations.
Local Open Scope list_scope.

(** std::io::Read::read_exact into a buffer of [n] bytes *)
Definition read_exact (n : nat) (s : list Z) : option (list Z * list Z) :=
  if n <=? length s then Some (firstn n s, skipn n s) else None.

(** prover/serdes/src/macros.rs:1-20 exp_serde_for_number, at
    prover/serdes/src/serdes.rs:34-40 *)
Definition ser_num (n : nat) (v : Z) : list Z := le_bytes n v.
Definition de_num (n : nat) (s : list Z) : option (Z * list Z) :=
  let* (b, s) := read_exact n s in Some (le_val b, s).
Definition ser_u8 := ser_num 1.
Definition de_u8 := de_num 1.
Definition ser_u32 := ser_num 4.
Definition de_u32 := de_num 4.
Definition ser_u64 := ser_num 8.
Definition de_u64 := de_num 8.
Definition ser_u256 := ser_num 32.
Definition de_u256 := de_num 32.
Definition ser_usize (v : nat) : list Z := ser_u64 (Z.of_nat v).
Definition de_usize (s : list Z) : option (nat * list Z) := let* (v, s) := de_u64 s in Some (Z.to_nat v, s).

(** [n] values in a row: the loops of macros.rs:27-36, serdes.rs:67-75, 159-168 *)
Fixpoint de_times {T} (n : nat) (de : list Z -> option (T * list Z)) (s : list Z) : option (list T * list Z) :=
  match n with
  | O => Some ([], s)
  | S m => let* (x, s) := de s in let* (l, s) := de_times m de s in Some (x :: l, s)
  end.

(** macros.rs:22-41 exp_serde_for_generic_slices *)
Definition ser_array {T} (ser : T -> list Z) (l : list T) : list Z := flat_map ser l.
Definition de_array {T} (n : nat) (de : list Z -> option (T * list Z)) (s : list Z) := de_times n de s.

(** serdes.rs:24-32 () *)
Definition ser_unit (_ : unit) : list Z := [].
Definition de_unit (s : list Z) : option (unit * list Z) := Some (tt, s).

(** serdes.rs:51-59 bool *)
Definition ser_bool (b : bool) : list Z := ser_u8 (if b then 1 else 0)%Z.
Definition de_bool (s : list Z) : option (bool * list Z) :=
  let* (u, s) := de_u8 s in Some (negb (u =? 0)%Z, s).

(** serdes.rs:61-78 Vec *)
Definition ser_vec {T} (ser : T -> list Z) (l : list T) : list Z := ser_usize (length l) ++ flat_map ser l.
Definition de_vec {T} (de : list Z -> option (T * list Z)) (s : list Z) : option (list T * list Z) :=
  let* (len, s) := de_usize s in de_times len de s.

(** serdes.rs:80-96 Fr: 32 bytes, canonical.  arith/goldilocks/src/goldilocks.rs:58-79 and
    arith/mersenne31/src/m31.rs:58-76 have the same shape with 8 and 4 bytes; elements
    are their canonical representatives here, and Model/Fields.v has the reduction that
    precedes writing. *)
Record field_format := { ff_bytes : nat; ff_modulus : Z }.
Definition ser_field (c : field_format) (v : Z) : list Z := le_bytes (ff_bytes c) v.
Definition de_field (c : field_format) (s : list Z) : option (Z * list Z) :=
  let* (v, s) := de_num (ff_bytes c) s in if (ff_modulus c <=? v)%Z then None else Some (v, s).

(** serdes.rs:140-152 pairs *)
Definition ser_pair {A B} (sa : A -> list Z) (sb : B -> list Z) (v : A * B) : list Z := sa (fst v) ++ sb (snd v).
Definition de_pair {A B} (da : list Z -> option (A * list Z)) (db : list Z -> option (B * list Z)) (s : list Z)
    : option ((A * B) * list Z) :=
  let* (a, s) := da s in let* (b, s) := db s in Some ((a, b), s).

(** serdes.rs:154-176 HashMap, as the list of pairs in iteration order and the list of
    insertions *)
Definition ser_map {K V} (sk : K -> list Z) (sv : V -> list Z) (l : list (K * V)) := ser_vec (ser_pair sk sv) l.
Definition de_map {K V} (dk : list Z -> option (K * list Z)) (dv : list Z -> option (V * list Z)) (s : list Z) :=
  de_vec (de_pair dk dv) s.

(** serdes.rs:178-197 Option *)
Definition ser_option {T} (ser : T -> list Z) (o : option T) : list Z :=
  match o with Some v => ser_bool true ++ ser v | None => ser_bool false end.
Definition de_option {T} (de : list Z -> option (T * list Z)) (s : list Z) : option (option T * list Z) :=
  let* (has_value, s) := de_bool s in
  if has_value then let* (v, s) := de s in Some (Some v, s) else Some (None, s).

(** serdes.rs:199-212 String, as its bytes; [utf8] is the check of String::from_utf8 *)
Definition ser_string (bytes : list Z) : list Z := ser_usize (length bytes) ++ bytes.
Definition de_string (utf8 : list Z -> bool) (s : list Z) : option (list Z * list Z) :=
  let* (len, s) := de_usize s in
  let* (buf, s) := read_exact len s in
  if utf8 buf then Some (buf, s) else None.

(** prover/serdes_derive/src/lib.rs:29-47: a derived struct is the sequence of its
    fields; :67-129: a derived enum is the u32 index of the variant and its fields *)
Definition ser_variant (idx : nat) (fields : list Z) : list Z := ser_u32 (Z.of_nat idx) ++ fields.
Definition de_variant {T} (arms : list (list Z -> option (T * list Z))) (s : list Z) : option (T * list Z) :=
  let* (i, s) := de_u32 s in let* arm := aget arms (Z.to_nat i) in arm s.

(** ** Layered circuits of the compiler, NormalInputType
    (compiler/expander_compiler/src/circuit/layered/mod.rs:18-23, 136-139, 198-201,
    286-290, 340-375) *)
Inductive coef := Constant (c : Z) | Random | PublicInput (id : nat).
Record gate := { g_inputs : list nat; g_output : nat; g_coef : coef }.
Record gate_custom := { gc_type : nat; gc_inputs : list nat; gc_output : nat; gc_coef : coef }.
Record allocation := { al_input : nat; al_output : nat }.
Record segment := {
  sg_num_inputs : nat; sg_num_outputs : nat;
  sg_children : list (nat * list allocation);
  sg_muls : list gate; sg_adds : list gate; sg_consts : list gate; sg_customs : list gate_custom }.
Record circuit := {
  c_num_public_inputs : nat; c_num_actual_outputs : nat; c_expected_zeroes : nat;
  c_segments : list segment; c_layer_ids : list nat }.

Section Layered.
Variable c : field_format.

(** circuit/layered/serde.rs:13-49 Coef *)
Definition ser_coef (v : coef) : list Z :=
  match v with
  | Constant x => ser_u8 1 ++ ser_field c x
  | Random => ser_u8 2
  | PublicInput id => ser_u8 3 ++ ser_usize id
  end.
Definition de_coef (s : list Z) : option (coef * list Z) :=
  let* (typ, s) := de_u8 s in
  if (typ =? 1)%Z then let* (x, s) := de_field c s in Some (Constant x, s)
  else if (typ =? 2)%Z then Some (Random, s)
  else if (typ =? 3)%Z then let* (id, s) := de_usize s in Some (PublicInput id, s)
  else None.

(** serde.rs:51-73 Gate with [n] inputs *)
Definition ser_gate (g : gate) : list Z :=
  ser_array ser_usize (g_inputs g) ++ ser_usize (g_output g) ++ ser_coef (g_coef g).
Definition de_gate (n : nat) (s : list Z) : option (gate * list Z) :=
  let* (inputs, s) := de_array n de_usize s in
  let* (output, s) := de_usize s in
  let* (k, s) := de_coef s in
  Some ({| g_inputs := inputs; g_output := output; g_coef := k |}, s).

(** serde.rs:75-95 GateCustom *)
Definition ser_gate_custom (g : gate_custom) : list Z :=
  ser_usize (gc_type g) ++ ser_vec ser_usize (gc_inputs g) ++ ser_usize (gc_output g) ++ ser_coef (gc_coef g).
Definition de_gate_custom (s : list Z) : option (gate_custom * list Z) :=
  let* (typ, s) := de_usize s in
  let* (inputs, s) := de_vec de_usize s in
  let* (output, s) := de_usize s in
  let* (k, s) := de_coef s in
  Some ({| gc_type := typ; gc_inputs := inputs; gc_output := output; gc_coef := k |}, s).

(** mod.rs:348-352 Allocation (derived) *)
Definition ser_allocation (a : allocation) : list Z := ser_usize (al_input a) ++ ser_usize (al_output a).
Definition de_allocation (s : list Z) : option (allocation * list Z) :=
  let* (i, s) := de_usize s in
  let* (o, s) := de_usize s in
  Some ({| al_input := i; al_output := o |}, s).

(** serde.rs:97-127 Segment *)
Definition ser_segment (g : segment) : list Z :=
  ser_usize (sg_num_inputs g) ++ ser_usize (sg_num_outputs g) ++
  ser_vec (ser_pair ser_usize (ser_vec ser_allocation)) (sg_children g) ++
  ser_vec ser_gate (sg_muls g) ++ ser_vec ser_gate (sg_adds g) ++ ser_vec ser_gate (sg_consts g) ++
  ser_vec ser_gate_custom (sg_customs g).
Definition de_segment (s : list Z) : option (segment * list Z) :=
  let* (ni, s) := de_usize s in
  let* (no, s) := de_usize s in
  let* (ch, s) := de_vec (de_pair de_usize (de_vec de_allocation)) s in
  let* (mu, s) := de_vec (de_gate 2) s in
  let* (ad, s) := de_vec (de_gate 1) s in
  let* (co, s) := de_vec (de_gate 0) s in
  let* (cu, s) := de_vec de_gate_custom s in
  Some ({| sg_num_inputs := ni; sg_num_outputs := no; sg_children := ch; sg_muls := mu; sg_adds := ad;
           sg_consts := co; sg_customs := cu |}, s).

(** serde.rs:129-176 Circuit *)
Definition MAGIC : Z := 3914834606642317635.
Definition ser_circuit (g : circuit) : list Z :=
  ser_u64 MAGIC ++ ser_u256 (ff_modulus c) ++
  ser_usize (c_num_public_inputs g) ++ ser_usize (c_num_actual_outputs g) ++ ser_usize (c_expected_zeroes g) ++
  ser_vec ser_segment (c_segments g) ++ ser_vec ser_usize (c_layer_ids g).
Definition de_circuit (s : list Z) : option (circuit * list Z) :=
  let* (magic, s) := de_u64 s in
  if negb (magic =? MAGIC)%Z then None else
  let* (modulus, s) := de_u256 s in
  if negb (modulus =? ff_modulus c)%Z then None else
  let* (np, s) := de_usize s in
  let* (na, s) := de_usize s in
  let* (ne, s) := de_usize s in
  let* (segs, s) := de_vec de_segment s in
  let* (ids, s) := de_vec de_usize s in
  Some ({| c_num_public_inputs := np; c_num_actual_outputs := na; c_expected_zeroes := ne;
           c_segments := segs; c_layer_ids := ids |}, s).

(** ** Flat circuits of the prover (prover/circuit/src/layered/circuit.rs:15-30,
    gates.rs:6-42); only the fields that are written *)
Record pgate := { pg_inputs : list nat; pg_output : nat; pg_coef : coef; pg_type : nat }.
Record layer := {
  ly_input_var_num : nat; ly_output_var_num : nat;
  ly_mul : list pgate; ly_add : list pgate; ly_const : list pgate; ly_uni : list pgate }.
Record flat_circuit := { fc_expected_zeros : nat; fc_layers : list layer }.

(** prover/circuit/src/layered/serde.rs:37-97 Gate with [n] inputs.  coef_type and coef
    are one value here: a coefficient that is not constant is written without its value
    and read back with coef = 0.  gate_type is not written and read back as 0. *)
Definition ser_pgate (g : pgate) : list Z :=
  flat_map ser_usize (pg_inputs g) ++ ser_usize (pg_output g) ++
  match pg_coef g with
  | Constant x => ser_u8 1 ++ ser_field c x
  | Random => ser_u8 2
  | PublicInput id => ser_u8 3 ++ ser_usize id
  end.
Definition de_pgate (n : nat) (s : list Z) : option (pgate * list Z) :=
  let* (i_ids, s) := de_times n de_usize s in
  let* (o_id, s) := de_usize s in
  let* (typ, s) := de_u8 s in
  let* (k, s) :=
    if (typ =? 1)%Z then let* (x, s) := de_field c s in Some (Constant x, s)
    else if (typ =? 2)%Z then Some (Random, s)
    else if (typ =? 3)%Z then
      if 0 <? n then None else let* (id, s) := de_usize s in Some (PublicInput id, s)
    else None in
  Some ({| pg_inputs := i_ids; pg_output := o_id; pg_coef := k; pg_type := 0 |}, s).

(** serde.rs:99-136 CircuitLayer *)
Definition ser_layer (l : layer) : list Z :=
  ser_usize (ly_input_var_num l) ++ ser_usize (ly_output_var_num l) ++
  ser_vec ser_pgate (ly_mul l) ++ ser_vec ser_pgate (ly_add l) ++ ser_vec ser_pgate (ly_const l) ++
  ser_vec ser_pgate (ly_uni l).
Definition de_layer (s : list Z) : option (layer * list Z) :=
  let* (i, s) := de_usize s in
  let* (o, s) := de_usize s in
  let* (mu, s) := de_vec (de_pgate 2) s in
  let* (ad, s) := de_vec (de_pgate 1) s in
  let* (co, s) := de_vec (de_pgate 0) s in
  let* (un, s) := de_vec (de_pgate 1) s in
  Some ({| ly_input_var_num := i; ly_output_var_num := o; ly_mul := mu; ly_add := ad; ly_const := co; ly_uni := un |}, s).

(** serde.rs:138-164 Circuit; [sentinel] is C::SENTINEL *)
Definition CIRCUIT_VERSION : Z := 0x4A53545F43495231.
Definition ser_flat (sentinel : list Z) (g : flat_circuit) : list Z :=
  ser_u64 CIRCUIT_VERSION ++ sentinel ++ ser_usize (fc_expected_zeros g) ++ ser_vec ser_layer (fc_layers g).
Definition bytes_eqb (a b : list Z) : bool := if list_eq_dec Z.eq_dec a b then true else false.
Definition de_flat (sentinel : list Z) (s : list Z) : option (flat_circuit * list Z) :=
  let* (version, s) := de_u64 s in
  let* _ := guard (version =? CIRCUIT_VERSION)%Z in
  let* (b, s) := read_exact 32 s in
  let* _ := guard (bytes_eqb b sentinel) in
  let* (z, s) := de_usize s in
  let* (layers, s) := de_vec de_layer s in
  Some ({| fc_expected_zeros := z; fc_layers := layers |}, s).
End Layered.

(** ** Openings of the WHIR commitment scheme
    (prover/poly_commit/src/whir/types.rs:66-220); lists are bounded when read.  Nodes,
    sumcheck messages, field elements and Merkle paths are parameters. *)
Section Whir.
Context {Node Msg F Path : Type}.
Variables (ser_node : Node -> list Z) (de_node : list Z -> option (Node * list Z)).
Variables (ser_msg : Msg -> list Z) (de_msg : list Z -> option (Msg * list Z)).
Variables (ser_f : F -> list Z) (de_f : list Z -> option (F * list Z)).
Variables (ser_path : Path -> list Z) (de_path : list Z -> option (Path * list Z)).
Record opening := {
  wo_round_commitments : list Node; wo_sumcheck_messages : list Msg; wo_ood_evaluations : list (list F);
  wo_pow_nonces : list Z; wo_final_poly : list F; wo_round_query_proofs : list (list Path) }.
Definition de_bounded {T} (max : Z) (de : list Z -> option (T * list Z)) (s : list Z) : option (list T * list Z) :=
  let* (len, s) := de_u64 s in
  if (max <? len)%Z then None else de_times (Z.to_nat len) de s.
Definition MAX_ROUNDS : Z := 64.
Definition MAX_SUMCHECK : Z := 256.
Definition MAX_QUERIES_PER_ROUND : Z := 2 ^ 16.
Definition MAX_FINAL_POLY : Z := 2 ^ 20.
Definition ser_opening (o : opening) : list Z :=
  ser_vec ser_node (wo_round_commitments o) ++ ser_vec ser_msg (wo_sumcheck_messages o) ++
  ser_vec (ser_vec ser_f) (wo_ood_evaluations o) ++ ser_vec ser_u64 (wo_pow_nonces o) ++
  ser_vec ser_f (wo_final_poly o) ++ ser_vec (ser_vec ser_path) (wo_round_query_proofs o).
Definition de_opening (s : list Z) : option (opening * list Z) :=
  let* (rc, s) := de_bounded MAX_ROUNDS de_node s in
  let* (sm, s) := de_bounded MAX_SUMCHECK de_msg s in
  let* (ood, s) := de_bounded MAX_ROUNDS (de_bounded MAX_SUMCHECK de_f) s in
  let* (pn, s) := de_bounded MAX_ROUNDS de_u64 s in
  let* (fp, s) := de_bounded MAX_FINAL_POLY de_f s in
  let* (rq, s) := de_bounded MAX_ROUNDS (de_bounded MAX_QUERIES_PER_ROUND de_path) s in
  Some ({| wo_round_commitments := rc; wo_sumcheck_messages := sm; wo_ood_evaluations := ood;
           wo_pow_nonces := pn; wo_final_poly := fp; wo_round_query_proofs := rq |}, s).
End Whir.

(** ** The values the Rust types can hold *)
Definition usize_ok (n : nat) : Prop := (Z.of_nat n < U64)%Z.
Definition vec_ok {T} (P : T -> Prop) (l : list T) : Prop := usize_ok (length l) /\ Forall P l.
Definition format_ok (c : field_format) : Prop := (0 < ff_modulus c <= 256 ^ Z.of_nat (ff_bytes c))%Z.
Definition field_ok (c : field_format) (x : Z) : Prop := (0 <= x < ff_modulus c)%Z.
Definition coef_ok (c : field_format) (k : coef) : Prop :=
  match k with Constant x => field_ok c x | Random => True | PublicInput id => usize_ok id end.
Definition gate_ok (c : field_format) (n : nat) (g : gate) : Prop :=
  length (g_inputs g) = n /\ Forall usize_ok (g_inputs g) /\ usize_ok (g_output g) /\ coef_ok c (g_coef g).
Definition gate_custom_ok (c : field_format) (g : gate_custom) : Prop :=
  usize_ok (gc_type g) /\ vec_ok usize_ok (gc_inputs g) /\ usize_ok (gc_output g) /\ coef_ok c (gc_coef g).
Definition allocation_ok (a : allocation) : Prop := usize_ok (al_input a) /\ usize_ok (al_output a).
Definition segment_ok (c : field_format) (g : segment) : Prop :=
  usize_ok (sg_num_inputs g) /\ usize_ok (sg_num_outputs g) /\
  vec_ok (fun e => usize_ok (fst e) /\ vec_ok allocation_ok (snd e)) (sg_children g) /\
  vec_ok (gate_ok c 2) (sg_muls g) /\ vec_ok (gate_ok c 1) (sg_adds g) /\ vec_ok (gate_ok c 0) (sg_consts g) /\
  vec_ok (gate_custom_ok c) (sg_customs g).
Definition circuit_ok (c : field_format) (g : circuit) : Prop :=
  usize_ok (c_num_public_inputs g) /\ usize_ok (c_num_actual_outputs g) /\ usize_ok (c_expected_zeroes g) /\
  vec_ok (segment_ok c) (c_segments g) /\ vec_ok usize_ok (c_layer_ids g).
(** Public-input coefficients on gates without inputs only, and no special gate type *)
Definition pgate_ok (c : field_format) (n : nat) (g : pgate) : Prop :=
  length (pg_inputs g) = n /\ Forall usize_ok (pg_inputs g) /\ usize_ok (pg_output g) /\ coef_ok c (pg_coef g) /\
  match pg_coef g with PublicInput _ => n = 0 | _ => True end /\ pg_type g = 0.
Definition layer_ok (c : field_format) (l : layer) : Prop :=
  usize_ok (ly_input_var_num l) /\ usize_ok (ly_output_var_num l) /\
  vec_ok (pgate_ok c 2) (ly_mul l) /\ vec_ok (pgate_ok c 1) (ly_add l) /\ vec_ok (pgate_ok c 0) (ly_const l) /\
  vec_ok (pgate_ok c 1) (ly_uni l).
Definition flat_ok (c : field_format) (g : flat_circuit) : Prop :=
  usize_ok (fc_expected_zeros g) /\ vec_ok (layer_ok c) (fc_layers g).
(** Openings within the limits enforced when reading *)
Definition bounded_ok {T} (max : Z) (P : T -> Prop) (l : list T) : Prop := (Z.of_nat (length l) <= max)%Z /\ Forall P l.
Definition opening_ok {Node Msg F Path} (PN : Node -> Prop) (PM : Msg -> Prop) (PF : F -> Prop) (PP : Path -> Prop)
    (o : @opening Node Msg F Path) : Prop :=
  bounded_ok MAX_ROUNDS PN (wo_round_commitments o) /\ bounded_ok MAX_SUMCHECK PM (wo_sumcheck_messages o) /\
  bounded_ok MAX_ROUNDS (bounded_ok MAX_SUMCHECK PF) (wo_ood_evaluations o) /\
  bounded_ok MAX_ROUNDS (fun x => 0 <= x < U64)%Z (wo_pow_nonces o) /\ bounded_ok MAX_FINAL_POLY PF (wo_final_poly o) /\
  bounded_ok MAX_ROUNDS (bounded_ok MAX_QUERIES_PER_ROUND PP) (wo_round_query_proofs o).
