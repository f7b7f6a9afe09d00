(** C32: what is serialised can be read back.  [round_trips valid ser de]: for every
    valid value and whatever bytes follow, reading gives the value and exactly the bytes
    that follow.  [streams]: a reader never depends on bytes it does not consume.
    [rejects_truncation]: every strict prefix of an encoding is an error. *)
From Coq Require Import List ZArith Bool Lia.
From Verif Require Import Base.Array Base.Machine Spec.Serdes Model.Fields Model.Serdes.
From Verif Require Proofs.Serdes.
Import ListNotations.
Local Open Scope list_scope.

(** Fixed-width numbers, usize, bool, unit and strings. *)
Theorem C32_primitives :
  (forall n, round_trips (fun v => 0 <= v < 256 ^ Z.of_nat n)%Z (ser_num n) (de_num n) /\ streams (de_num n)) /\
  (round_trips usize_ok ser_usize de_usize /\ streams de_usize) /\
  (round_trips (fun _ => True) ser_bool de_bool /\ streams de_bool) /\
  (round_trips (fun _ => True) ser_unit de_unit /\ streams de_unit) /\
  (forall utf8, round_trips (fun b => usize_ok (length b) /\ utf8 b = true) ser_string (de_string utf8) /\ streams (de_string utf8)).
Proof. exact Serdes.primitives_ok. Qed.
Print Assumptions C32_primitives.

(** Vectors, arrays, pairs, maps and options of anything that round-trips. *)
Theorem C32_containers {A B} (P : A -> Prop) (Q : B -> Prop) sa (da : decoder A) sb (db : decoder B) :
  round_trips P sa da -> streams da -> round_trips Q sb db -> streams db ->
  (round_trips (vec_ok P) (ser_vec sa) (de_vec da) /\ streams (de_vec da)) /\
  (forall n, round_trips (fun l => length l = n /\ Forall P l) (ser_array sa) (de_array n da) /\ streams (de_array n da)) /\
  (round_trips (fun v => P (fst v) /\ Q (snd v)) (ser_pair sa sb) (de_pair da db) /\ streams (de_pair da db)) /\
  (round_trips (vec_ok (fun v => P (fst v) /\ Q (snd v))) (ser_map sa sb) (de_map da db) /\ streams (de_map da db)) /\
  (round_trips (fun o => match o with Some v => P v | None => True end) (ser_option sa) (de_option da) /\ streams (de_option da)).
Proof. exact (Serdes.containers_ok P Q sa da sb db). Qed.
Print Assumptions C32_containers.

(** Derived enums: the variant's index and its fields. *)
Theorem C32_enum {T} (P : T -> Prop) (ser : T -> list Z) (arms : list (decoder T)) idx arm v rest :
  (Z.of_nat idx < 256 ^ Z.of_nat 4)%Z -> nth_error arms idx = Some arm -> round_trips P ser arm -> P v ->
  de_variant arms (ser_variant idx (ser v) ++ rest) = Some (v, rest).
Proof. exact (Serdes.rt_variant P ser arms idx arm v rest). Qed.
Print Assumptions C32_enum.

(** Field elements of any format whose modulus fits its width. *)
Theorem C32_field c : format_ok c ->
  round_trips (field_ok c) (ser_field c) (de_field c) /\ streams (de_field c) /\ rejects_truncation (field_ok c) (ser_field c) (de_field c).
Proof. intros C. exact (Serdes.both _ _ _ (Serdes.rt_field c C) (Serdes.st_field c)). Qed.
Print Assumptions C32_field.

(** Layered circuits of the compiler. *)
Theorem C32_layered_circuit c : format_ok c -> (ff_modulus c < 256 ^ Z.of_nat 32)%Z ->
  round_trips (circuit_ok c) (ser_circuit c) (de_circuit c) /\ streams (de_circuit c) /\
  rejects_truncation (circuit_ok c) (ser_circuit c) (de_circuit c).
Proof. intros C M. exact (Serdes.both _ _ _ (Serdes.rt_circuit c C M) (Serdes.st_circuit c)). Qed.
Print Assumptions C32_layered_circuit.

(** Circuits of the prover, when public-input coefficients occur on constant gates only
    and no gate has a special type. *)
Theorem C32_flat_circuit_partial c sentinel : format_ok c -> length sentinel = 32 ->
  round_trips (flat_ok c) (ser_flat c sentinel) (de_flat c sentinel) /\ streams (de_flat c sentinel) /\
  rejects_truncation (flat_ok c) (ser_flat c sentinel) (de_flat c sentinel).
Proof. intros C L. exact (Serdes.both _ _ _ (Serdes.rt_flat c C sentinel L) (Serdes.st_flat c sentinel)). Qed.
Print Assumptions C32_flat_circuit_partial.

(** Otherwise the property is false.  A multiplication gate whose coefficient is a
    public input is written, and reading it back panics. *)
Theorem C32_public_input_gate_refuted c g id rest :
  length (pg_inputs g) = 2 -> Forall usize_ok (pg_inputs g) -> usize_ok (pg_output g) -> pg_coef g = PublicInput id ->
  de_pgate c 2 (ser_pgate c g ++ rest) = None.
Proof. exact (Serdes.public_mul_lost c g id rest). Qed.
Print Assumptions C32_public_input_gate_refuted.

(** The gate type is not written: whatever it was, it is read back as 0. *)
Theorem C32_gate_type_refuted c n g v rest : format_ok c ->
  length (pg_inputs g) = n -> Forall usize_ok (pg_inputs g) -> usize_ok (pg_output g) -> pg_coef g = Constant v -> field_ok c v ->
  de_pgate c n (ser_pgate c g ++ rest) =
    Some ({| pg_inputs := pg_inputs g; pg_output := pg_output g; pg_coef := Constant v; pg_type := 0 |}, rest).
Proof. exact (Serdes.type_lost c n g v rest). Qed.
Print Assumptions C32_gate_type_refuted.

(** Openings of the WHIR commitment, within the limits the reader enforces. *)
Theorem C32_opening {Node Msg F Path} (PN : Node -> Prop) (PM : Msg -> Prop) (PF : F -> Prop) (PP : Path -> Prop) sn dn sm dm sf df sp dp :
  round_trips PN sn dn -> streams dn -> round_trips PM sm dm -> streams dm ->
  round_trips PF sf df -> streams df -> round_trips PP sp dp -> streams dp ->
  round_trips (opening_ok PN PM PF PP) (ser_opening sn sm sf sp) (de_opening dn dm df dp) /\ streams (de_opening dn dm df dp) /\
  rejects_truncation (opening_ok PN PM PF PP) (ser_opening sn sm sf sp) (de_opening dn dm df dp).
Proof.
  intros RN SN RM SM RF SF RP SP.
  exact (Serdes.both _ _ _ (Serdes.rt_opening sn dn sm dm sf df sp dp PN PM PF PP RN RM RF RP) (Serdes.st_opening dn dm df dp SN SM SF SP)).
Qed.
Print Assumptions C32_opening.

(** Any format that round-trips and streams rejects truncated input. *)
Theorem C32_truncation {T} (P : T -> Prop) ser (de : decoder T) :
  round_trips P ser de -> streams de -> rejects_truncation P ser de.
Proof. exact (Serdes.truncation P ser de). Qed.
Print Assumptions C32_truncation.

(** Only files that start with the magic number and the modulus of the configuration, or
    the version and the sentinel, are read as circuits. *)
Theorem C32_headers c sentinel s r : Forall is_byte s ->
  (forall g, de_circuit c s = Some (g, r) -> exists tl, s = le_bytes 8 MAGIC ++ le_bytes 32 (ff_modulus c) ++ tl) /\
  (forall g, de_flat c sentinel s = Some (g, r) -> exists tl, s = le_bytes 8 CIRCUIT_VERSION ++ sentinel ++ tl).
Proof. exact (fun H => conj (fun g => Serdes.circuit_header c s g r H) (fun g => Serdes.flat_header c sentinel s g r H)). Qed.
Print Assumptions C32_headers.

(** A Goldilocks circuit with two segments, and a prover circuit. *)
Definition gl_format : field_format := {| ff_bytes := 8; ff_modulus := GL |}.
Definition sample_segment : segment := {|
  sg_num_inputs := 2; sg_num_outputs := 2; sg_children := [(0, [{| al_input := 0; al_output := 1 |}])];
  sg_muls := [{| g_inputs := [0; 1]; g_output := 0; g_coef := Constant 5 |}];
  sg_adds := [{| g_inputs := [1]; g_output := 1; g_coef := Random |}];
  sg_consts := [{| g_inputs := []; g_output := 1; g_coef := PublicInput 3 |}];
  sg_customs := [{| gc_type := 7; gc_inputs := [0; 1]; gc_output := 0; gc_coef := Constant 1 |}] |}.
Definition sample_circuit : circuit := {|
  c_num_public_inputs := 4; c_num_actual_outputs := 2; c_expected_zeroes := 1;
  c_segments := [sample_segment; sample_segment]; c_layer_ids := [0; 1] |}.
Definition sample_flat : flat_circuit := {|
  fc_expected_zeros := 1;
  fc_layers := [{| ly_input_var_num := 1; ly_output_var_num := 1;
    ly_mul := [{| pg_inputs := [0; 1]; pg_output := 1; pg_coef := Constant 9; pg_type := 0 |}];
    ly_add := [{| pg_inputs := [1]; pg_output := 0; pg_coef := Random; pg_type := 0 |}];
    ly_const := [{| pg_inputs := []; pg_output := 0; pg_coef := PublicInput 2; pg_type := 0 |}];
    ly_uni := [] |}] |}.
Example C32_applies :
  format_ok gl_format /\ (ff_modulus gl_format < 256 ^ Z.of_nat 32)%Z /\ circuit_ok gl_format sample_circuit /\
  flat_ok gl_format sample_flat /\
  de_circuit gl_format (ser_circuit gl_format sample_circuit ++ [1; 2]%Z) = Some (sample_circuit, [1; 2]%Z).
Proof.
  assert (C : format_ok gl_format) by (unfold format_ok, gl_format, GL; cbn [ff_bytes ff_modulus]; lia).
  assert (M : (ff_modulus gl_format < 256 ^ Z.of_nat 32)%Z) by (unfold gl_format, GL; cbn [ff_modulus]; lia).
  assert (U : forall n, n < 100 -> usize_ok n) by (intros n H; unfold usize_ok, U64; lia).
  assert (W : circuit_ok gl_format sample_circuit).
  { assert (S : segment_ok gl_format sample_segment).
    { unfold segment_ok, sample_segment, vec_ok, gate_ok, gate_custom_ok, allocation_ok, vec_ok, coef_ok, field_ok.
      cbn [sg_num_inputs sg_num_outputs sg_children sg_muls sg_adds sg_consts sg_customs length].
      repeat (apply conj || apply Forall_cons || apply Forall_nil);
      cbn [g_inputs g_output g_coef gc_type gc_inputs gc_output gc_coef al_input al_output fst snd length ff_modulus gl_format];
      repeat (apply conj || apply Forall_cons || apply Forall_nil); try (apply U; cbn; lia); auto; unfold GL; lia. }
    repeat split; try (apply U; cbn; lia); repeat (apply Forall_cons || apply Forall_nil); auto; apply U; lia. }
  split; [exact C|]. split; [exact M|]. split; [exact W|]. split.
  - unfold flat_ok, sample_flat, layer_ok, vec_ok, pgate_ok, coef_ok, field_ok.
    cbn [fc_expected_zeros fc_layers ly_input_var_num ly_output_var_num ly_mul ly_add ly_const ly_uni length].
    repeat (apply conj || apply Forall_cons || apply Forall_nil);
    cbn [ly_input_var_num ly_output_var_num ly_mul ly_add ly_const ly_uni length];
    repeat (apply conj || apply Forall_cons || apply Forall_nil);
    cbn [pg_inputs pg_output pg_coef pg_type length ff_modulus gl_format];
    repeat (apply conj || apply Forall_cons || apply Forall_nil); try (apply U; cbn; lia); auto; unfold GL; lia.
  - apply (C32_layered_circuit gl_format C M). exact W.
Qed.
