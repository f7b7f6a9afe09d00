(** rust/jstprove_circuits/src/runner/verify_extract.rs: what the verifying client reads
    back from the witness file.  Big integers are [Z], bytes are [Z] in 0..255; [None] is
    an error or the panic of a negative BigUint subtraction.  The division by the scale
    in floating point (descale_outputs) and the multiplication in scale_to_field are not
    modelled: values are the scaled integers. *)
From Coq Require Import List ZArith Bool.
From Verif Require Import Base.Array Base.Machine Model.Serdes.
Import ListNotations.
Local Open Scope list_scope.
Local Open Scope Z_scope.

(** rust/jstprove_circuits/src/circuit_functions/utils/tensor_ops.rs:171-181
    convert_val_to_field_element: from_u256 reduces modulo p, neg negates in the field *)
Definition convert_val (p val : Z) : Z :=
  if val <? 0 then (let x := Z.abs val mod p in if x =? 0 then 0 else p - x) else Z.abs val mod p.

(** verify_extract.rs:74-82 *)
Definition from_field_repr (value modulus : Z) : option Z :=
  if modulus / 2 <? value then (if modulus <? value then None else Some (- (modulus - value))) else Some value.

(** verify_extract.rs:146-160: the integer part of scale_to_field *)
Definition scaled_to_field (scaled modulus : Z) : Z :=
  if scaled <? 0 then
    let reduced := Z.abs scaled mod modulus in
    if reduced =? 0 then 0 else modulus - reduced
  else scaled mod modulus.

(** verify_extract.rs:165-187 *)
Fixpoint compare_pairs (modulus tol neg_tol : Z) (ps : list (Z * Z)) : bool :=
  match ps with
  | [] => true
  | (e, a) :: r =>
      let diff := if a <=? e then (e - a) mod modulus else modulus - (a - e) mod modulus in
      if (tol <? diff) && (diff <? neg_tol) then false else compare_pairs modulus tol neg_tol r
  end.
Definition compare_field_values (expected actual : list Z) (modulus tolerance : Z) : option bool :=
  if negb (length expected =? length actual)%nat then Some false else
  if modulus <? tolerance then None else
  Some (compare_pairs modulus tolerance (modulus - tolerance) (combine expected actual)).

(** verify_extract.rs:61-63 *)
Definition element_size_from_modulus (modulus : Z) : nat := if modulus <? U64 then 8%nat else 32%nat.

(** verify_extract.rs:189-230; read_field_element and read_32_bytes are read_exact *)
Definition parse_public_inputs (data : list Z) : option (Z * list Z) :=
  let* (_, s) := de_u64 data in
  let* (num_inputs, s) := de_usize s in
  let* (num_public_inputs, s) := de_usize s in
  let* (modulus_bytes, s) := read_exact 32 s in
  let modulus := le_val modulus_bytes in
  if modulus =? 0 then None else
  let elem_size := element_size_from_modulus modulus in
  let total := (num_inputs + num_public_inputs)%nat in
  let* _ := guard (Z.of_nat total <? U64) in
  let* _ := guard (Z.of_nat (total * elem_size) <? U64) in
  if (length s <? total * elem_size)%nat then None else
  let* (vs, _) := de_times total (de_num elem_size) s in
  let* publics := (if (num_inputs <=? length vs)%nat then Some (skipn num_inputs vs) else None) in
  Some (modulus, publics).

(** verify_extract.rs:238-282 extract_outputs_common up to the floating-point division *)
Record extracted := { ex_inputs : list Z; ex_outputs : list Z; ex_base : Z; ex_exponent : Z; ex_modulus : Z; ex_raw : list Z }.
Definition to_u64 (v : Z) : option Z := if v <? U64 then Some v else None.
Definition extract_outputs (data : list Z) (num_model_inputs : nat) : option extracted :=
  let* (modulus, publics) := parse_public_inputs data in
  let* _ := guard (Z.of_nat (num_model_inputs + 2) <? U64) in
  if (length publics <? num_model_inputs + 2)%nat then None else
  let* b := aget publics (length publics - 2) in
  let* base := to_u64 b in
  let* e := aget publics (length publics - 1) in
  let* exponent := to_u64 e in
  let raw_inputs := firstn num_model_inputs publics in
  let raw_outputs := firstn (length publics - 2 - num_model_inputs) (skipn num_model_inputs publics) in
  let* inputs := omap (fun v => from_field_repr v modulus) raw_inputs in
  let* outputs := omap (fun v => from_field_repr v modulus) raw_outputs in
  Some {| ex_inputs := inputs; ex_outputs := outputs; ex_base := base; ex_exponent := exponent;
          ex_modulus := modulus; ex_raw := publics |}.

(** verify_extract.rs:363-385: the comparison with expected inputs, given as scaled
    integers; [None]: the proof is reported as not matching *)
Definition check_expected (x : extracted) (expected : list Z) (num_inputs : nat) : option unit :=
  if negb (length expected =? num_inputs)%nat then None else
  let* ok := compare_field_values (map (fun v => scaled_to_field v (ex_modulus x)) expected) (firstn num_inputs (ex_raw x)) (ex_modulus x) 1 in
  guard ok.
