(** The proof of compilation: rust/jstprove_zkvm.  The host turns a quantised model into canonical
    bytes (src/canonical.rs, src/main.rs); the guest program, run in the zkVM, decodes them,
    computes the widths and returns a hash (guest/src/lib.rs).  [None] is an error or a panic,
    except where said.  The zkVM itself is not modelled: a valid proof is a run of the guest.
    The guest is compiled without overflow checks: u64 sums wrap around.  Simplifications: floats
    are rationals, HashMaps are association lists with distinct keys, strings are Coq strings. *)
From Coq Require Import List ZArith QArith Bool String Arith.
From Verif Require Import Base.Array Base.Machine Model.Serdes.
From Verif Require Spec.RealOps Model.Io.
Import ListNotations.
Local Open Scope string_scope.
Local Open Scope list_scope.
Local Open Scope Z_scope.

(** ** The canonical model *)
(** canonical.rs:14-25 CanonicalLayer, guest/src/lib.rs:45-55 LayerDesc *)
Record desc := { op_type : Z; needs_rescale : bool; n_inputs : Z; weight_dims : list Z; weight_data : list Z;
  bias_dims : list Z; bias_data : list Z; int_attrs : list Z; extra_constant_data : list Z }.
(** canonical.rs:5-12 CanonicalModel *)
Record canonical := { base : Z; exponent : Z; alpha : Z; input_dims : list Z; layers : list desc }.

(** to_le_bytes; [le_bytes] of a negative number is its two's complement *)
Definition write_u32 := le_bytes 4.
Definition write_u64 := le_bytes 8.
Definition write_i64 := le_bytes 8.
(** a vector: its length [as u32], then its elements *)
Definition write_list (w : Z -> list Z) (l : list Z) : list Z := write_u32 (Z.of_nat (List.length l)) ++ flat_map w l.
(** canonical.rs:40-69, one layer *)
Definition encode_layer (l : desc) : list Z :=
  [op_type l] ++ [if needs_rescale l then 1 else 0] ++ write_u32 (n_inputs l) ++
  write_list write_u32 (weight_dims l) ++ write_list write_i64 (weight_data l) ++
  write_list write_u32 (bias_dims l) ++ write_list write_i64 (bias_data l) ++
  write_list write_i64 (int_attrs l) ++ write_list write_i64 (extra_constant_data l).
(** canonical.rs:28-72 encode *)
Definition encode (m : canonical) : list Z :=
  write_u64 (base m) ++ write_u32 (exponent m) ++ write_u64 (alpha m) ++
  write_list write_u32 (input_dims m) ++
  write_u32 (Z.of_nat (List.length (layers m))) ++ flat_map encode_layer (layers m).

(** guest/src/lib.rs:237-289 read_u32, read_u64, read_i64; the position is the rest of the bytes *)
Definition read_u32 := de_num 4.
Definition read_u64 := de_num 8.
Definition read_i64 (s : list Z) : option (Z * list Z) :=
  let* (v, s) := de_num 8 s in Some (if 2 ^ 63 <=? v then v - 2 ^ 64 else v, s).
Definition read_u8 := de_num 1.
Definition read_list (r : list Z -> option (Z * list Z)) (s : list Z) : option (list Z * list Z) :=
  let* (n, s) := read_u32 s in de_times (Z.to_nat n) r s.
(** guest/src/lib.rs:294-354, one layer *)
Definition decode_layer (s : list Z) : option (desc * list Z) :=
  let* (op, s) := read_u8 s in
  let* (rescale, s) := read_u8 s in
  let* (n, s) := read_u32 s in
  let* (wd, s) := read_list read_u32 s in
  let* (w, s) := read_list read_i64 s in
  let* (bd, s) := read_list read_u32 s in
  let* (b, s) := read_list read_i64 s in
  let* (a, s) := read_list read_i64 s in
  let* (e, s) := read_list read_i64 s in
  Some ({| op_type := op; needs_rescale := negb (rescale =? 0); n_inputs := n; weight_dims := wd; weight_data := w;
           bias_dims := bd; bias_data := b; int_attrs := a; extra_constant_data := e |}, s).
(** guest/src/lib.rs:291-356 decode_layers with 365-376, the head of verify_compilation; bytes that
    follow the last layer are not read *)
Definition decode (s : list Z) : option canonical :=
  let* (ba, s) := read_u64 s in
  let* (ex, s) := read_u32 s in
  let* (al, s) := read_u64 s in
  let* (dims, s) := read_list read_u32 s in
  let* (n, s) := read_u32 s in
  let* (ls, s) := de_times (Z.to_nat n) decode_layer s in
  Some {| base := ba; exponent := ex; alpha := al; input_dims := dims; layers := ls |}.

(** ** The widths the guest computes *)
Definition u64_max : Z := 2 ^ 64 - 1.
Definition saturating_mul (a b : Z) : Z := Z.min (a * b) u64_max.
Definition saturating_add (a b : Z) : Z := Z.min (a + b) u64_max.
(** an iterator's sum of u64 values, wrapping *)
Definition sum_u64 (l : list Z) : Z := fold_left (fun a v => (a + v) mod 2 ^ 64) l 0.
Definition max_u64 (l : list Z) : Z := fold_left Z.max l 0.
(** guest/src/lib.rs:61-76 max_channel_l1 *)
Definition max_channel_l1 (weights : list Z) (out_channels : nat) : Z :=
  match out_channels, weights with
  | O, _ | _, [] => 0
  | _, _ =>
      let per_channel := (List.length weights / out_channels)%nat in
      max_u64 (map (fun oc => sum_u64 (map Z.abs (firstn per_channel (skipn (oc * per_channel) weights)))) (seq 0 out_channels))
  end.
(** guest/src/lib.rs:78-80 bias_max_abs *)
Definition bias_max_abs (bias : list Z) : Z := max_u64 (map Z.abs bias).
(** guest/src/lib.rs:82-87 integer_log2_ceil: 64 minus the leading zeros of [val - 1] *)
Definition integer_log2_ceil (val : Z) : Z := if val <=? 1 then 0 else Z.log2 (val - 1) + 1.
(** guest/src/lib.rs:89-98 compute_n_bits_int *)
Definition compute_n_bits_int (bound_int : Z) : Z :=
  if bound_int =? 0 then 2 else if bound_int <=? 1 then 2 else integer_log2_ceil bound_int + 1.
(** u64 division panics on zero *)
Definition div_u64 (a b : Z) : option Z := if b =? 0 then None else Some (a / b).
(** guest/src/lib.rs:104-169, one layer: the width and the next bound *)
Definition guest_layer (al : Z) (l : desc) (prev : Z) : option (Z * Z) :=
  let op := op_type l in
  if (op =? 5) || (op =? 4) then                                     (* OP_CONV, OP_GEMM *)
    let out_ch := match weight_dims l with d :: _ :: _ => Z.to_nat d | _ => 1%nat end in
    let l1 := max_channel_l1 (weight_data l) out_ch in
    let bmax := bias_max_abs (bias_data l) in
    let* q := div_u64 prev al in
    let* b := div_u64 bmax al in
    Some (compute_n_bits_int (saturating_add (saturating_mul l1 q) b), al)
  else if op =? 8 then                                               (* OP_BATCHNORM *)
    let mul_max := match weight_data l with [] => al | w => max_u64 (map Z.abs w) end in
    let bmax := bias_max_abs (bias_data l) in
    let* q := div_u64 mul_max al in
    let* b := div_u64 bmax al in
    Some (compute_n_bits_int (saturating_add (saturating_mul q prev) b), al)
  else if op =? 3 then Some (0, al)                                  (* OP_MUL *)
  else if (op =? 0) || (op =? 2) || (op =? 1) then Some (0, prev)    (* OP_ADD, OP_SUB, OP_DIV *)
  else if existsb (Z.eqb op) [6; 7; 9; 10; 12;                       (* RELU, MAXPOOL, MAX, MIN, CLIP *)
                              13; 19; 20; 21;                        (* EXP, SOFTMAX, SIGMOID, GELU *)
                              25; 26; 30]                            (* RESIZE, GRIDSAMPLE, TOPK *)
  then Some (compute_n_bits_int prev, prev)
  else Some (0, prev).
(** guest/src/lib.rs:100-171 compute_bounds_and_nbits *)
Fixpoint guest_loop (al : Z) (ls : list desc) (prev : Z) : option (list Z) :=
  match ls with
  | [] => Some []
  | l :: r => let* (nb, next) := guest_layer al l prev in let* rest := guest_loop al r next in Some (nb :: rest)
  end.
Definition guest_n_bits (m : canonical) : option (list Z) := guest_loop (alpha m) (layers m) (alpha m).

(** guest/src/lib.rs:42 MAGIC *)
Definition MAGIC : list Z := [74; 83; 84; 67; 65; 78; 48; 49].
(** guest/src/lib.rs:185-235 canonical_output *)
Definition canonical_output (m : canonical) (n_bits : list Z) : list Z :=
  MAGIC ++ write_u64 (base m) ++ write_u32 (exponent m) ++ write_u64 (alpha m) ++
  write_list write_u32 (input_dims m) ++
  write_u32 (Z.of_nat (List.length (layers m))) ++
  flat_map (fun '(l, nb) => encode_layer l ++ write_u32 nb) (combine (layers m) n_bits).
(** guest/src/lib.rs:364-380 verify_compilation; [sha256] is the hash *)
Definition verify_compilation (sha256 : list Z -> list Z) (model_bytes : list Z) : option (list Z) :=
  let* m := decode model_bytes in
  let* n_bits := guest_n_bits m in
  Some (sha256 (canonical_output m n_bits)).

(** ** From the quantised model *)
(** canonical.rs:318-324 TensorDataCompat *)
Record tensor_data := { dims : list Z; float_data : list Q; int_data : list Z }.
(** canonical.rs:366-373 AttrValueCompat *)
Inductive attr := AFloat (f : Q) | AInt (v : Z) | AString (s : string) | AFloats (l : list Q) | AInts (l : list Z) | ATensor (t : tensor_data).
(** canonical.rs:304-315 LayerNodeCompat *)
Record node := { name : string; op : RealOps.op; inputs : list string; outputs : list string;
  weights : list (string * tensor_data); attributes : list (string * attr); rescale : bool; n_bits : option nat }.
(** canonical.rs:280-301 QuantizedModelCompat *)
Record model := { m_base : Z; m_exponent : Z; nodes : list node; input_names : list string; output_names : list string;
  topo_order : list nat; input_shapes : list (string * list Z); n_bits_config : list (string * nat) }.

Fixpoint get {A} (s : string) (l : list (string * A)) : option A :=
  match l with [] => None | (n, a) :: r => if (n =? s)%string then Some a else get s r end.
(** [f as i64] *)
Definition as_i64 (q : Q) : Z := Z.quot (Qnum q) (Zpos (Qden q)).
(** [d as u32] *)
Definition as_u32 (d : Z) : Z := d mod 2 ^ 32.
(** canonical.rs:171-175 and 183-187, 204-208, 215-219; floats_to_i64, 148-159 *)
Definition data_of (t : tensor_data) : list Z := match int_data t with [] => map as_i64 (float_data t) | d => d end.
(** canonical.rs:161-191 extract_weights, for one position *)
Definition extract (l : node) (i : nat) : list Z * list Z :=
  match nth_error (inputs l) i with
  | Some s => match get s (weights l) with Some t => (map as_u32 (dims t), data_of t) | None => ([], []) end
  | None => ([], [])
  end.
(** keys().collect(), sort() *)
Fixpoint insert {A} (e : string * A) (l : list (string * A)) : list (string * A) :=
  match l with [] => [e] | x :: r => if String.leb (fst e) (fst x) then e :: l else x :: insert e r end.
Definition sorted {A} (l : list (string * A)) : list (string * A) := fold_right insert [] l.
(** canonical.rs:193-223 extract_extra_constants *)
Definition extract_extra (l : node) : list Z :=
  flat_map (fun '(pos, s) => if (pos =? 1)%nat || (pos =? 2)%nat then []
            else match get s (weights l) with Some t => data_of t | None => [] end)
    (combine (seq 0 (List.length (inputs l))) (inputs l)) ++
  flat_map (fun '(_, a) => match a with ATensor t => data_of t | _ => [] end) (sorted (attributes l)).
(** canonical.rs:225-237 extract_int_attrs *)
Definition extract_int_attrs (l : node) : list Z :=
  flat_map (fun '(_, a) => match a with AInt v => [v] | AInts v => v | _ => [] end) (sorted (attributes l)).
(** canonical.rs:239-277 op_type_to_u8_from_enum; None: not a variant of OpTypeCompat (327-363), so
    that the model cannot be deserialised *)
Definition op_code (o : RealOps.op) : option Z :=
  match o with
  | RealOps.Add => Some 0 | RealOps.Div => Some 1 | RealOps.Sub => Some 2 | RealOps.Mul => Some 3 | RealOps.Gemm => Some 4
  | RealOps.Conv => Some 5 | RealOps.Relu => Some 6 | RealOps.MaxPool => Some 7 | RealOps.BatchNormalization => Some 8
  | RealOps.Max => Some 9 | RealOps.Min => Some 10 | RealOps.Cast => Some 11 | RealOps.Clip => Some 12 | RealOps.Exp => Some 13
  | RealOps.Reshape => Some 14 | RealOps.Flatten => Some 15 | RealOps.Squeeze => Some 16 | RealOps.Unsqueeze => Some 17
  | RealOps.Constant => Some 18 | RealOps.Softmax => Some 19 | RealOps.Sigmoid => Some 20 | RealOps.Gelu => Some 21
  | RealOps.Tile => Some 22 | RealOps.Gather => Some 23 | RealOps.LayerNormalization => Some 24 | RealOps.Resize => Some 25
  | RealOps.GridSample => Some 26 | RealOps.Transpose => Some 27 | RealOps.Concat => Some 28 | RealOps.Slice => Some 29
  | RealOps.TopK => Some 30 | RealOps.Shape => Some 31 | RealOps.Log => Some 32 | RealOps.Expand => Some 33
  | RealOps.ReduceMean => Some 34
  | _ => None
  end.
(** canonical.rs:97-113, one layer *)
Definition canonical_layer (l : node) : option desc :=
  let* code := op_code (op l) in
  let (wd, w) := extract l 1 in
  let (bd, b) := extract l 2 in
  Some {| op_type := code; needs_rescale := rescale l; n_inputs := as_u32 (Z.of_nat (List.length (inputs l)));
          weight_dims := wd; weight_data := w; bias_dims := bd; bias_data := b;
          int_attrs := extract_int_attrs l; extra_constant_data := extract_extra l |}.
(** canonical.rs:122-132: in bounds and no index twice *)
Fixpoint distinct_below (n : nat) (seen : list nat) (topo : list nat) : bool :=
  match topo with [] => true | i :: r => (i <? n)%nat && negb (existsb (Nat.eqb i) seen) && distinct_below n (i :: seen) r end.
(** canonical.rs:74-145 from_quantized_model_bytes, after deserialisation *)
Definition from_quantized (m : model) : option canonical :=
  let* al := (if m_base m ^ m_exponent m <? 2 ^ 64 then Some (m_base m ^ m_exponent m) else None) in
  let dims := match input_names m with
              | s :: _ => match get s (input_shapes m) with Some d => map as_u32 d | None => [] end
              | [] => []
              end in
  let* ls := omap canonical_layer (nodes m) in
  let* _ := guard (List.length (topo_order m) =? List.length ls)%nat in
  let* _ := guard (distinct_below (List.length ls) [] (topo_order m)) in
  let* ordered := omap (fun i => aget ls i) (topo_order m) in
  Some {| base := m_base m; exponent := m_exponent m; alpha := al; input_dims := dims; layers := ordered |}.

(** ** Reading the model file *)
Inductive outcome := Read (msgpack : list Z) | Failed | Panicked.
(** main.rs:53-75 decompress_model_bytes.  [payload_len as usize] on a 64-bit host; [20 + payload_len]
    wraps around, and a range whose end is below its start panics *)
Definition decompress_model_bytes (z : Io.zstd) (raw : list Z) : outcome :=
  let zstd_decode d := match Io.decompress_bytes z d with Some m => Read m | None => Failed end in
  if (20 <=? List.length raw)%nat && Io.bytes_eqb (firstn 4 raw) Io.ENVELOPE_MAGIC then
    let flags := le_val (Io.range raw 4 8) in
    let payload_len := le_val (Io.range raw 8 16) in
    let stop := (20 + payload_len) mod 2 ^ 64 in
    if Z.of_nat (List.length raw) <? stop then Failed
    else if stop <? 20 then Panicked
    else let payload := Io.range raw 20 (Z.to_nat stop) in
      if Z.odd flags then zstd_decode payload else Read payload
  else if (4 <=? List.length raw)%nat && Io.bytes_eqb (firstn 4 raw) Io.ZSTD_MAGIC then zstd_decode raw
  else Read raw.
