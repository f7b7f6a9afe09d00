(** The Remainder backend (rust/jstprove_remainder): padding, rescaling, range
    check shreds, the circuit builder, the public inputs the verifier prepares,
    and the verifier.

    Simplifications, valid for the whole file:
    - [usize] sizes are natural numbers (no wrap-around on 64-bit overflow)
      except in the functions of padding.rs, which are modelled on 64-bit words;
    - [anyhow] errors and panics are both [None];
    - shred names are structured values ([shred]) instead of formatted strings,
      so two different formats never collide;
    - the layers are already listed in topological order ([iter_topo], C47);
    - the proof system (crates [remainder], [frontend], [shared_types]) is not in
      /repo.  It is idealised: a proof is replaced by the committed shreds it
      proves knowledge of, and the verifier accepts when every output layer is
      zero and every lookup succeeds. *)
From Coq Require Import ZArith List Bool Lia String.
From Verif Require Import Base.Array Base.Machine.
Import ListNotations.
Local Open Scope Z_scope.

(** ** padding.rs *)

(** [usize::leading_zeros] (64-bit words). *)
Definition bit_length (x : Z) : Z := if x =? 0 then 0 else Z.log2 x + 1.
Definition leading_zeros (x : Z) : Z := 64 - bit_length x.

(** padding.rs:1-3, [usize::next_power_of_two] of the standard library:
    one more than [usize::MAX >> (n - 1).leading_zeros()]; [None] is the
    overflow panic. *)
Definition next_power_of_two (n : Z) : option Z :=
  unsigned U64 ((if n <=? 1 then 0 else Z.shiftr (U64 - 1) (leading_zeros (n - 1))) + 1).

(** padding.rs:5-10 *)
Definition log2_ceil (n : Z) : Z := if n <=? 1 then 0 else 64 - leading_zeros (n - 1).

(** [Vec::resize] with zeros: truncates or extends.  Also
    circuit_builder.rs:1812-1816 [pad_to_size]. *)
Definition pad_to_size (l : list Z) (n : nat) : list Z := firstn n l ++ repeat 0 (n - List.length l).

(** padding.rs:12-18 *)
Definition pad_to_power_of_two (l : list Z) : option (list Z) :=
  let* t := next_power_of_two (Z.of_nat (List.length l)) in Some (pad_to_size l (Z.to_nat t)).

(** padding.rs:20-22 *)
Definition num_vars_for (n : Z) : option Z := let* t := next_power_of_two n in Some (log2_ceil t).

(** The same two functions on sizes that fit (used by the circuit builder and
    the witness generator below). *)
Definition nvars (n : nat) : nat := Nat.log2_up n.
Definition pow2_for (n : nat) : nat := (2 ^ nvars n)%nat.

(** ** gadgets/rescale.rs *)

(** [x as i64] *)
Definition as_i64 (x : Z) : Z := (x + 2 ^ 63) mod 2 ^ 64 - 2 ^ 63.

(** gadgets/rescale.rs:3-10.  The [i128] arithmetic cannot overflow for [i64]
    arguments; [Z.quot] is Rust's truncating division. *)
Definition compute_rescale (value alpha offset : Z) : option (Z * Z) :=
  let* _ := guard (negb (alpha =? 0)) in
  let shifted := alpha * offset + value in
  let q_shifted := Z.quot shifted alpha in
  let remainder := shifted - alpha * q_shifted in
  let quotient := q_shifted - offset in
  Some (as_i64 quotient, as_i64 remainder).

(** gadgets/rescale.rs:12-25 *)
Definition compute_rescale_array (values : list Z) (alpha offset : Z) : option (list Z * list Z) :=
  let* qrs := omap (fun v => compute_rescale v alpha offset) values in
  Some (map fst qrs, map snd qrs).

(** ** runner/range_checks.rs *)

(** range_checks.rs:8 *)
Definition CHUNK_BITS : nat := 9.

(** range_checks.rs:10-12 *)
Definition delta_table_nv (n_bits exponent : nat) : nat := Nat.max (n_bits - exponent) 1.

(** range_checks.rs:14-24 *)
Definition compute_multiplicities (values : list Z) (table_size : nat) : option (list Z) :=
  for_each values (fun v mults =>
    let* _ := guard ((0 <=? v) && (v <? Z.of_nat table_size)) in
    let* m := aget mults (Z.to_nat v) in
    aset mults (Z.to_nat v) (m + 1)) (repeat 0 table_size).

(** range_checks.rs:26-58.  The shreds inserted under the prefix: one vector of
    multiplicities, or two chunks and their multiplicities. *)
Inductive range_shreds :=
| OneTable (mults : list Z)
| TwoChunks (c0 c1 mults0 mults1 : list Z).

Definition split_range (values : list Z) (exponent : nat) : option range_shreds :=
  if (CHUNK_BITS <? exponent)%nat then
    let c0 := map (fun v => Z.rem v (2 ^ Z.of_nat CHUNK_BITS)) values in
    let c1 := map (fun v => Z.quot v (2 ^ Z.of_nat CHUNK_BITS)) values in
    let* m0 := compute_multiplicities c0 (2 ^ CHUNK_BITS) in
    let* m1 := compute_multiplicities c1 (2 ^ (exponent - CHUNK_BITS)) in
    Some (TwoChunks c0 c1 m0 m1)
  else
    let* m := compute_multiplicities values (2 ^ exponent) in Some (OneTable m).

(** ** Models, layers, maps *)

(** [HashMap<String, V>] *)
Definition hmap (V : Type) := list (string * V).
Fixpoint hget {V} (m : hmap V) (k : string) : option V :=
  match m with [] => None | (a, v) :: r => if String.eqb a k then Some v else hget r k end.
Definition hput {V} (m : hmap V) (k : string) (v : V) : hmap V := (k, v) :: m.
Definition hputs {V} (m : hmap V) (ks : list string) (v : V) : hmap V := fold_left (fun m k => hput m k v) ks m.
Definition hdel {V} (m : hmap V) (k : string) : hmap V := filter (fun e => negb (String.eqb (fst e) k)) m.
Definition hdels {V} (m : hmap V) (ks : list string) : hmap V := fold_left hdel ks m.

(** circuit_builder.rs:44-78 [SpatialInfo] *)
Inductive layout := CHW (c h w : nat) | HWC (h w c stride_c : nat).
Definition lindex (l : layout) (c h w : nat) : nat :=
  match l with
  | CHW _ hd wd => c * hd * wd + h * wd + w
  | HWC _ wd _ stride_c => (h * wd + w) * stride_c + c
  end%nat.
Definition spatial_dims (l : layout) : nat * nat * nat :=
  match l with CHW c h w => (c, h, w) | HWC h w c _ => (c, h, w) end.

(** jstprove_onnx/src/graph.rs: the operations of a layer that are modelled.
    [Slice] stands for Slice, Concat, Resize and GridSample, which the builder
    and the verifier treat alike; [Reshape] for Reshape, Flatten, Squeeze and
    Unsqueeze.  Gather, Where, Constant and Split are not modelled; the
    operations the builder refuses are [Unsupported]. *)
Inductive op :=
| Gemm | Conv | Relu | MaxPool | Add | Sub | BatchNorm | Cast | Reshape
| LayerNorm | Slice | Transpose | Unsupported.

(** jstprove_onnx/src/graph.rs:165-185 [LayerNode].  Attributes are natural
    numbers (negative paddings and strides are not modelled). *)
Record layer := mkLayer {
  l_name : string; l_op : op; l_inputs : list string; l_outputs : list string;
  l_shape : list nat; l_bits : option nat;
  l_weights : hmap (list nat * list Z);
  l_transA : bool; l_transB : bool;
  l_kernel : option (list nat); l_pads : list nat; l_strides : list nat; l_perm : option (list nat) }.

(** jstprove_onnx/src/quantizer.rs:98-104 [QuantizedModel], graph.rs [LayerGraph] *)
Record model := mkModel {
  m_inputs : list string; m_shapes : hmap (list nat); m_outputs : list string;
  m_layers : list layer; m_base : Z; m_exponent : nat; m_alpha : Z }.

(** circuit_builder.rs:84-124 [layout_from_output_shape], witness.rs:259-297
    [layout_from_output_shape_runtime] (the same function). *)
Definition layout_from_output_shape (shape : list nat) (input : option layout) : option layout :=
  let* chw := match shape with
              | [_; _; _] => Some shape
              | [_; c; h; w] => Some [c; h; w]
              | _ => None end in
  match chw, input with
  | [c; h; w], Some (HWC _ _ _ existing) => Some (HWC h w c (if (c <=? existing)%nat then existing else c))
  | [c; h; w], _ => Some (CHW c h w)
  | _, _ => None
  end.

Definition product (l : list nat) : nat := fold_right Nat.mul 1%nat l.

(** ** Circuits *)

(** The names of input shreds. *)
Inductive shred :=
| SInput (name : string)
| SLayer (layer tag : string)
| SDelta (layer : string) (i : nat)     (* "{layer}_d{i}" *)
| SChunk (hi : bool) (s : shred)        (* "{s}_c0", "{s}_c1" *)
| STable (nv : nat)                     (* "range_table_{nv}" *)
| SExpected.                            (* "expected_output" *)

Definition shred_eq_dec (a b : shred) : {a = b} + {a <> b}.
Proof. decide equality; try apply string_dec; try apply Nat.eq_dec; apply Bool.bool_dec. Defined.
Definition shred_eqb (a b : shred) : bool := if shred_eq_dec a b then true else false.

Inductive visibility := Public | Committed.

(** circuit_builder.rs:35 [ShredManifest] *)
Definition manifest := list (shred * (nat * visibility)).
Fixpoint sget {V} (m : list (shred * V)) (k : shred) : option V :=
  match m with [] => None | (a, v) :: r => if shred_eqb a k then Some v else sget r k end.

(** The nodes the builder creates: input shreds, matrix products
    ([add_matmult_node], row and column variables of both factors) and identity
    gates ([add_identity_gate_node]: pairs of destination and source). *)
Inductive node :=
| NShred (s : shred) (nv : nat)
| NMat (a : node) (ra ca : nat) (b : node) (rb cb : nat)
| NGate (a : node) (wiring : list (nat * nat)) (nv : nat).

(** Sector expressions ([AbstractExpression]). *)
Inductive sector :=
| ENode (n : node)
| EAdd (a b : sector)
| ESub (a b : sector)
| EScale (c : Z) (a : sector)
| EProd (l : list node).

(** What a circuit checks: a sector set as an output must be zero everywhere
    ([set_output]); a node's entries must occur in a range table
    ([add_lookup_constraint]; the multiplicities and dummy lookups of the LogUp
    argument are left out). *)
Inductive check := Zero (e : sector) | Lookup (n : node) (table_nv : nat).

(** *** Values of nodes (integers, read modulo the field order) *)

Definition zsum (l : list Z) : Z := fold_right Z.add 0 l.
Definition at_ (l : list Z) (i : nat) : Z := nth i l 0.
Arguments at_ l i%nat.

Fixpoint eval_node (env : shred -> option (list Z)) (n : node) : option (list Z) :=
  match n with
  | NShred s nv =>
      let* v := env s in
      let* _ := guard (List.length v =? 2 ^ nv)%nat in Some v
  | NMat a ra ca b rb cb =>
      let* va := eval_node env a in
      let* vb := eval_node env b in
      let* _ := guard ((List.length va =? 2 ^ (ra + ca)) && (List.length vb =? 2 ^ (rb + cb)) && (ca =? rb))%nat in
      Some (map (fun ij => zsum (map (fun k => at_ va (ij / 2 ^ cb * 2 ^ ca + k) * at_ vb (k * 2 ^ cb + ij mod 2 ^ cb))
                                     (seq 0 (2 ^ ca))))
                (seq 0 (2 ^ (ra + cb))))
  | NGate a wiring nv =>
      let* va := eval_node env a in
      let* _ := guard (forallb (fun ds => (fst ds <? 2 ^ nv) && (snd ds <? List.length va))%nat wiring) in
      Some (map (fun d => zsum (map (fun ds => at_ va (snd ds)) (filter (fun ds => Nat.eqb (fst ds) d) wiring)))
                (seq 0 (2 ^ nv)))
  end.

Definition zip_with (f : Z -> Z -> Z) (a b : list Z) : option (list Z) :=
  let* _ := guard (List.length a =? List.length b)%nat in
  Some (map (fun xy => f (fst xy) (snd xy)) (combine a b)).

Fixpoint eval_prod (env : shred -> option (list Z)) (l : list node) : option (list Z) :=
  match l with
  | [] => None
  | [n] => eval_node env n
  | n :: r => let* a := eval_node env n in let* b := eval_prod env r in zip_with Z.mul a b
  end.

Fixpoint eval_sector (env : shred -> option (list Z)) (e : sector) : option (list Z) :=
  match e with
  | ENode n => eval_node env n
  | EAdd a b => let* x := eval_sector env a in let* y := eval_sector env b in zip_with Z.add x y
  | ESub a b => let* x := eval_sector env a in let* y := eval_sector env b in zip_with Z.sub x y
  | EScale c a => let* x := eval_sector env a in Some (map (Z.mul c) x)
  | EProd l => eval_prod env l
  end.

Definition holds (p : Z) (env : shred -> option (list Z)) (c : check) : bool :=
  match c with
  | Zero e => match eval_sector env e with
              | Some v => forallb (fun x => x mod p =? 0) v
              | None => false end
  | Lookup n t => match eval_node env n, env (STable t) with
                  | Some v, Some table => forallb (fun x => existsb (fun y => (x - y) mod p =? 0) table) v
                  | _, _ => false end
  end.

(** ** runner/circuit_builder.rs *)

(** The builder's local state in [build_circuit]: checks so far, manifest,
    [tensor_nodes], [tensor_num_vars], [tensor_layouts], [range_checks]. *)
Record bstate := mkB {
  b_checks : list check; b_manifest : manifest;
  b_nodes : hmap node; b_nv : hmap nat; b_layouts : hmap layout;
  b_ranges : list (shred * node * nat * nat) }.

Definition add_shred (s : shred) (nv : nat) (v : visibility) (b : bstate) : bstate :=
  mkB (b_checks b) ((s, (nv, v)) :: b_manifest b) (b_nodes b) (b_nv b) (b_layouts b) (b_ranges b).
Definition add_zero (e : sector) (b : bstate) : bstate :=
  mkB (Zero e :: b_checks b) (b_manifest b) (b_nodes b) (b_nv b) (b_layouts b) (b_ranges b).
Definition add_range (s : shred) (n : node) (table_nv node_nv : nat) (b : bstate) : bstate :=
  mkB (b_checks b) (b_manifest b) (b_nodes b) (b_nv b) (b_layouts b) ((s, n, table_nv, node_nv) :: b_ranges b).
Definition set_outputs (outs : list string) (n : node) (nv : nat) (b : bstate) : bstate :=
  mkB (b_checks b) (b_manifest b) (hputs (b_nodes b) outs n) (hputs (b_nv b) outs nv) (b_layouts b) (b_ranges b).
Definition set_layouts (outs : list string) (l : option layout) (b : bstate) : bstate :=
  mkB (b_checks b) (b_manifest b) (b_nodes b) (b_nv b)
    (match l with Some l => hputs (b_layouts b) outs l | None => b_layouts b end) (b_ranges b).
Definition clear_layouts (outs : list string) (b : bstate) : bstate :=
  mkB (b_checks b) (b_manifest b) (b_nodes b) (b_nv b) (hdels (b_layouts b) outs) (b_ranges b).

Definition attr_nth (l : list nat) (i d : nat) : nat := nth i l d.

(** The rows and columns of a Gemm weight after the optional transposition
    (circuit_builder.rs:962-975). *)
Definition gemm_dims (l : layer) (wshape : list nat) : option (nat * nat) :=
  let* r := aget wshape 0 in
  let* c := aget wshape 1 in
  Some (if l_transB l then (c, r) else (r, c)).

(** The check of a rescaled product: [v + bias - alpha*q - r = 0]
    (circuit_builder.rs:1039-1044, 1233-1238, 1621-1626). *)
Definition rescale_check (v bias q r : sector) (alpha : Z) : sector :=
  ESub (ESub (EAdd v bias) (EScale alpha q)) r.

(** circuit_builder.rs:927-1059 *)
Definition build_gemm (m : model) (l : layer) (b : bstate) : option bstate :=
  let* x := aget (l_inputs l) 0 in
  let* wn := aget (l_inputs l) 1 in
  let* w := hget (l_weights l) wn in
  let* _ := guard (negb (l_transA l)) in
  let* (k, n) := gemm_dims l (fst w) in
  let kv := nvars k in
  let nv := nvars n in
  let sw := SLayer (l_name l) "weight" in
  let sb := SLayer (l_name l) "bias" in
  let sq := SLayer (l_name l) "q" in
  let sr := SLayer (l_name l) "r" in
  let b := add_shred sr nv Committed (add_shred sq nv Committed
             (add_shred sb nv Public (add_shred sw (kv + nv) Public b))) in
  let* xin := hget (b_nodes b) x in
  let mm := NMat xin 0 kv (NShred sw (kv + nv)) kv nv in
  let b := add_zero (rescale_check (ENode mm) (ENode (NShred sb nv)) (ENode (NShred sq nv))
                       (ENode (NShred sr nv)) (m_alpha m)) b in
  let b := add_range sr (NShred sr nv) (m_exponent m) nv b in
  Some (set_outputs (l_outputs l) (NShred sq nv) nv b).

(** The geometry of a convolution (circuit_builder.rs:1087-1160,
    witness.rs:600-680, 3380-3470): channels, kernel, padding, strides, output
    size. *)
Record conv_geom := mkGeom {
  g_cout : nat; g_cin : nat; g_kh : nat; g_kw : nat; g_top : nat; g_left : nat;
  g_sh : nat; g_sw : nat; g_inh : nat; g_inw : nat; g_oh : nat; g_ow : nat }.

Definition conv_geometry (l : layer) (wshape : list nat) (lay : layout) : option conv_geom :=
  let* cout := aget wshape 0 in
  let* cin := aget wshape 1 in
  let* kh := aget wshape 2 in
  let* kw := aget wshape 3 in
  let top := attr_nth (l_pads l) 0 0 in
  let left := attr_nth (l_pads l) 1 0 in
  let bottom := attr_nth (l_pads l) 2 0 in
  let right := attr_nth (l_pads l) 3 0 in
  let sh := attr_nth (l_strides l) 0 1 in
  let sw := attr_nth (l_strides l) 1 1 in
  let* _ := guard ((0 <? sh) && (0 <? sw))%nat in
  let '(ch, inh, inw) := spatial_dims lay in
  let* _ := guard (ch =? cin)%nat in
  let ph := (inh + top + bottom)%nat in
  let pw := (inw + left + right)%nat in
  let* _ := guard ((kh <=? ph) && (kw <=? pw))%nat in
  Some (mkGeom cout cin kh kw top left sh sw inh inw ((ph - kh) / sh + 1) ((pw - kw) / sw + 1))%nat.

Definition g_patch (g : conv_geom) : nat := (g_cin g * g_kh g * g_kw g)%nat.
Definition g_patches (g : conv_geom) : nat := (g_oh g * g_ow g)%nat.

(** circuit_builder.rs:1162-1190: source and destination of every kernel tap
    that does not fall into the padding. *)
Definition conv_wiring (g : conv_geom) (lay : layout) : list (nat * nat) :=
  flat_map (fun oh => flat_map (fun ow => flat_map (fun c => flat_map (fun kr => flat_map (fun kc =>
    let abs_h := (oh * g_sh g + kr)%nat in
    let abs_w := (ow * g_sw g + kc)%nat in
    if ((abs_h <? g_top g) || (abs_w <? g_left g))%nat then [] else
    let ih := (abs_h - g_top g)%nat in
    let iw := (abs_w - g_left g)%nat in
    if ((g_inh g <=? ih) || (g_inw g <=? iw))%nat then [] else
    [((oh * g_ow g + ow) * pow2_for (g_patch g) + (c * g_kh g * g_kw g + kr * g_kw g + kc), lindex lay c ih iw)]%nat)
    (seq 0 (g_kw g))) (seq 0 (g_kh g))) (seq 0 (g_cin g))) (seq 0 (g_ow g))) (seq 0 (g_oh g)).

(** circuit_builder.rs:1061-1264 *)
Definition build_conv (m : model) (l : layer) (b : bstate) : option bstate :=
  let* x := aget (l_inputs l) 0 in
  let* wn := aget (l_inputs l) 1 in
  let* w := hget (l_weights l) wn in
  let* lay := hget (b_layouts b) x in
  let* g := conv_geometry l (fst w) lay in
  let rows := nvars (g_patches g) in
  let cols := nvars (g_patch g) in
  let outc := nvars (g_cout g) in
  let res := (rows + outc)%nat in
  let* xin := hget (b_nodes b) x in
  let sw := SLayer (l_name l) "weight" in
  let sb := SLayer (l_name l) "bias" in
  let sq := SLayer (l_name l) "q" in
  let sr := SLayer (l_name l) "r" in
  let b := add_shred sr res Committed (add_shred sq res Committed
             (add_shred sb res Public (add_shred sw (cols + outc) Public b))) in
  let mm := NMat (NGate xin (conv_wiring g lay) (rows + cols)) rows cols (NShred sw (cols + outc)) cols outc in
  let b := add_zero (rescale_check (ENode mm) (ENode (NShred sb res)) (ENode (NShred sq res))
                       (ENode (NShred sr res)) (m_alpha m)) b in
  let b := add_range sr (NShred sr res) (m_exponent m) res b in
  let b := set_outputs (l_outputs l) (NShred sq res) res b in
  Some (set_layouts (l_outputs l) (Some (HWC (g_oh g) (g_ow g) (g_cout g) (pow2_for (g_cout g)))) b).

(** circuit_builder.rs:1266-1380 *)
Definition build_relu (m : model) (l : layer) (b : bstate) : option bstate :=
  let* x := aget (l_inputs l) 0 in
  let* nv := hget (b_nv b) x in
  let sz := SLayer (l_name l) "zero" in
  let sm := SLayer (l_name l) "max" in
  let si := SLayer (l_name l) "di" in
  let sd := SLayer (l_name l) "dz" in
  let b := add_shred sd nv Committed (add_shred si nv Committed
             (add_shred sm nv Committed (add_shred sz nv Public b))) in
  let* xin := hget (b_nodes b) x in
  let b := add_zero (ESub (ESub (ENode (NShred sm nv)) (ENode xin)) (ENode (NShred si nv))) b in
  let b := add_zero (ESub (ESub (ENode (NShred sm nv)) (ENode (NShred sz nv))) (ENode (NShred sd nv))) b in
  let b := add_zero (EProd [NShred si nv; NShred sd nv]) b in
  let b := match l_bits l with
           | Some n_bits =>
               let dnv := delta_table_nv n_bits (m_exponent m) in
               add_range sd (NShred sd nv) dnv nv (add_range si (NShred si nv) dnv nv b)
           | None => b end in
  let lay := hget (b_layouts b) x in
  Some (set_layouts (l_outputs l) lay (set_outputs (l_outputs l) (NShred sm nv) nv b)).

(** The geometry of a pooling window (circuit_builder.rs:1412-1466,
    witness.rs:880-940, 3545-3600). *)
Record pool_geom := mkPool {
  p_h : nat; p_w : nat; p_sh : nat; p_sw : nat; p_oh : nat; p_ow : nat; p_c : nat }.
Definition pool_geometry (l : layer) (lay : layout) : option pool_geom :=
  let '(c, inh, inw) := spatial_dims lay in
  let* ks := l_kernel l in
  let* _ := guard (List.length ks =? 2)%nat in
  let ph := nth 0 ks 0%nat in
  let pw := nth 1 ks 0%nat in
  let* _ := guard ((0 <? ph) && (0 <? pw))%nat in
  let sh := attr_nth (l_strides l) 0 1 in
  let sw := attr_nth (l_strides l) 1 1 in
  let* _ := guard ((0 <? sh) && (0 <? sw))%nat in
  let* _ := guard ((ph <=? inh) && (pw <=? inw))%nat in
  Some (mkPool ph pw sh sw ((inh - ph) / sh + 1) ((inw - pw) / sw + 1) c)%nat.
Definition p_window (g : pool_geom) : nat := (p_h g * p_w g)%nat.
Definition p_out (g : pool_geom) : nat := (p_oh g * p_ow g * p_c g)%nat.

(** circuit_builder.rs:1470-1486: the wiring of window position [(ph, pw)]. *)
Definition pool_wiring (g : pool_geom) (lay : layout) (ph pw : nat) : list (nat * nat) :=
  flat_map (fun ch => flat_map (fun oh => map (fun ow =>
    ((oh * p_ow g + ow) * p_c g + ch, lindex lay ch (oh * p_sh g + ph) (ow * p_sw g + pw)))%nat
    (seq 0 (p_ow g))) (seq 0 (p_oh g))) (seq 0 (p_c g)).
(** Window position number [i] is [(i / pw, i mod pw)] ([elem_pos]). *)
Definition pool_wirings (g : pool_geom) (lay : layout) : list (list (nat * nat)) :=
  map (fun i => pool_wiring g lay (i / p_w g) (i mod p_w g))%nat (seq 0 (p_window g)).

(** circuit_builder.rs:1382-1555 *)
Definition build_maxpool (m : model) (l : layer) (b : bstate) : option bstate :=
  let* x := aget (l_inputs l) 0 in
  let* lay := hget (b_layouts b) x in
  let* g := pool_geometry l lay in
  let nv := nvars (p_out g) in
  let* xin := hget (b_nodes b) x in
  let sm := SLayer (l_name l) "max" in
  let b := add_shred sm nv Committed b in
  let ds := map (SDelta (l_name l)) (seq 0 (p_window g)) in
  let b := fold_left (fun b s => add_shred s nv Committed b) ds b in
  let b := fold_left (fun b sg =>
             add_zero (ESub (ESub (ENode (NShred sm nv)) (ENode (NGate xin (snd sg) nv))) (ENode (NShred (fst sg) nv))) b)
             (combine ds (pool_wirings g lay)) b in
  let b := add_zero (EProd (map (fun s => NShred s nv) ds)) b in
  let b := match l_bits l with
           | Some n_bits =>
               let dnv := delta_table_nv n_bits (m_exponent m) in
               fold_left (fun b s => add_range s (NShred s nv) dnv nv b) ds b
           | None => b end in
  let b := set_outputs (l_outputs l) (NShred sm nv) nv b in
  Some (set_layouts (l_outputs l) (Some (HWC (p_oh g) (p_ow g) (p_c g) (p_c g))) b).

(** circuit_builder.rs:1557-1650 *)
Definition build_batchnorm (m : model) (l : layer) (b : bstate) : option bstate :=
  let* x := aget (l_inputs l) 0 in
  let* nv := hget (b_nv b) x in
  let su := SLayer (l_name l) "mul" in
  let sa := SLayer (l_name l) "add" in
  let sq := SLayer (l_name l) "q" in
  let sr := SLayer (l_name l) "r" in
  let b := add_shred sr nv Committed (add_shred sq nv Committed
             (add_shred sa nv Public (add_shred su nv Public b))) in
  let* xin := hget (b_nodes b) x in
  let b := add_zero (rescale_check (EProd [xin; NShred su nv]) (ENode (NShred sa nv)) (ENode (NShred sq nv))
                       (ENode (NShred sr nv)) (m_alpha m)) b in
  let b := add_range sr (NShred sr nv) (m_exponent m) nv b in
  let lay := hget (b_layouts b) x in
  Some (set_layouts (l_outputs l) lay (set_outputs (l_outputs l) (NShred sq nv) nv b)).

(** circuit_builder.rs:1683-1722 [resolve_input]: a computed tensor, or a
    public shred holding a constant. *)
Definition resolve_input (l : layer) (name : string) (b : bstate) : option (node * nat * bstate) :=
  match hget (b_nodes b) name with
  | Some n => let* nv := hget (b_nv b) name in Some (n, nv, b)
  | None =>
      let* w := hget (l_weights l) name in
      let nv := nvars (List.length (snd w)) in
      let s := SLayer (l_name l) name in
      Some (NShred s nv, nv, add_shred s nv Public b)
  end.

(** circuit_builder.rs:1652-1766 *)
Definition build_addsub (l : layer) (add : bool) (b : bstate) : option bstate :=
  let* a := aget (l_inputs l) 0 in
  let* c := aget (l_inputs l) 1 in
  let* _ := guard (match hget (b_nodes b) a, hget (b_nodes b) c with None, None => false | _, _ => true end) in
  let* (an, av, b) := resolve_input l a b in
  let* (cn, cv, b) := resolve_input l c b in
  let nv := Nat.max av cv in
  let s := SLayer (l_name l) "result" in
  let b := add_shred s nv Committed b in
  let b := add_zero (ESub ((if add then EAdd else ESub) (ENode an) (ENode cn)) (ENode (NShred s nv))) b in
  let lay := match hget (b_layouts b) a with Some y => Some y | None => hget (b_layouts b) c end in
  Some (set_layouts (l_outputs l) lay (set_outputs (l_outputs l) (NShred s nv) nv b)).

(** circuit_builder.rs:490-530: the shape operations alias their input. *)
Definition build_alias (l : layer) (b : bstate) : option bstate :=
  let* x := aget (l_inputs l) 0 in
  let* n := hget (b_nodes b) x in
  let* nv := hget (b_nv b) x in
  let lay := hget (b_layouts b) x in
  Some (set_layouts (l_outputs l) lay (set_outputs (l_outputs l) n nv b)).

(** circuit_builder.rs:126-185 [add_committed_passthrough] *)
Definition build_committed (l : layer) (preserve : bool) (b : bstate) : option bstate :=
  let input_layout := let* x := aget (l_inputs l) 0 in hget (b_layouts b) x in
  let output_layout := layout_from_output_shape (l_shape l) input_layout in
  let capacity := if preserve then
                    match output_layout with
                    | Some (HWC h w _ stride_c) => (h * w * stride_c)%nat
                    | _ => product (l_shape l) end
                  else product (l_shape l) in
  let nv := nvars capacity in
  let s := SLayer (l_name l) "out" in
  let b := set_outputs (l_outputs l) (NShred s nv) nv (add_shred s nv Committed b) in
  Some (if preserve then set_layouts (l_outputs l) output_layout b else clear_layouts (l_outputs l) b).

(** circuit_builder.rs:370-775: the dispatch on the operation. *)
Definition build_layer (m : model) (l : layer) (b : bstate) : option bstate :=
  match l_op l with
  | Gemm => build_gemm m l b
  | Conv => build_conv m l b
  | Relu => build_relu m l b
  | MaxPool => build_maxpool m l b
  | Add => build_addsub l true b
  | Sub => build_addsub l false b
  | BatchNorm => build_batchnorm m l b
  | Cast | Reshape => build_alias l b
  | LayerNorm | Slice => build_committed l true b
  | Transpose => build_committed l false b
  | Unsupported => None
  end.

(** circuit_builder.rs:302-349: the state before the first layer. *)
Definition input_layouts (m : model) : hmap layout :=
  flat_map (fun e => match snd e with [c; h; w] => [(fst e, CHW c h w)] | _ => [] end) (m_shapes m).
Definition init_state (m : model) (input_size : nat) : option bstate :=
  let* name := match m_inputs m with [n] => Some n | _ => None end in
  let nv := nvars input_size in
  let s := SInput name in
  Some (mkB [] [(s, (nv, Public))] [(name, NShred s nv)] [(name, nv)] (input_layouts m) []).

(** circuit_builder.rs:798-845: a range check wider than nine bits is split into
    two chunks. *)
Definition add_lookup (n : node) (table_nv : nat) (b : bstate) : bstate :=
  let b := add_shred (STable table_nv) table_nv Public b in
  mkB (Lookup n table_nv :: b_checks b) (b_manifest b) (b_nodes b) (b_nv b) (b_layouts b) (b_ranges b).
Definition add_range_check (b : bstate) (rc : shred * node * nat * nat) : bstate :=
  let '(s, n, table_nv, node_nv) := rc in
  if (table_nv <=? CHUNK_BITS)%nat then add_lookup n table_nv b
  else
    let lo := SChunk false s in
    let hi := SChunk true s in
    let b := add_shred hi node_nv Committed (add_shred lo node_nv Committed b) in
    let b := add_zero (ESub (EAdd (ENode (NShred lo node_nv)) (EScale (2 ^ Z.of_nat CHUNK_BITS) (ENode (NShred hi node_nv))))
                            (ENode n)) b in
    add_lookup (NShred hi node_nv) (table_nv - CHUNK_BITS) (add_lookup (NShred lo node_nv) CHUNK_BITS b).

(** circuit_builder.rs:300-925 *)
Definition build_layers (m : model) (ls : list layer) (b : bstate) : option bstate := for_each ls (build_layer m) b.
Definition build_circuit (m : model) (input_size : nat) : option (list check * manifest) :=
  let* b := init_state m input_size in
  let* out := match m_outputs m with [o] => Some o | _ => None end in
  let* _ := guard ((m_base m =? 2) && (m_exponent m <? 63)%nat) in
  let* b := build_layers m (m_layers m) b in
  let* nv := hget (b_nv b) out in
  let b := add_shred SExpected nv Public b in
  let* n := hget (b_nodes b) out in
  let b := add_zero (ESub (ENode n) (ENode (NShred SExpected nv))) b in
  let b := fold_left add_range_check (rev (b_ranges b)) b in
  Some (b_checks b, b_manifest b).

(** ** Public inputs of the verifier: witness.rs:3269-4092 *)

(** range_checks.rs:60-180 [compute_range_check_plan]: the tables that are
    needed. *)
Definition layer_bits (observed : hmap nat) (l : layer) : option nat :=
  match hget observed (l_name l) with Some n => Some n | None => l_bits l end.
Definition width_tables (w : nat) : option (list nat) :=
  if (w <=? CHUNK_BITS)%nat then Some [w]
  else let* _ := guard (w <=? 2 * CHUNK_BITS)%nat in Some [CHUNK_BITS; w - CHUNK_BITS]%nat.
Definition layer_tables (m : model) (observed : hmap nat) (l : layer) : option (list nat) :=
  match l_op l with
  | Gemm | Conv | BatchNorm => width_tables (m_exponent m)
  | Relu => match layer_bits observed l with
            | Some n => width_tables (delta_table_nv n (m_exponent m))
            | None => Some [] end
  | MaxPool => match layer_bits observed l with
               | Some n =>
                   let* ks := l_kernel l in
                   let* _ := guard ((List.length ks =? 2) && forallb (fun k => 0 <? k) ks)%nat in
                   width_tables (delta_table_nv n (m_exponent m))
               | None => Some [] end
  | _ => Some []
  end.
Definition range_check_plan (m : model) (observed : hmap nat) : option (list nat) :=
  let* l := omap (layer_tables m observed) (m_layers m) in Some (List.concat l).

(** The state of [prepare_public_shreds]: shreds, [tensor_sizes],
    [tensor_layouts]. *)
Record pstate := mkP { ps_shreds : list (shred * list Z); ps_sizes : hmap nat; ps_layouts : hmap layout }.

(** circuit_builder.rs:1769-1777; [None] is the index panic. *)
Definition transpose_matrix (data : list Z) (rows cols : nat) : option (list Z) :=
  let* _ := guard (rows * cols <=? List.length data)%nat in
  Some (map (fun i => at_ data (i mod rows * cols + i / rows))%nat (seq 0 (rows * cols))).
(** circuit_builder.rs:1778-1810 *)
Definition pad_matrix (data : list Z) (rows cols prows pcols : nat) : option (list Z) :=
  let* _ := guard ((rows * cols <=? List.length data) && (rows <=? prows) && (cols <=? pcols))%nat in
  Some (map (fun i => let r := (i / pcols)%nat in let c := (i mod pcols)%nat in
                      if ((r <? rows) && (c <? cols))%nat then at_ data (r * cols + c) else 0)
            (seq 0 (prows * pcols))).
(** witness.rs:3261-3267 *)
Definition broadcast_bias (bias : list Z) (total : nat) : list Z :=
  map (fun j => at_ bias j) (seq 0 total).

(** witness.rs:453-475, 3339-3372: the weight and bias of a Gemm. *)
Definition bias_data (l : layer) : list Z :=
  match aget (l_inputs l) 2 with
  | Some bn => match hget (l_weights l) bn with Some w => snd w | None => [] end
  | None => [] end.
Definition gemm_public (l : layer) : option (list Z * list Z * nat * nat) :=
  let* wn := aget (l_inputs l) 1 in
  let* w := hget (l_weights l) wn in
  let* (k, n) := gemm_dims l (fst w) in
  let* r := aget (fst w) 0 in
  let* c := aget (fst w) 1 in
  let* wt := if l_transB l then transpose_matrix (snd w) r c else Some (snd w) in
  let* wp := pad_matrix wt k n (pow2_for k) (pow2_for n) in
  Some (wp, broadcast_bias (bias_data l) (pow2_for n), k, n).

(** witness.rs:700-745, 3470-3500: the kernel matrix and broadcast bias of a
    convolution. *)
Definition conv_public (l : layer) (lay : layout) : option (list Z * list Z * conv_geom) :=
  let* wn := aget (l_inputs l) 1 in
  let* w := hget (l_weights l) wn in
  let* g := conv_geometry l (fst w) lay in
  let* wt := transpose_matrix (snd w) (g_cout g) (g_patch g) in
  let* kp := pad_matrix wt (g_patch g) (g_cout g) (pow2_for (g_patch g)) (pow2_for (g_cout g)) in
  let bias := bias_data l in
  let pc := pow2_for (g_cout g) in
  Some (kp, map (fun i => let j := (i mod pc)%nat in
                          if ((j <? g_cout g) && (j <? List.length bias))%nat then at_ bias j else 0)
                (seq 0 (pow2_for (g_patches g) * pc)), g).

(** witness.rs:1086-1145, 3676-3727: per-channel factors spread over the
    tensor.  Later writes win. *)
Definition bn_targets (lay : option layout) (c sz : nat) : option (list (nat * nat)) :=
  match lay with
  | Some (CHW _ h w) => Some (flat_map (fun ch => map (fun s => (ch * (h * w) + s, ch)) (seq 0 (h * w))) (seq 0 c))
  | Some (HWC h w _ st) => Some (flat_map (fun row => map (fun ch => (row * st + ch, ch)) (seq 0 c)) (seq 0 (h * w)))
  | None =>
      let* spatial := if ((0 <? c) && (c <? sz))%nat
                      then let* _ := guard (sz mod c =? 0)%nat in Some (sz / c)%nat
                      else Some 1%nat in
      Some (flat_map (fun ch => map (fun s => (ch * spatial + s, ch)) (seq 0 spatial)) (seq 0 c))
  end%nat.
Definition bn_broadcast (targets : list (nat * nat)) (vals : list Z) (padded : nat) : list Z :=
  map (fun i => match find (fun t => Nat.eqb (fst t) i) (rev targets) with
                | Some t => at_ vals (snd t)
                | None => 0 end) (seq 0 padded).
Definition bn_public (l : layer) (lay : option layout) (sz : nat) : option (list Z * list Z) :=
  let* mn := aget (l_inputs l) 1 in
  let* an := aget (l_inputs l) 2 in
  let* mw := hget (l_weights l) mn in
  let* aw := hget (l_weights l) an in
  let* _ := guard (List.length (snd aw) =? List.length (snd mw))%nat in
  let* t := bn_targets lay (List.length (snd mw)) sz in
  Some (bn_broadcast t (snd mw) (pow2_for sz), bn_broadcast t (snd aw) (pow2_for sz)).

(** witness.rs:299-364 *)
Definition transpose_layout (input : option layout) (perm shape : list nat) : option layout :=
  let* lay := input in
  let position x := (fix go (l : list nat) (i : nat) : option nat :=
                       match l with [] => None | a :: r => if Nat.eqb a x then Some i else go r (S i) end) perm 0%nat in
  match shape, perm with
  | [_; _; _], [a; b; c] =>
      if forallb (fun x => x <? 3)%nat perm then
        match lay with
        | CHW dc dh dw => let d i := nth i [dc; dh; dw] 0%nat in Some (CHW (d a) (d b) (d c))
        | HWC dh dw dc _ => let d i := nth i [dh; dw; dc] 0%nat in Some (HWC (d a) (d b) (d c) (pow2_for (d c)))
        end
      else None
  | [_; _; _; _], [_; _; _; _] =>
      let* i1 := position 1%nat in
      let* i2 := position 2%nat in
      let* i3 := position 3%nat in
      let d i := nth i shape 0%nat in
      match lay with
      | CHW _ _ _ => Some (CHW (d i1) (d i2) (d i3))
      | HWC _ _ _ _ => Some (HWC (d i1) (d i2) (d i3) (pow2_for (d i3)))
      end
  | _, _ => None
  end.
Definition perm_of (l : layer) : list nat :=
  match l_perm l with Some p => p | None => rev (seq 0 (List.length (l_shape l))) end.

Definition put_sizes (outs : list string) (n : nat) (lay : option layout) (st : pstate) : pstate :=
  mkP (ps_shreds st) (hputs (ps_sizes st) outs n)
    (match lay with Some y => hputs (ps_layouts st) outs y | None => ps_layouts st end).
Definition put_shred (s : shred) (v : list Z) (st : pstate) : pstate :=
  mkP ((s, v) :: ps_shreds st) (ps_sizes st) (ps_layouts st).

(** witness.rs:3320-4069, one layer. *)
Definition public_layer (l : layer) (st : pstate) : option pstate :=
  let name := l_name l in
  let outs := l_outputs l in
  match l_op l with
  | Gemm =>
      let* (w, bias, _, n) := gemm_public l in
      Some (put_sizes outs (pow2_for n) None (put_shred (SLayer name "bias") bias (put_shred (SLayer name "weight") w st)))
  | Conv =>
      let* x := aget (l_inputs l) 0 in
      let* lay := hget (ps_layouts st) x in
      let* (w, bias, g) := conv_public l lay in
      Some (put_sizes outs (pow2_for (g_patches g) * pow2_for (g_cout g))
              (Some (HWC (g_oh g) (g_ow g) (g_cout g) (pow2_for (g_cout g))))
              (put_shred (SLayer name "bias") bias (put_shred (SLayer name "weight") w st)))
  | Relu =>
      let* x := aget (l_inputs l) 0 in
      let* sz := hget (ps_sizes st) x in
      Some (put_sizes outs sz (hget (ps_layouts st) x) (put_shred (SLayer name "zero") (repeat 0 (pow2_for sz)) st))
  | MaxPool =>
      let* x := aget (l_inputs l) 0 in
      let* lay := hget (ps_layouts st) x in
      let* g := pool_geometry l lay in
      Some (put_sizes outs (pow2_for (p_out g)) (Some (HWC (p_oh g) (p_ow g) (p_c g) (p_c g))) st)
  | BatchNorm =>
      let* x := aget (l_inputs l) 0 in
      let* sz := hget (ps_sizes st) x in
      let lay := hget (ps_layouts st) x in
      let* (mul, add) := bn_public l lay sz in
      Some (put_sizes outs (pow2_for sz) lay
              (put_shred (SLayer name "add") add (put_shred (SLayer name "mul") mul st)))
  | Add | Sub =>
      let* a := aget (l_inputs l) 0 in
      let* c := aget (l_inputs l) 1 in
      let size x := match hget (ps_sizes st) x with
                    | Some n => Some n
                    | None => let* w := hget (l_weights l) x in Some (List.length (snd w)) end in
      let* na := size a in
      let* nc := size c in
      let out := pow2_for (Nat.max na nc) in
      let put x st' := match hget (ps_sizes st) x, hget (l_weights l) x with
                       | None, Some w => put_shred (SLayer name x) (pad_to_size (snd w) out) st'
                       | _, _ => st' end in
      let lay := match hget (ps_layouts st) a with Some y => Some y | None => hget (ps_layouts st) c end in
      Some (put_sizes outs out lay (put a (put c st)))
  | Cast | Reshape =>
      let* x := aget (l_inputs l) 0 in
      let* sz := hget (ps_sizes st) x in
      Some (put_sizes outs sz (hget (ps_layouts st) x) st)
  | LayerNorm =>
      let lay := let* x := aget (l_inputs l) 0 in hget (ps_layouts st) x in
      Some (put_sizes outs (pow2_for (product (l_shape l))) lay st)
  | Slice =>
      let lay := let* x := aget (l_inputs l) 0 in hget (ps_layouts st) x in
      Some (put_sizes outs (pow2_for (product (l_shape l))) (layout_from_output_shape (l_shape l) lay) st)
  | Transpose =>
      let lay := let* x := aget (l_inputs l) 0 in hget (ps_layouts st) x in
      let st' := put_sizes outs (pow2_for (product (l_shape l))) None st in
      Some (match transpose_layout lay (perm_of l) (l_shape l) with
            | Some y => mkP (ps_shreds st') (ps_sizes st') (hputs (ps_layouts st') outs y)
            | None => mkP (ps_shreds st') (ps_sizes st') (hdels (ps_layouts st') outs) end)
  | Unsupported => None
  end.

(** witness.rs:15-31 *)
Definition input_size_ok (m : model) (name : string) (n : nat) : bool :=
  match hget (m_shapes m) name with Some shape => (n =? product shape)%nat | None => true end.

(** [(0..(1 << nv)).collect()] *)
Definition range_table (nv : nat) : list Z := map Z.of_nat (seq 0 (2 ^ nv)).

(** witness.rs:3269-4092 *)
Definition prepare_public_shreds (m : model) (input expected : list Z) (observed : hmap nat)
  : option (list (shred * list Z)) :=
  let* _ := guard ((m_base m =? 2) && (m_exponent m <? 63)%nat) in
  let* name := aget (m_inputs m) 0 in
  let* _ := guard (input_size_ok m name (List.length input)) in
  let n := pow2_for (List.length input) in
  let st := mkP [(SInput name, pad_to_size input n)] [(name, n)] (input_layouts m) in
  let* st := for_each (m_layers m) public_layer st in
  let* tables := range_check_plan m observed in
  let* _ := guard (forallb (fun t => t <? 63)%nat tables) in
  Some (map (fun t => (STable t, range_table t)) tables ++
        (SExpected, pad_to_size expected (pow2_for (List.length expected))) :: ps_shreds st).

(** ** runner/verify.rs *)

(** runner/prove.rs:126-135 [SerializableProof]; the transcript is replaced by
    the committed shreds it proves knowledge of. *)
Record proof := mkProof {
  pf_expected : list Z; pf_observed : hmap nat; pf_committed : list (shred * list Z) }.

(** runner/verify.rs:30-36, jstprove_onnx/src/quantizer.rs:107-114 *)
Definition apply_observed (observed : hmap nat) (m : model) : model :=
  mkModel (m_inputs m) (m_shapes m) (m_outputs m)
    (map (fun l => match hget observed (l_name l) with
                   | Some n => mkLayer (l_name l) (l_op l) (l_inputs l) (l_outputs l) (l_shape l) (Some n)
                                 (l_weights l) (l_transA l) (l_transB l) (l_kernel l) (l_pads l) (l_strides l) (l_perm l)
                   | None => l end) (m_layers m))
    (m_base m) (m_exponent m) (m_alpha m).

(** The value of a shred: public shreds come from the verifier
    (runner/verify.rs:62-70), committed ones from the prover. *)
Definition shred_env (man : manifest) (public committed : list (shred * list Z)) (s : shred) : option (list Z) :=
  match sget man s with
  | Some (_, Public) => sget public s
  | Some (_, Committed) => sget committed s
  | None => None
  end.

(** runner/verify.rs:92-119 *)
Definition verify_with_model (p : Z) (m : model) (pf : proof) (input : list Z) : bool :=
  match prepare_public_shreds m input (pf_expected pf) (pf_observed pf),
        build_circuit m (pow2_for (List.length input)) with
  | Some public, Some (checks, man) =>
      forallb (fun e => match snd (snd e) with
                        | Public => match sget public (fst e) with Some _ => true | None => false end
                        | Committed => true end) man &&
      forallb (holds p (shred_env man public (pf_committed pf))) checks
  | _, _ => false
  end.

(** runner/verify.rs:16-90 (and pipe.rs:113-120, batch.rs:203-211): the widths
    in the proof replace those of the model. *)
Definition verify (p : Z) (m : model) (pf : proof) (input : list Z) : bool :=
  verify_with_model p (apply_observed (pf_observed pf) m) pf input.
