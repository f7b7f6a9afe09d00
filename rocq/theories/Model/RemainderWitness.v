(** The Remainder backend's witness generator (runner/witness.rs:367-3259) and
    proof generation (runner/prove.rs:17-124).

    The simplifications of Model/Remainder.v apply.  Moreover:
    - the witness of LayerNorm, Slice, Concat, Resize, GridSample and Transpose
      layers is not modelled ([None]);
    - sums of products in [i128] are exact (they overflow only if several
      products of two factors near [2^63] are added up);
    - multiplicities and the dummy shreds of the lookup argument are left out,
      but the range checks that computing them performs are kept. *)
From Coq Require Import ZArith List Bool Lia String.
From Verif Require Import Base.Array Base.Machine Model.Remainder.
Import ListNotations.
Local Open Scope string_scope.
Local Open Scope Z_scope.

(** [i64::try_from] of an [i128]. *)
Definition to_i64 (x : Z) : option Z := signed U64 x.
(** [x as u64] of an [i64]. *)
Definition as_u64 (x : Z) : Z := x mod U64.

(** witness.rs:42-48 *)
Definition observed_n_bits_for_delta (max_val : Z) (exponent : nat) : nat :=
  (if (max_val =? 0)%Z then exponent + 1 else Z.to_nat (bit_length max_val) + exponent)%nat.

(** [iter().max().unwrap_or(0)] *)
Definition maximum (l : list Z) : Z := match l with [] => 0 | a :: r => fold_left Z.max r a end.

(** witness.rs:3236-3259; [None] also for an index out of range. *)
Definition padded_matmul (a : list Z) (a_rows a_cols : nat) (b : list Z) (b_cols : nat) : option (list Z) :=
  let* _ := guard ((a_rows * a_cols <=? List.length a) && (a_cols * b_cols <=? List.length b))%nat in
  omap (fun ij => to_i64 (zsum (map (fun k => at_ a (ij / b_cols * a_cols + k) * at_ b (k * b_cols + ij mod b_cols))
                                    (seq 0 a_cols))))
       (seq 0 (a_rows * b_cols)).

(** Elementwise [i128] operations followed by [i64::try_from]
    (witness.rs:483-497, 740-754, 818-826, 1135-1166, 1238-1263): as long as the
    shorter of the two vectors. *)
Definition checked_zip (f : Z -> Z -> Z) (a b : list Z) : option (list Z) :=
  omap (fun xy => to_i64 (f (fst xy) (snd xy))) (combine a b).

(** The local state of [compute_witness] (witness.rs:382-385) *)
Record wstate := mkW {
  w_shreds : list (shred * list Z); w_tensors : hmap (list Z);
  w_layouts : hmap layout; w_observed : hmap nat }.

Definition insert_shred (s : shred) (v : list Z) (st : wstate) : wstate :=
  mkW ((s, v) :: w_shreds st) (w_tensors st) (w_layouts st) (w_observed st).
Definition insert_tensors (outs : list string) (v : list Z) (st : wstate) : wstate :=
  mkW (w_shreds st) (hputs (w_tensors st) outs v) (w_layouts st) (w_observed st).
Definition insert_layouts (outs : list string) (l : option layout) (st : wstate) : wstate :=
  mkW (w_shreds st) (w_tensors st)
    (match l with Some l => hputs (w_layouts st) outs l | None => w_layouts st end) (w_observed st).
Definition insert_observed (name : string) (n : nat) (st : wstate) : wstate :=
  mkW (w_shreds st) (w_tensors st) (w_layouts st) (hput (w_observed st) name n).

(** range_checks.rs:26-58 on the map of shreds. *)
Definition insert_range (s : shred) (values : list Z) (width : nat) (st : wstate) : option wstate :=
  let* r := split_range values width in
  Some (match r with
        | OneTable _ => st
        | TwoChunks c0 c1 _ _ => insert_shred (SChunk true s) c1 (insert_shred (SChunk false s) c0 st)
        end).

(** Reads [data[src]] into [out[dst]] for every pair [(dst, src)]. *)
Definition gather (taps : list (nat * nat)) (data : list Z) (size : nat) : option (list Z) :=
  for_each taps (fun t out => let* v := aget data (snd t) in aset out (fst t) v) (repeat 0 size).

(** The offset of witness.rs:380. *)
Definition OFFSET : Z := 2 ^ 30.

(** The rescaled sum of a layer: quotients, remainders and the range check of
    the remainders (witness.rs:498-521, 755-778, 1167-1188). *)
Definition insert_rescaled (m : model) (name : string) (values : list Z) (st : wstate) : option (list Z * wstate) :=
  let* (q, r) := compute_rescale_array values (m_alpha m) OFFSET in
  let* st := insert_range (SLayer name "r") r (m_exponent m)
               (insert_shred (SLayer name "r") r (insert_shred (SLayer name "q") q st)) in
  Some (q, st).

(** witness.rs:445-559 *)
Definition witness_gemm (m : model) (l : layer) (st : wstate) : option wstate :=
  let* x := aget (l_inputs l) 0 in
  let* data := hget (w_tensors st) x in
  let* _ := guard (negb (l_transA l)) in
  let* (w, bias, k, n) := gemm_public l in
  let* mm := padded_matmul (pad_to_size data (pow2_for k)) 1 (pow2_for k) w (pow2_for n) in
  let* sum := checked_zip Z.add mm bias in
  let* (q, st) := insert_rescaled m (l_name l) sum
                    (insert_shred (SLayer (l_name l) "bias") bias (insert_shred (SLayer (l_name l) "weight") w st)) in
  Some (insert_tensors (l_outputs l) q st).

(** witness.rs:684-711: the loops that fill the patch matrix. *)
Definition im2col_taps (g : conv_geom) (lay : layout) : list (nat * nat) :=
  flat_map (fun oh => flat_map (fun ow => flat_map (fun c => flat_map (fun kr => flat_map (fun kc =>
    let patch := (oh * g_ow g + ow)%nat in
    let abs_h := (oh * g_sh g + kr)%nat in
    let abs_w := (ow * g_sw g + kc)%nat in
    if ((abs_h <? g_top g) || (abs_w <? g_left g))%nat then [] else
    let ih := (abs_h - g_top g)%nat in
    let iw := (abs_w - g_left g)%nat in
    if ((g_inh g <=? ih) || (g_inw g <=? iw))%nat then [] else
    let col := (c * g_kh g * g_kw g + kr * g_kw g + kc)%nat in
    [(patch * pow2_for (g_patch g) + col, lindex lay c ih iw)%nat])
    (seq 0 (g_kw g))) (seq 0 (g_kh g))) (seq 0 (g_cin g))) (seq 0 (g_ow g))) (seq 0 (g_oh g)).

(** witness.rs:561-792 *)
Definition witness_conv (m : model) (l : layer) (st : wstate) : option wstate :=
  let* x := aget (l_inputs l) 0 in
  let* data := hget (w_tensors st) x in
  let* lay := hget (w_layouts st) x in
  let* (w, bias, g) := conv_public l lay in
  let rows := pow2_for (g_patches g) in
  let cols := pow2_for (g_patch g) in
  let* patches := gather (im2col_taps g lay) data (rows * cols) in
  let* mm := padded_matmul patches rows cols w (pow2_for (g_cout g)) in
  let* sum := checked_zip Z.add mm bias in
  let* (q, st) := insert_rescaled m (l_name l) sum
                    (insert_shred (SLayer (l_name l) "bias") bias (insert_shred (SLayer (l_name l) "weight") w st)) in
  Some (insert_layouts (l_outputs l) (Some (HWC (g_oh g) (g_ow g) (g_cout g) (pow2_for (g_cout g))))
          (insert_tensors (l_outputs l) q st)).

(** witness.rs:794-865 *)
Definition witness_relu (m : model) (l : layer) (st : wstate) : option wstate :=
  let* x := aget (l_inputs l) 0 in
  let* data := hget (w_tensors st) x in
  let out := map (fun x => Z.max x 0) data in
  let* di := checked_zip Z.sub out data in
  let dz := out in
  let name := l_name l in
  let st := insert_shred (SLayer name "dz") dz (insert_shred (SLayer name "di") di
              (insert_shred (SLayer name "max") out
                 (insert_shred (SLayer name "zero") (repeat 0 (pow2_for (List.length data))) st))) in
  let bits := observed_n_bits_for_delta (Z.max (as_u64 (maximum di)) (as_u64 (maximum dz))) (m_exponent m) in
  let width := delta_table_nv bits (m_exponent m) in
  let st := insert_observed name bits st in
  let* st := insert_range (SLayer name "di") di width st in
  let* st := insert_range (SLayer name "dz") dz width st in
  let lay := hget (w_layouts st) x in
  Some (insert_layouts (l_outputs l) lay (insert_tensors (l_outputs l) out st)).

(** witness.rs:962-982: the loops over output positions, innermost over the
    window.  The state is [max_values] and [window_elems]. *)
Definition pool_positions (g : pool_geom) : list (nat * nat * nat) :=
  flat_map (fun ch => flat_map (fun oh => map (fun ow => (ch, oh, ow)) (seq 0 (p_ow g))) (seq 0 (p_oh g))) (seq 0 (p_c g)).
Definition pool_step (g : pool_geom) (lay : layout) (data : list Z) (pos : nat * nat * nat)
  (st : list Z * list (list Z)) : option (list Z * list (list Z)) :=
  let '(ch, oh, ow) := pos in
  let dest := ((oh * p_ow g + ow) * p_c g + ch)%nat in
  let* vals := omap (fun i => aget data (lindex lay ch (oh * p_sh g + i / p_w g) (ow * p_sw g + i mod p_w g)))%nat
                    (seq 0 (p_window g)) in
  let* maxes := aset (fst st) dest (fold_left Z.max vals (- 2 ^ 63)) in
  let* elems := omap (fun ev => aset (fst ev) dest (snd ev)) (combine (snd st) vals) in
  Some (maxes, elems).

(** witness.rs:867-1045 *)
Definition witness_maxpool (m : model) (l : layer) (st : wstate) : option wstate :=
  let* x := aget (l_inputs l) 0 in
  let* data := hget (w_tensors st) x in
  let* lay := hget (w_layouts st) x in
  let* g := pool_geometry l lay in
  let size := pow2_for (p_out g) in
  let* (maxes, elems) := for_each (pool_positions g) (pool_step g lay data)
                           (repeat 0 size, repeat (repeat 0 size) (p_window g)) in
  let* deltas := omap (fun e => checked_zip Z.sub maxes e) elems in
  let name := l_name l in
  let st := insert_shred (SLayer name "max") maxes st in
  let ds := combine (map (SDelta name) (seq 0 (p_window g))) deltas in
  let st := fold_left (fun st d => insert_shred (fst d) (snd d) st) ds st in
  let bits := observed_n_bits_for_delta (as_u64 (maximum (List.concat deltas))) (m_exponent m) in
  let width := delta_table_nv bits (m_exponent m) in
  let st := insert_observed name bits st in
  let* st := for_each ds (fun d st => insert_range (fst d) (snd d) width st) st in
  Some (insert_layouts (l_outputs l) (Some (HWC (p_oh g) (p_ow g) (p_c g) (p_c g)))
          (insert_tensors (l_outputs l) maxes st)).

(** witness.rs:1047-1205 *)
Definition witness_batchnorm (m : model) (l : layer) (st : wstate) : option wstate :=
  let* x := aget (l_inputs l) 0 in
  let* data := hget (w_tensors st) x in
  let lay := hget (w_layouts st) x in
  let* (mul, add) := bn_public l lay (List.length data) in
  let* product := checked_zip Z.mul (pad_to_size data (pow2_for (List.length data))) mul in
  let* sum := checked_zip Z.add product add in
  let* (q, st) := insert_rescaled m (l_name l) sum
                    (insert_shred (SLayer (l_name l) "add") add (insert_shred (SLayer (l_name l) "mul") mul st)) in
  Some (insert_layouts (l_outputs l) lay (insert_tensors (l_outputs l) q st)).

(** witness.rs:1207-1279 *)
Definition witness_addsub (l : layer) (add : bool) (st : wstate) : option wstate :=
  let* a := aget (l_inputs l) 0 in
  let* c := aget (l_inputs l) 1 in
  let get x := match hget (w_tensors st) x with
               | Some v => Some v
               | None => let* w := hget (l_weights l) x in Some (snd w) end in
  let* va := get a in
  let* vc := get c in
  let size := pow2_for (Nat.max (List.length va) (List.length vc)) in
  let pa := pad_to_size va size in
  let pc := pad_to_size vc size in
  let* result := checked_zip (if add then Z.add else Z.sub) pa pc in
  let put x v st' := match hget (w_tensors st) x with
                     | Some _ => st'
                     | None => insert_shred (SLayer (l_name l) x) v st' end in
  let st' := insert_shred (SLayer (l_name l) "result") result (put a pa (put c pc st)) in
  let lay := match hget (w_layouts st) a with Some y => Some y | None => hget (w_layouts st) c end in
  Some (insert_layouts (l_outputs l) lay (insert_tensors (l_outputs l) result st')).

(** witness.rs:1281-1304 *)
Definition witness_cast (l : layer) (st : wstate) : option wstate :=
  let* x := aget (l_inputs l) 0 in
  let* data := hget (w_tensors st) x in
  Some (insert_layouts (l_outputs l) (hget (w_layouts st) x) (insert_tensors (l_outputs l) data st)).

(** witness.rs:1305-1337 *)
Definition witness_reshape (l : layer) (st : wstate) : option wstate :=
  let* x := aget (l_inputs l) 0 in
  let* data := hget (w_tensors st) x in
  let new := layout_from_output_shape (l_shape l) (hget (w_layouts st) x) in
  let st' := insert_tensors (l_outputs l) data st in
  Some (match new with
        | Some y => insert_layouts (l_outputs l) (Some y) st'
        | None => mkW (w_shreds st') (w_tensors st') (hdels (w_layouts st') (l_outputs l)) (w_observed st') end).

(** witness.rs:443-3174: the dispatch on the operation. *)
Definition witness_layer (m : model) (l : layer) (st : wstate) : option wstate :=
  match l_op l with
  | Gemm => witness_gemm m l st
  | Conv => witness_conv m l st
  | Relu => witness_relu m l st
  | MaxPool => witness_maxpool m l st
  | Add => witness_addsub l true st
  | Sub => witness_addsub l false st
  | BatchNorm => witness_batchnorm m l st
  | Cast => witness_cast l st
  | Reshape => witness_reshape l st
  | LayerNorm | Slice | Transpose | Unsupported => None
  end.

(** witness.rs:33-38 [WitnessData] *)
Record witness_data := mkWitness { wd_shreds : list (shred * list Z); wd_observed : hmap nat }.

(** witness.rs:367-3234 *)
Definition compute_witness (m : model) (input : list Z) : option witness_data :=
  let* _ := guard ((m_base m =? 2) && (m_exponent m <? 63)%nat) in
  let* name := aget (m_inputs m) 0 in
  let* _ := guard (input_size_ok m name (List.length input)) in
  let padded := pad_to_size input (pow2_for (List.length input)) in
  let* out := match m_outputs m with [o] => Some o | _ => None end in
  let st := mkW [(SInput name, padded)] [(name, padded)] (input_layouts m) [] in
  let* st := for_each (m_layers m) (witness_layer m) st in
  let* final := hget (w_tensors st) out in
  let* tables := range_check_plan m (w_observed st) in
  let* _ := guard (forallb (fun t => t <? 63)%nat tables) in
  Some (mkWitness (map (fun t => (STable t, range_table t)) tables ++ (SExpected, final) :: w_shreds st)
          (w_observed st)).

(** prove.rs:26-52, 57-124: the widths of the witness replace those of the
    model, the circuit is built, and every shred of its manifest must be in the
    witness with the right number of variables.  The proof system is idealised
    (Model/Remainder.v): what it proves knowledge of are the witness shreds. *)
Definition generate_proof (m : model) (w : witness_data) : option proof :=
  let m := apply_observed (wd_observed w) m in
  let* name := aget (m_inputs m) 0 in
  let* input := sget (wd_shreds w) (SInput name) in
  let* (_, man) := build_circuit m (List.length input) in
  let* _ := guard (forallb (fun e => match sget (wd_shreds w) (fst e) with
                                     | Some v => Nat.eqb (nvars (List.length v)) (fst (snd e))
                                     | None => false end) man) in
  let* expected := sget (wd_shreds w) SExpected in
  Some (mkProof expected (wd_observed w) (wd_shreds w)).
