(** compiler/expander_compiler/src/circuit/layered/witness.rs: batches of witnesses, as
    scalars or packed into vectors.  A vector of the SIMD field is the list of its
    [pack] lanes (SF::pack and SF::unpack are that list; [pack] is PACK_SIZE of the
    configuration).  [None] is a panic or a deserialisation error. *)
From Coq Require Import List ZArith Bool Arith.
From Verif Require Import Base.Array Base.Machine Model.Serdes.
Import ListNotations.
Local Open Scope list_scope.

Section Packing.
Context {F : Type}.

(** witness.rs:24-47.  The two loops are exchanged: each lane collects its elements at
    once. *)
Definition unpack_block (pack : nat) (s : list (list F)) (a b : nat) : option (list (list F * list F)) :=
  omap (fun j =>
    let* x := omap (fun v => aget v j) (firstn a s) in
    let* y := omap (fun v => aget v j) (firstn b (skipn a s)) in
    Some (x, y)) (seq 0 pack).

(** witness.rs:49-81: one column [i] of the block; [s_size - 1] underflows for an empty
    block *)
Definition pack_column (pack s_size width : nat) (s : list F) (i : nat) : option (list F) :=
  let* filled := omap (fun j => aget s (j * width + i)) (seq 0 s_size) in
  let* rest := omap (fun _ => let* _ := guard (0 <? s_size) in aget s ((s_size - 1) * width + i)) (seq s_size (pack - s_size)) in
  Some (filled ++ rest).
Definition pack_block (pack : nat) (s : list F) (a b : nat) : option (list (list F) * list (list F)) :=
  let* _ := guard (negb (a + b =? 0)) in
  let s_size := Nat.min (length s / (a + b)) pack in
  let* res := omap (pack_column pack s_size (a + b) s) (seq 0 a) in
  let* res2 := omap (pack_column pack s_size (a + b) s) (seq a b) in
  Some (res, res2).

(** witness.rs:10-22 *)
Inductive values := Scalar (v : list F) | Simd (v : list (list F)).
Record witness := { w_num : nat; w_inputs : nat; w_publics : nat; w_values : values }.

(** [&v[from..]] and [v[from..to]] *)
Definition slice_from {T} (v : list T) (from : nat) : option (list T) :=
  if from <=? length v then Some (skipn from v) else None.
Definition slice {T} (v : list T) (from to : nat) : option (list T) :=
  if (from <=? to) && (to <=? length v) then Some (firstn (to - from) (skipn from v)) else None.

(** witness.rs:83-85 *)
Definition use_simd (pack num : nat) : bool := (1 <? num) && (1 <? pack).

(** witness.rs:95-127: one step of the scalar iterator; the state is the buffer of the
    block being unpacked *)
Definition scalar_next (pack : nat) (w : witness) (index : nat) (buf : list (list F * list F)) :
    option ((list F * list F) * list (list F * list F)) :=
  let a := w_inputs w in let b := w_publics w in
  match w_values w with
  | Scalar v =>
      let* x := slice v (index * (a + b)) (index * (a + b) + a) in
      let* y := slice v (index * (a + b) + a) (index * (a + b) + a + b) in
      Some ((x, y), buf)
  | Simd v =>
      let* buf :=
        if index mod pack =? 0
        then let* s := slice_from v (index / pack * (a + b)) in unpack_block pack s a b
        else Some buf in
      let* r := aget buf (index mod pack) in
      let* buf := aset buf (index mod pack) ([], []) in
      Some (r, buf)
  end.
Fixpoint scalar_from (pack : nat) (w : witness) (index left : nat) (buf : list (list F * list F)) : option (list (list F * list F)) :=
  match left with
  | O => Some []
  | S m =>
      let* (r, buf) := scalar_next pack w index buf in
      let* l := scalar_from pack w (index + 1) m buf in
      Some (r :: l)
  end.
(** witness.rs:162-168 iter_scalar, collected *)
Definition iter_scalar (pack : nat) (w : witness) : option (list (list F * list F)) := scalar_from pack w 0 (w_num w) [].

(** witness.rs:129-159, 170-175 iter_simd, collected: indices with
    index * pack < num_witnesses *)
Definition simd_next (pack : nat) (w : witness) (index : nat) : option (list (list F) * list (list F)) :=
  let a := w_inputs w in let b := w_publics w in
  match w_values w with
  | Scalar v => let* s := slice_from v (index * pack * (a + b)) in pack_block pack s a b
  | Simd v =>
      let* x := slice v (index * (a + b)) (index * (a + b) + a) in
      let* y := slice v (index * (a + b) + a) (index * (a + b) + a + b) in
      Some (x, y)
  end.
Definition iter_simd (pack : nat) (w : witness) : option (list (list (list F) * list (list F))) :=
  omap (simd_next pack w) (filter (fun index => index * pack <? w_num w) (seq 0 (w_num w))).

(** witness.rs:177-194 *)
Definition convert_to_simd (pack : nat) (w : witness) : option witness :=
  match w_values w with
  | Simd _ => Some w
  | Scalar v =>
      let a := w_inputs w + w_publics w in
      let num_blocks := (w_num w + pack - 1) / pack in
      let* res := omap (fun i =>
        let* s := slice_from v (i * pack * a) in
        let* (x, _) := pack_block pack s a 0 in Some x) (seq 0 num_blocks) in
      Some {| w_num := w_num w; w_inputs := w_inputs w; w_publics := w_publics w; w_values := Simd (concat res) |}
  end.

(** witness.rs:247-294 to_simd for a vector type of [tpack] lanes; [same] says whether it
    is the configuration's own SIMD type *)
Definition to_simd (pack : nat) (same : bool) (tpack : nat) (w : witness) : option (list (list F) * list (list F)) :=
  let a := w_inputs w in let b := w_publics w in
  match w_values w with
  | Scalar v => pack_block tpack v a b
  | Simd v =>
      if same then
        let* x := slice v 0 a in let* y := slice v a (a + b) in Some (x, y)
      else
        let* l := iter_scalar pack w in
        pack_block tpack (flat_map (fun r => fst r ++ snd r) (firstn tpack l)) a b
  end.
End Packing.
Arguments values : clear implicits.
Arguments witness : clear implicits.

(** witness.rs:326-350; [None]: the scalar iterator panics *)
Definition ser_witness (c : field_format) (pack : nat) (w : witness Z) : option (list Z) :=
  let header := ser_usize (w_num w) ++ ser_usize (w_inputs w) ++ ser_usize (w_publics w) ++ ser_u256 (ff_modulus c) in
  match w_values w with
  | Scalar v => Some (header ++ flat_map (ser_field c) v)
  | Simd _ =>
      let* l := iter_scalar pack w in
      Some (header ++ flat_map (fun r => flat_map (ser_field c) (fst r) ++ flat_map (ser_field c) (snd r)) l)
  end.
(** witness.rs:296-324.  The number of values is computed in usize: an overflow is an
    error here (in a release build it wraps). *)
Definition de_witness (c : field_format) (pack : nat) (s : list Z) : option (witness Z * list Z) :=
  let* (n, s) := de_usize s in
  let* (a, s) := de_usize s in
  let* (b, s) := de_usize s in
  let* (modulus, s) := de_u256 s in
  if negb (modulus =? ff_modulus c)%Z then None else
  let* _ := guard (Z.of_nat (n * (a + b)) <? U64)%Z in
  let* (v, s) := de_times (n * (a + b)) (de_field c) s in
  let w := {| w_num := n; w_inputs := a; w_publics := b; w_values := Scalar v |} in
  if use_simd pack n then let* w := convert_to_simd pack w in Some (w, s) else Some (w, s).
