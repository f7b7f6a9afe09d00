(** Layered circuits of the compiler
    (compiler/expander_compiler/src/circuit/layered/mod.rs) and the flat circuits of the
    prover (prover/circuit/src).  An input of a gate is (layer, offset): for
    NormalInputType all layers are 0 and every segment has one input size, for
    CrossLayerInputType there may be several.  [None] is a panic; sizes do not overflow.
    The field is abstract; the value of a random coefficient and the function of a custom
    gate are parameters. *)
From Coq Require Import List Bool Arith NArith.
From Verif Require Import Base.Array Base.Field.
From Verif.Model Require Witness.
Import ListNotations.
Local Open Scope list_scope.

(** [l[from..to]], read and written *)
Definition slice {T} := @Witness.slice T.
Definition splice {T} (l : list T) (from : nat) (new : list T) : list T :=
  firstn from l ++ new ++ skipn (from + length new) l.

(** mod.rs:18-23 Coef *)
Inductive coef (V : Type) := Constant (c : V) | Random | PublicInput (id : nat).
Arguments Constant {V}. Arguments Random {V}. Arguments PublicInput {V}.
(** mod.rs:286-338 gates *)
Record gate_mul V := { m_in0 : nat * nat; m_in1 : nat * nat; m_out : nat; m_coef : coef V }.
Record gate_add V := { a_in : nat * nat; a_out : nat; a_coef : coef V }.
Record gate_const V := { k_out : nat; k_coef : coef V }.
Record gate_custom V := { u_type : nat; u_in : list (nat * nat); u_out : nat; u_coef : coef V }.
Arguments m_in0 {V}. Arguments m_in1 {V}. Arguments m_out {V}. Arguments m_coef {V}.
Arguments a_in {V}. Arguments a_out {V}. Arguments a_coef {V}. Arguments k_out {V}. Arguments k_coef {V}.
Arguments u_type {V}. Arguments u_in {V}. Arguments u_out {V}. Arguments u_coef {V}.
(** mod.rs:340-375 *)
Record allocation := { al_in : list nat; al_out : nat }.
Record segment V := {
  s_inputs : list nat; s_outputs : nat; s_children : list (nat * list allocation);
  s_muls : list (gate_mul V); s_adds : list (gate_add V); s_consts : list (gate_const V); s_customs : list (gate_custom V) }.
Arguments s_inputs {V}. Arguments s_outputs {V}. Arguments s_children {V}. Arguments s_muls {V}.
Arguments s_adds {V}. Arguments s_consts {V}. Arguments s_customs {V}.
Record circuit V := {
  c_publics : nat; c_actual_outputs : nat; c_zeroes : nat; c_segments : list (segment V); c_layers : list nat }.
Arguments c_publics {V}. Arguments c_actual_outputs {V}. Arguments c_zeroes {V}. Arguments c_segments {V}. Arguments c_layers {V}.

(** ** Validation.  Some true: Ok, Some false: Err *)
Definition check (a b : option bool) : option bool := match a with Some true => b | r => r end.
Fixpoint all {A} (f : A -> option bool) (l : list A) : option bool :=
  match l with [] => Some true | x :: r => check (f x) (all f r) end.
Definition ok (b : bool) : option bool := Some b.
(** [x == 0 || (x & (x - 1)) != 0] negated *)
Definition power_of_two (x : nat) : bool := negb ((x =? 0) || negb (Nat.land x (x - 1) =? 0)).

Section Eval.
Variable K : field.
Local Notation seg := (segment K).

(** mod.rs:396-429, 440-451, 469-481: one input of a gate; [get] of InputUsize unwraps *)
Definition check_layer (c : circuit K) (p : nat * nat) : option bool := ok (fst p <? length (c_layers c)).
Definition check_offset (s : seg) (p : nat * nat) : option bool := let* n := aget (s_inputs s) (fst p) in ok (snd p <? n).
(** mod.rs:380-537: one segment *)
Definition check_alloc (s sub : seg) (a : allocation) : option bool :=
  check (ok (length (al_in a) =? length (s_inputs sub)))
  (check (all (fun e : (nat * nat) * nat => let '((x, y), z) := e in
        let* _ := guard (negb (y =? 0)) in
        check (ok (x mod y =? 0)) (ok (x + y <=? z)))
      (combine (combine (al_in a) (s_inputs sub)) (s_inputs s)))
  (let* _ := guard (negb (s_outputs sub =? 0)) in
   check (ok (al_out a mod s_outputs sub =? 0)) (ok (al_out a + s_outputs sub <=? s_outputs s)))).
Definition check_segment (c : circuit K) (i : nat) (s : seg) : option bool :=
  check (all (fun x => ok (power_of_two x)) (s_inputs s))
  (check (ok (negb (length (s_inputs s) =? 0)))
  (check (ok (power_of_two (s_outputs s)))
  (check (all (fun m => check (check_layer c (m_in0 m)) (check (check_layer c (m_in1 m))
                        (check (check_offset s (m_in0 m)) (check (check_offset s (m_in1 m)) (ok (m_out m <? s_outputs s)))))) (s_muls s))
  (check (all (fun a => check (check_layer c (a_in a)) (check (check_offset s (a_in a)) (ok (a_out a <? s_outputs s)))) (s_adds s))
  (check (all (fun k => ok (k_out k <? s_outputs s)) (s_consts s))
  (check (all (fun u => check (all (fun p => check (check_layer c p) (check_offset s p)) (u_in u)) (ok (u_out u <? s_outputs s))) (s_customs s))
  (all (fun ch : nat * list allocation =>
      check (ok (fst ch <? i))
      (let* sub := aget (c_segments c) (fst ch) in
       check (ok (length (s_inputs sub) <=? length (s_inputs s))) (all (check_alloc s sub) (snd ch)))) (s_children s)))))))).

(** mod.rs:592-651 compute_masks *)
Definition set_in (mask : list (list bool)) (p : nat * nat) : option (list (list bool)) :=
  let* row := aget mask (fst p) in let* row := aset row (snd p) true in aset mask (fst p) row.
Definition or_in (mask : list bool) (i : nat) (b : bool) : option (list bool) := let* x := aget mask i in aset mask i (x || b).
Definition segment_masks (segs : list seg) (done : list (list (list bool) * list bool)) (s : seg) : option (list (list bool) * list bool) :=
  let st := (map (fun x => repeat false x) (s_inputs s), repeat false (s_outputs s)) in
  let* st := for_each (s_muls s) (fun m st => let* i := set_in (fst st) (m_in0 m) in let* i := set_in i (m_in1 m) in
                                              let* o := aset (snd st) (m_out m) true in Some (i, o)) st in
  let* st := for_each (s_adds s) (fun a st => let* i := set_in (fst st) (a_in a) in let* o := aset (snd st) (a_out a) true in Some (i, o)) st in
  let* st := for_each (s_consts s) (fun k st => let* o := aset (snd st) (k_out k) true in Some (fst st, o)) st in
  let* st := for_each (s_customs s) (fun u st => let* i := for_each (u_in u) (fun p i => set_in i p) (fst st) in
                                                 let* o := aset (snd st) (u_out u) true in Some (i, o)) st in
  for_each (s_children s) (fun (ch : nat * list allocation) st =>
    let* sub := aget segs (fst ch) in
    let* masks := aget done (fst ch) in
    for_each (snd ch) (fun a (st : list (list bool) * list bool) =>
      let* i := for_each (combine (seq 0 (length (al_in a))) (combine (al_in a) (s_inputs sub))) (fun (e : nat * (nat * nat)) inp =>
                  let (l, ol) := e in let (off, len) := ol in
                  for_each (seq 0 len) (fun j inp =>
                    let* src := aget (fst masks) l in let* b := aget src j in
                    let* row := aget inp l in let* row := or_in row (off + j) b in aset inp l row) inp) (fst st) in
      let* o := for_each (seq 0 (s_outputs sub)) (fun j o => let* b := aget (snd masks) j in or_in o (al_out a + j) b) (snd st) in
      Some (i, o)) st) st.
Definition compute_masks (segs : list seg) : option (list (list (list bool) * list bool)) :=
  for_each segs (fun s done => let* m := segment_masks segs done s in Some (done ++ [m])) [].

(** mod.rs:378-590 validate *)
Definition validate (c : circuit K) : option bool :=
  check (all (fun e => check_segment c (fst e) (snd e)) (combine (seq 0 (length (c_segments c))) (c_segments c)))
  (check (all (fun x => ok (x <? length (c_segments c))) (c_layers c))
  (check (ok (negb (length (c_layers c) =? 0)))
  (let* id0 := aget (c_layers c) 0 in let* s0 := aget (c_segments c) id0 in let* n0 := aget (s_inputs s0) 0 in
   let* outs := omap (fun l => option_map s_outputs (aget (c_segments c) l)) (c_layers c) in
   let layer_sizes := n0 :: outs in
   check (all (fun e : nat * nat =>
        let* cur := aget (c_segments c) (snd e) in
        check (ok (length (s_inputs cur) <=? fst e + 1))
        (all (fun jx : nat * nat => let* n := aget layer_sizes (fst e - fst jx) in ok (snd jx =? n))
             (combine (seq 0 (length (s_inputs cur))) (s_inputs cur))))
      (combine (seq 0 (length (c_layers c))) (c_layers c)))
   (let* masks := compute_masks (c_segments c) in
    all (fun i =>
      let* id := aget (c_layers c) i in let* s := aget (c_segments c) id in let* mask := aget masks id in
      all (fun e : nat * nat => let (l, len) := e in
        if i =? l then ok true else
        let* src := aget (c_layers c) (i - 1 - l) in let* out := aget masks src in
        all (fun j => let* row := aget (fst mask) l in let* b := aget row j in
             if b then let* o := aget (snd out) j in ok o else ok true) (seq 0 len))
      (combine (seq 0 (length (s_inputs s))) (s_inputs s))) (seq 1 (length (c_layers c) - 1)))))).

(** mod.rs:653-655 *)
Definition input_size (c : circuit K) : option nat :=
  let* id := aget (c_layers c) 0 in let* s := aget (c_segments c) id in aget (s_inputs s) 0.

(** ** Evaluation *)
Variables (rnd : K) (custom : nat -> list K -> option (list K)).
(** mod.rs:38-53 get_value_with_public_inputs *)
Definition coef_value (pub : list K) (k : coef K) : option K :=
  match k with Constant c => Some c | Random => Some rnd | PublicInput id => aget pub id end.
Definition input_at {V} (cur : list (list V)) (p : nat * nat) : option V := let* row := aget cur (fst p) in aget row (snd p).
Definition bump (nxt : list K) (o : nat) (v : K) : option (list K) := let* x := aget nxt o in aset nxt o (x + v)%K.

(** mod.rs:847-854: the slices of the parent's inputs *)
Definition child_inputs {V} (a : allocation) (sub : seg) (cur : list (list V)) : option (list (list V)) :=
  omap (fun e : nat * (nat * nat) => let (l, ol) := e in let (off, len) := ol in
          let* row := aget cur l in slice row off (off + len))
       (combine (seq 0 (length (al_in a))) (combine (al_in a) (s_inputs sub))).

(** mod.rs:814-865 apply_segment_with_public_inputs; running out of fuel is unbounded
    recursion *)
Fixpoint apply_segment (fuel : nat) (segs : list seg) (pub : list K) (s : seg) (cur : list (list K)) (nxt : list K) : option (list K) :=
  match fuel with
  | O => None
  | S fuel =>
    let* nxt := for_each (s_muls s) (fun m nxt =>
        let* x := input_at cur (m_in0 m) in let* y := input_at cur (m_in1 m) in let* k := coef_value pub (m_coef m) in
        bump nxt (m_out m) (x * y * k)%K) nxt in
    let* nxt := for_each (s_adds s) (fun a nxt =>
        let* x := input_at cur (a_in a) in let* k := coef_value pub (a_coef a) in bump nxt (a_out a) (x * k)%K) nxt in
    let* nxt := for_each (s_consts s) (fun g nxt => let* k := coef_value pub (k_coef g) in bump nxt (k_out g) k) nxt in
    let* nxt := for_each (s_customs s) (fun u nxt =>
        let* ins := omap (input_at cur) (u_in u) in
        let* outs := custom (u_type u) ins in
        for_each (combine (seq 0 (length outs)) outs) (fun (e : nat * K) nxt =>
          let* k := coef_value pub (u_coef u) in bump nxt (u_out u + fst e) (snd e * k)%K) nxt) nxt in
    for_each (s_children s) (fun (ch : nat * list allocation) nxt =>
      let* sub := aget segs (fst ch) in
      for_each (snd ch) (fun a nxt =>
        let* ins := child_inputs a sub cur in
        let* out := slice nxt (al_out a) (al_out a + s_outputs sub) in
        let* out := apply_segment fuel segs pub sub ins out in
        Some (splice nxt (al_out a) out)) nxt) nxt
  end.

(** mod.rs:742-761 (and 790-810): the values of all layers; [inputs.push(&cur[cur.len() - i - 1])] *)
Definition layer_inputs {V} (s : seg) (cur : list (list V)) : option (list (list V)) :=
  omap (fun i => let* _ := guard (i + 1 <=? length cur) in aget cur (length cur - i - 1)) (seq 0 (length (s_inputs s))).
Definition eval_layers (c : circuit K) (inputs pub : list K) : option (list (list K)) :=
  let* n := input_size c in
  let* _ := guard (length inputs =? n) in
  for_each (c_layers c) (fun id cur =>
    let* s := aget (c_segments c) id in
    let* ins := layer_inputs s cur in
    let* next := apply_segment (S (length (c_segments c))) (c_segments c) pub s ins (repeat f0 (s_outputs s)) in
    Some (cur ++ [next])) [inputs].
Definition is_zero (x : K) : bool := feqb x f0.
(** mod.rs:737-775 eval_with_public_inputs *)
Definition eval_with_public_inputs (c : circuit K) (inputs pub : list K) : option (list K * bool) :=
  let* all := eval_layers c inputs pub in
  let* cur := aget all (length all - 1) in
  let satisfied := forallb is_zero (firstn (c_zeroes c) cur) in
  let* out := slice cur (c_zeroes c) (c_actual_outputs c) in
  Some (out, satisfied).
(** mod.rs:777-812 eval_constraint_values *)
Definition eval_constraint_values (c : circuit K) (inputs pub : list K) : option (list K) :=
  let* all := eval_layers c inputs pub in
  let* cur := aget all (length all - 1) in
  slice cur 0 (c_zeroes c).

(** ** SIMD evaluation: a vector is the list of its [pack] lanes *)
Variable pack : nat.
Definition vzero : list K := repeat f0 pack.
Definition vmap2 (f : K -> K -> K) (a b : list K) : list K := map (fun p => f (fst p) (snd p)) (combine a b).
Definition vadd := vmap2 fadd.
Definition vmul := vmap2 fmul.
(** mod.rs:55-70; SF::one().scale(c) *)
Definition coef_value_simd (rnds : list K) (pub : list (list K)) (k : coef K) : option (list K) :=
  match k with Constant c => Some (map (fun x => x * c)%K (repeat f1 pack)) | Random => Some rnds | PublicInput id => aget pub id end.
Definition bump_simd (nxt : list (list K)) (o : nat) (v : list K) : option (list (list K)) := let* x := aget nxt o in aset nxt o (vadd x v).

(** mod.rs:911-965 apply_segment_with_public_inputs_simd *)
Fixpoint apply_segment_simd (rnds : list K) (fuel : nat) (segs : list seg) (pub : list (list K)) (s : seg) (cur : list (list (list K))) (nxt : list (list K))
    : option (list (list K)) :=
  match fuel with
  | O => None
  | S fuel =>
    let* nxt := for_each (s_muls s) (fun m nxt =>
        let* x := input_at cur (m_in0 m) in let* y := input_at cur (m_in1 m) in let* k := coef_value_simd rnds pub (m_coef m) in
        bump_simd nxt (m_out m) (vmul (vmul x y) k)) nxt in
    let* nxt := for_each (s_adds s) (fun a nxt =>
        let* x := input_at cur (a_in a) in let* k := coef_value_simd rnds pub (a_coef a) in bump_simd nxt (a_out a) (vmul x k)) nxt in
    let* nxt := for_each (s_consts s) (fun g nxt => let* k := coef_value_simd rnds pub (k_coef g) in bump_simd nxt (k_out g) k) nxt in
    let* nxt := for_each (s_customs s) (fun u nxt =>
        let* ins := omap (fun i => omap (fun p => let* v := input_at cur p in aget v i) (u_in u)) (seq 0 pack) in
        let* outs := omap (custom (u_type u)) ins in
        let* first := aget outs 0 in
        for_each (seq 0 (length first)) (fun i nxt =>
          let* output := omap (fun x => aget x i) outs in
          let* k := coef_value_simd rnds pub (u_coef u) in
          bump_simd nxt (u_out u + i) (vmul output k)) nxt) nxt in
    for_each (s_children s) (fun (ch : nat * list allocation) nxt =>
      let* sub := aget segs (fst ch) in
      for_each (snd ch) (fun a nxt =>
        let* ins := child_inputs a sub cur in
        let* out := slice nxt (al_out a) (al_out a + s_outputs sub) in
        let* out := apply_segment_simd rnds fuel segs pub sub ins out in
        Some (splice nxt (al_out a) out)) nxt) nxt
  end.

(** mod.rs:867-909 eval_with_public_inputs_simd *)
Definition eval_simd (rnds : list K) (c : circuit K) (inputs pub : list (list K)) : option (list (list K) * list bool) :=
  let* n := input_size c in
  let* _ := guard (length inputs =? n) in
  let* all := for_each (c_layers c) (fun id cur =>
    let* s := aget (c_segments c) id in
    let* ins := layer_inputs s cur in
    let* next := apply_segment_simd rnds (S (length (c_segments c))) (c_segments c) pub s ins (repeat vzero (s_outputs s)) in
    Some (cur ++ [next])) [inputs] in
  let* cur := aget all (length all - 1) in
  let* satisfied := for_each (firstn (c_zeroes c) cur) (fun out flags =>
      for_each (seq 0 pack) (fun i flags => let* x := aget out i in if is_zero x then Some flags else aset flags i false) flags)
    (repeat true pack) in
  let* out := slice cur (c_zeroes c) (c_actual_outputs c) in
  Some (out, satisfied).

(** ** The prover's circuits *)
(** prover/circuit/src/layered/gates.rs:6-42 *)
Inductive coef_type := TConstant | TRandom | TPublicInput (id : nat).
Record pgate := { pg_in : list nat; pg_out : nat; pg_coef : K; pg_ctype : coef_type; pg_type : nat }.
(** prover/circuit/src/ecc_circuit.rs:9-23, 70-77 *)
Record psegment := {
  ps_ivars : nat; ps_ovars : nat; ps_children : list (nat * list (nat * nat));
  ps_muls : list pgate; ps_adds : list pgate; ps_consts : list pgate; ps_uni : list pgate }.
Record recursive_circuit := { rc_zeros : nat; rc_segments : list psegment; rc_layers : list nat }.
(** prover/circuit/src/layered/circuit.rs:15-30, 132-139; input_vals are passed along *)
Record player := { pl_ivars : nat; pl_ovars : nat; pl_mul : list pgate; pl_add : list pgate; pl_const : list pgate; pl_uni : list pgate }.
Record pcircuit := { pc_layers : list player; pc_zeros : nat }.

(** usize::trailing_zeros *)
Fixpoint tz (p : positive) : nat := match p with xO q => S (tz q) | _ => 0 end.
Definition trailing_zeros (n : nat) : nat := match N.of_nat n with N0 => 64 | Npos p => tz p end.

(** mod.rs:119-131, 203-222 *)
Definition export_coef (k : coef K) : K * coef_type :=
  match k with Constant c => (c, TConstant) | Random => (f0, TRandom) | PublicInput id => (f0, TPublicInput id) end.
Definition export_gate (ins : list (nat * nat)) (out : nat) (k : coef K) (gtype : nat) : pgate :=
  {| pg_in := map snd ins; pg_out := out; pg_coef := fst (export_coef k); pg_ctype := snd (export_coef k); pg_type := gtype |}.
(** compiler/expander_compiler/src/circuit/layered/export.rs:5-66 export_to_expander *)
Definition export_segment (s : seg) : option psegment :=
  let* n := aget (s_inputs s) 0 in
  let* uni := omap (fun u => let* p := aget (u_in u) 0 in Some (export_gate [p] (u_out u) (u_coef u) (u_type u))) (s_customs s) in
  let* children := omap (fun ch : nat * list allocation =>
      let* als := omap (fun a => let* i := aget (al_in a) 0 in Some (i, al_out a)) (snd ch) in Some (fst ch, als)) (s_children s) in
  Some {| ps_ivars := trailing_zeros n; ps_ovars := trailing_zeros (s_outputs s); ps_children := children;
     ps_muls := map (fun m => export_gate [m_in0 m; m_in1 m] (m_out m) (m_coef m) 0) (s_muls s);
     ps_adds := map (fun a => export_gate [a_in a] (a_out a) (a_coef a) 1) (s_adds s);
     ps_consts := map (fun k => export_gate [] (k_out k) (k_coef k) 2) (s_consts s);
     ps_uni := uni |}.
Definition export_to_expander (c : circuit K) : option recursive_circuit :=
  let* segs := omap export_segment (c_segments c) in
  Some {| rc_zeros := c_zeroes c; rc_segments := segs; rc_layers := c_layers c |}.

(** HashMap<SegmentId, Vec<Allocation>> as an association list; [order] gives the order
    in which a map is iterated, which may differ from map to map: the first argument
    identifies the map *)
Definition leaves := list (nat * list (nat * nat)).
Variable order : list nat -> leaves -> leaves.
Fixpoint push_entry (m : leaves) (id : nat) (als : list (nat * nat)) : leaves :=
  match m with
  | [] => [(id, als)]
  | (k, l) :: r => if k =? id then (k, l ++ als) :: r else (k, l) :: push_entry r id als
  end.
(** ecc_circuit.rs:26-32 *)
Definition empty {A} (l : list A) : bool := match l with [] => true | _ => false end.
Definition contain_gates (s : psegment) : bool :=
  negb (empty (ps_muls s)) || negb (empty (ps_adds s)) || negb (empty (ps_consts s)) || negb (empty (ps_uni s)).
(** ecc_circuit.rs:35-66 scan_leaf_segments *)
Fixpoint scan_leaf_segments (fuel : nat) (segs : list psegment) (site : list nat) (s : psegment) (cur_id : nat) : option leaves :=
  match fuel with
  | O => None
  | S fuel =>
    let ret := if contain_gates s then [(cur_id, [(0, 0)])] else [] in
    for_each (combine (seq 0 (length (ps_children s))) (ps_children s)) (fun (e : nat * (nat * list (nat * nat))) ret =>
      let (n, ch) := e in
      let (child_id, child_allocs) := ch in
      let* child := aget segs child_id in
      let* lv := scan_leaf_segments fuel segs (n :: site) child child_id in
      Some (fold_left (fun ret (leaf : nat * list (nat * nat)) =>
          push_entry ret (fst leaf)
            (flat_map (fun ca => map (fun la => (fst ca + fst la, snd ca + snd la)) (snd leaf)) child_allocs))
        (order (n :: site) lv) ret)) ret
  end.
(** ecc_circuit.rs:96-122: a gate moved by the offsets of its segment *)
Definition move_gate (a : nat * nat) (g : pgate) : pgate :=
  {| pg_in := map (fun i => i + fst a) (pg_in g); pg_out := pg_out g + snd a; pg_coef := pg_coef g; pg_ctype := pg_ctype g; pg_type := pg_type g |}.
(** ecc_circuit.rs:80-146 flatten *)
Definition flatten_layer (segs : list psegment) (n id : nat) : option player :=
  let* s := aget segs id in
  let* lv := scan_leaf_segments (S (length segs)) segs [n] s id in
  let* moved := omap (fun leaf : nat * list (nat * nat) => let* sg := aget segs (fst leaf) in Some (map (pair sg) (snd leaf))) (order [n] lv) in
  let places := concat moved in
  let gates (f : psegment -> list pgate) := flat_map (fun p : psegment * (nat * nat) => map (move_gate (snd p)) (f (fst p))) places in
  Some {| pl_ivars := Nat.max (ps_ivars s) 1; pl_ovars := Nat.max (ps_ovars s) 1;
          pl_mul := gates ps_muls; pl_add := gates ps_adds; pl_const := gates ps_consts; pl_uni := gates ps_uni |}.
Definition flatten (rc : recursive_circuit) : option pcircuit :=
  let* ls := omap (fun e => flatten_layer (rc_segments rc) (fst e) (snd e)) (combine (seq 0 (length (rc_layers rc))) (rc_layers rc)) in
  Some {| pc_layers := ls; pc_zeros := rc_zeros rc |}.
(** prover/circuit/src/layered/circuit.rs:393-420 add_input_relay_layer *)
Definition relay_layer (ivars : nat) : player :=
  {| pl_ivars := ivars; pl_ovars := ivars; pl_mul := [];
     pl_add := map (fun i => {| pg_in := [i]; pg_out := i; pg_coef := f1; pg_ctype := TConstant; pg_type := 0 |}) (seq 0 (2 ^ ivars));
     pl_const := []; pl_uni := [] |}.
(** circuit.rs:341-348 pre_process_gkr; skip_sumcheck_phase_two is [mul.is_empty()] *)
Definition pre_process_gkr (c : pcircuit) : option pcircuit :=
  let* l0 := aget (pc_layers c) 0 in
  if empty (pl_mul l0) then Some c else Some {| pc_layers := relay_layer (pl_ivars l0) :: pc_layers c; pc_zeros := pc_zeros c |}.
(** export.rs:68-75 *)
Definition export_to_expander_flatten (c : circuit K) : option pcircuit :=
  let* rc := export_to_expander c in let* f := flatten rc in pre_process_gkr f.

(** circuit.rs:83-124, 350-371 identify_rnd_coefs and fill_rnd_coefs: the values drawn from
    the transcript go to the gates with random coefficients in the order of the layers,
    of the kinds of gates and of the gates *)
Fixpoint fill_gates (gs : list pgate) (vals : list K) : list pgate * list K :=
  match gs with
  | [] => ([], vals)
  | g :: r =>
    match pg_ctype g, vals with
    | TRandom, v :: vs => let (r', rest) := fill_gates r vs in
        ({| pg_in := pg_in g; pg_out := pg_out g; pg_coef := v; pg_ctype := pg_ctype g; pg_type := pg_type g |} :: r', rest)
    | _, _ => let (r', rest) := fill_gates r vals in (g :: r', rest)
    end
  end.
Definition fill_layer (l : player) (vals : list K) : player * list K :=
  let (m, vals) := fill_gates (pl_mul l) vals in let (a, vals) := fill_gates (pl_add l) vals in
  let (k, vals) := fill_gates (pl_const l) vals in let (u, vals) := fill_gates (pl_uni l) vals in
  ({| pl_ivars := pl_ivars l; pl_ovars := pl_ovars l; pl_mul := m; pl_add := a; pl_const := k; pl_uni := u |}, vals).
Fixpoint fill_layers (ls : list player) (vals : list K) : list player :=
  match ls with [] => [] | l :: r => let (l', rest) := fill_layer l vals in l' :: fill_layers r rest end.
Definition fill_rnd_coefs (c : pcircuit) (vals : list K) : pcircuit := {| pc_layers := fill_layers (pc_layers c) vals; pc_zeros := pc_zeros c |}.

(** circuit.rs:34-84 CircuitLayer::evaluate.  Values are scalars: one lane. *)
Definition eval_layer (l : player) (vals pub : list K) : option (list K) :=
  let res := repeat f0 (2 ^ pl_ovars l) in
  let* res := for_each (pl_mul l) (fun g res =>
      let* i0 := aget (pg_in g) 0 in let* x := aget vals i0 in
      let* i1 := aget (pg_in g) 1 in let* y := aget vals i1 in bump res (pg_out g) (x * y * pg_coef g)%K) res in
  let* res := for_each (pl_add l) (fun g res =>
      let* i0 := aget (pg_in g) 0 in let* x := aget vals i0 in bump res (pg_out g) (x * pg_coef g)%K) res in
  let* res := for_each (pl_const l) (fun g res =>
      let* k := match pg_ctype g with TPublicInput id => aget pub id | _ => Some (pg_coef g) end in bump res (pg_out g) k) res in
  for_each (pl_uni l) (fun g res =>
      let* i0 := aget (pg_in g) 0 in let* x := aget vals i0 in
      let* v := (if (N.of_nat (pg_type g) =? 12345)%N then let x2 := (x * x)%K in let x4 := (x2 * x2)%K in Some (x4 * x)%K
                 else if (N.of_nat (pg_type g) =? 12346)%N then Some x else None) in
      bump res (pg_out g) (v * pg_coef g)%K) res.
(** circuit.rs:311-339 Circuit::evaluate: the output of the last layer *)
Definition evaluate (c : pcircuit) (inputs pub : list K) : option (list K) :=
  let* _ := guard (negb (empty (pc_layers c))) in
  for_each (pc_layers c) (fun l vals => eval_layer l vals pub) inputs.
End Eval.
