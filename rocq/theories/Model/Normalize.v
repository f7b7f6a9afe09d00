(** Model of the first pass of the circuit compiler, which replaces the rich
    source instructions (division, boolean operations, is-zero, bit
    decomposition, unconstrained operations) by hints and arithmetic plus
    constraints: compiler/expander_compiler/src/builder/basic.rs and
    builder/hint_normalize.rs.
    Maps are association lists; the constraint map has one constraint type in
    this instantiation ([RawConstraint], type unit).  [None] is a panic or an
    [Err]: in both cases no circuit is produced.
    [un_eval] is UnconstrainedBinOpType::eval (source/mod.rs:405-480), used to
    fold operations on two constants; a parameter. *)
From Coq Require Import List Bool Arith.
Import ListNotations.
From Verif Require Import Base.Array Base.Field Model.Expr Model.Ir Model.Containers.
From Verif Require Model.Layered.

Section Normalize.
Variable K : field.
Variable kcmp : K -> K -> comparison.
Variable un_eval : un_op -> K -> K -> option K.
Local Open Scope fld_scope.
Notation expr := (Expr.expr K).
Notation term := (Expr.term K).
Notation epool := (pool expr).

(** field.rs:9-17 optimistic_inv *)
Definition kinv (x : K) : option K := if feqb x 0 then None else Some (finv x).

(** pool.rs add on expressions *)
Definition padd (p : epool) (e : expr) : epool * nat := pool_add _ expr_eqb p e.

(** basic.rs:423-444 strip_constants *)
Definition is_const_term (t : term) : bool := match t_vars t with VConst => true | _ => false end.
Definition strip_constants (e : expr) : option (expr * K * K) :=
  let body := filter (fun t => negb (is_const_term t)) e in
  let cst := fold_left (fun c t => if is_const_term t then t_coef t else c) e 0 in
  match body with
  | [] => Some (e_default, 0, cst)
  | t :: _ =>
    let v := t_coef t in
    let* vi := kinv v in
    let* e' := e_from_terms_sorted (map (fun t => mkTerm (t_coef t * vi) (t_vars t)) body) in
    Some (e', v, cst)
  end.
(** basic.rs:446-457 unstrip_constants_single *)
Definition unstrip_single (vid : nat) (coef cst : K) : option expr :=
  let* _ := guard (negb (vid =? 0)) in
  Some (e_from_terms kcmp (t_linear coef vid :: (if feqb cst 0 then [] else [t_const cst]))).
(** basic.rs:380-387 to_single *)
Definition to_single (p : epool) (e : expr) : option (epool * expr) :=
  let* s := strip_constants e in
  let '(b, coef, cst) := s in
  let* d := e_degree b in
  if (length b =? 1) && (d <=? 1) then Some (p, e)
  else
    let '(p', idx) := padd p b in
    let* r := unstrip_single idx coef cst in
    Some (p', r).
(** basic.rs:389-399 to_single_stripped *)
Definition to_single_stripped (p : epool) (e : expr) : option (epool * (nat * K * K)) :=
  let* s := strip_constants e in
  let '(b, coef, cst) := s in
  let* d := e_degree b in
  if d =? 0 then Some (p, (0%nat, coef, cst))
  else let '(p', idx) := padd p b in Some (p', (idx, coef, cst)).
(** basic.rs:401-410 to_really_single; the returned expression is not used by
    this pass *)
Definition to_really_single (p : epool) (e : expr) : option (epool * expr) :=
  let* d := e_degree e in
  match e with
  | [t] => if (d =? 1) && feqb (t_coef t) 1 then Some (p, e)
           else let '(p', idx) := padd p e in Some (p', e_linear 1 idx)
  | _ => let '(p', idx) := padd p e in Some (p', e_linear 1 idx)
  end.

(** basic.rs:459-460 *)
Definition COMPRESS_THRESHOLD_ADD := 10.
Definition COMPRESS_THRESHOLD_MUL := 40.

(** basic.rs:496-526: the k-way merge.  The heap (473-495, [LinMeta], ordered by
    [vars] alone, reversed) holds the current term of every list; its maximum is
    the term with the smallest [vars].  Simplification: the heap is replaced by
    the list of the remaining terms of each list, from which the leftmost
    minimal one is taken; which of several equal ones is taken first does not
    matter to the sum. *)
Fixpoint pop_min (ls : list (list term * K)) : option (term * K * list (list term * K)) :=
  match ls with
  | [] => None
  | ([], _) :: r => pop_min r
  | (t :: ts, c) :: r =>
    match pop_min r with
    | None => Some (t, c, [(ts, c)])
    | Some (u, d, r') =>
      match vs_cmp (t_vars u) (t_vars t) with
      | Lt => Some (u, d, (t :: ts, c) :: r')
      | _ => Some (t, c, (ts, c) :: r)
      end
    end
  end.
(** basic.rs:512-525: one term of the merge is added to the result, kept here
    last element first *)
Definition merge_step (t : term) (c : K) (acc : list term) : list term :=
  let nc := t_coef t * c in
  if feqb nc 0 then acc
  else match acc with
       | u :: r =>
         if vs_eqb (t_vars u) (t_vars t) then
           let s := t_coef u + nc in
           if feqb s 0 then r else mkTerm s (t_vars u) :: r
         else mkTerm nc (t_vars t) :: acc
       | [] => [mkTerm nc (t_vars t)]
       end.
Fixpoint merge_loop (fuel : nat) (ls : list (list term * K)) (acc : list term) : list term :=
  match fuel with
  | O => acc
  | S fuel =>
    match pop_min ls with
    | None => acc
    | Some (t, c, ls') => merge_loop fuel ls' (merge_step t c acc)
    end
  end.
Definition total_terms (ls : list (list term * K)) : nat := (fold_right (fun l n => length (fst l) + n) 0 ls)%nat.

(** basic.rs:475-495: the lists entered in the heap; [v[0]] panics on an empty
    expression *)
Definition heads (vs : list (expr * K)) (p : epool) : option (epool * list (list term * K)) :=
  for_each vs (fun vc st =>
    let '(v, c) := vc in
    let '(p, ls) := st in
    if feqb c 0 then Some st
    else if COMPRESS_THRESHOLD_ADD <? length v then
      let* r := to_single p v in
      let '(p', nv) := r in
      let* _ := guard (negb (length nv =? 0)) in
      Some (p', ls ++ [(nv, c)])
    else
      let* _ := guard (negb (length v =? 0)) in
      Some (p, ls ++ [(v, c)])) (p, []).
(** basic.rs:462-532 lin_comb_inner *)
Definition lin_comb_inner (vs : list (expr * K)) (p : epool) : option (epool * expr) :=
  match vs with
  | [] => Some (p, e_default)
  | [(v, c)] => let* e := e_mul_constant v c in Some (p, e)
  | _ =>
    let* h := heads vs p in
    let '(p', ls) := h in
    let res := rev (merge_loop (total_terms ls) ls []) in
    match res with
    | [] => Some (p', e_default)
    | _ => let* e := e_from_terms_sorted res in Some (p', e)
    end
  end.

(** basic.rs:534-587 mul_two_expr *)
Definition mul_two_expr (a b : expr) (p : epool) : option (epool * expr) :=
  let* a_deg := e_degree a in
  let* b_deg := e_degree b in
  if a_deg =? 0 then
    let* c := e_constant_value a in
    let* r := e_mul_constant b c in Some (p, r)
  else if b_deg =? 0 then
    let* c := e_constant_value b in
    let* r := e_mul_constant a c in Some (p, r)
  else
    let* s1 := (if a_deg =? 2 then to_single p a else Some (p, a)) in
    let '(p, v1) := s1 in
    let* s2 := (if b_deg =? 2 then to_single p b else Some (p, b)) in
    let '(p, v2) := s2 in
    let '(v1, v2) := if length v2 <? length v1 then (v2, v1) else (v1, v2) in
    let* s3 :=
      (if COMPRESS_THRESHOLD_MUL <? length v1 then
         let* t1 := to_single p v1 in
         let '(p, v1) := t1 in
         let* t2 := to_single p v2 in
         let '(p, v2) := t2 in Some (p, v1, v2)
       else if COMPRESS_THRESHOLD_MUL <? (length v1 * length v2)%nat then
         let* t2 := to_single p v2 in
         let '(p, v2) := t2 in Some (p, v1, v2)
       else Some (p, v1, v2)) in
    let '(p, v1, v2) := s3 in
    let* vars := omap (fun x1 => let* ts := omap (t_mul x1) v2 in Some (e_from_terms kcmp ts, 1)) v1 in
    lin_comb_inner vars p.

(** ** The builder *)
(** basic.rs:65-76 OutVarRef and ConstraintStatus *)
Record out_ref := mkRef { r_x : nat; r_k : K; r_b : K }.
Inductive status := Marked | Asserted.
(** basic.rs:34-63 Builder *)
Record builder := mkB {
  b_cons : list (expr * status);
  b_oexprs : list expr;
  b_mids : epool;
  b_mid_to_out : list (option out_ref);
  b_expr_to_out : list (expr * nat);
  b_in_to_out : list nat;
  b_insns : list (hn_insn K) }.

(** basic.rs:136-151 new *)
Definition builder_new : builder :=
  {| b_cons := []; b_oexprs := [e_default]; b_mids := fst (padd pool_new e_invalid);
     b_mid_to_out := [None]; b_expr_to_out := []; b_in_to_out := [0%nat]; b_insns := [] |}.

Definition with_mids (b : builder) (p : epool) : builder :=
  mkB (b_cons b) (b_oexprs b) p (b_mid_to_out b) (b_expr_to_out b) (b_in_to_out b) (b_insns b).
Definition with_oexpr (b : builder) (e : expr) : builder :=
  mkB (b_cons b) (b_oexprs b ++ [e]) (b_mids b) (b_mid_to_out b) (b_expr_to_out b) (b_in_to_out b) (b_insns b).
Definition with_insns (b : builder) (l : list (hn_insn K)) : builder :=
  mkB (b_cons b) (b_oexprs b) (b_mids b) (b_mid_to_out b) (b_expr_to_out b) (b_in_to_out b) l.
Definition with_ins (b : builder) (l : list nat) : builder :=
  mkB (b_cons b) (b_oexprs b) (b_mids b) (b_mid_to_out b) (b_expr_to_out b) (b_in_to_out b ++ l) (b_insns b).
Definition with_cons (b : builder) (l : list (expr * status)) : builder :=
  mkB l (b_oexprs b) (b_mids b) (b_mid_to_out b) (b_expr_to_out b) (b_in_to_out b) (b_insns b).

(** basic.rs:153-155 constant_value *)
Definition constant_value (b : builder) (x : nat) : option (option K) :=
  let* e := nth_error (b_oexprs b) x in Some (e_constant_value e).

(** [*self.out_insns.last_mut().unwrap() = i] *)
Definition replace_last (l : list (hn_insn K)) (i : hn_insn K) : option (list (hn_insn K)) :=
  match l with [] => None | _ => Some (removelast l ++ [i]) end.
(** basic.rs:255-290 fix_mid_to_out: one iteration; the boolean says that the
    function returns (271) *)
Definition fix_one (n i : nat) (b : builder) : option (builder * bool) :=
  let* _ := guard (i <=? length (b_oexprs b)) in
  let id := (length (b_oexprs b) - i)%nat in
  let* e := nth_error (b_oexprs b) id in
  let* s := to_single_stripped (b_mids b) e in
  let '(p, (eid, coef, cst)) := s in
  let m2o := b_mid_to_out b ++ repeat None (pool_len _ p - length (b_mid_to_out b)) in
  let b := mkB (b_cons b) (b_oexprs b) p m2o ((e, id) :: b_expr_to_out b) (b_in_to_out b) (b_insns b) in
  if eid =? 0 then
    let* _ := guard ((n =? 1) && feqb coef 0) in
    let* l := replace_last (b_insns b) (NPlain (HLin (lc_kx_plus_b 0 0 cst))) in
    Some (with_insns b l, true)
  else
    let* slot := nth_error m2o eid in
    match slot with
    | Some r =>
      let* _ := guard (n =? 1) in
      let* l := replace_last (b_insns b)
                  (NPlain (HLin (lc_kx_plus_b (r_x r) (r_k r * coef) (r_b r * coef + cst)))) in
      Some (with_insns b l, false)
    | None =>
      let* ci := kinv coef in
      let* m2o := aset m2o eid (Some (mkRef id ci (- ci * cst))) in
      Some (mkB (b_cons b) (b_oexprs b) (b_mids b) m2o (b_expr_to_out b) (b_in_to_out b) (b_insns b), false)
    end.
Fixpoint fix_loop (n : nat) (is : list nat) (b : builder) : option builder :=
  match is with
  | [] => Some b
  | i :: r => let* s := fix_one n i b in let '(b, stop) := s in if stop then Some b else fix_loop n r b
  end.
Definition fix_mid_to_out (n : nat) (b : builder) : option builder := fix_loop n (seq 1 n) b.

(** basic.rs:157-175 new_var and add_out_vars *)
Definition new_out_var (start : nat) (i : nat) (b : builder) : option builder :=
  let id := pool_len _ (b_mids b) in
  let '(p, idx) := padd (b_mids b) (e_linear 1 id) in
  let* _ := guard (idx =? id) in
  Some (with_oexpr (with_mids b p) (e_linear 1 (start + i)%nat)).
Definition add_out_vars (n : nat) (b : builder) : option builder :=
  let* b := for_each (seq 0 n) (new_out_var (pool_len _ (b_mids b))) b in
  fix_mid_to_out n b.

(** basic.rs:177-200 add_lin_comb *)
Definition add_lin_comb (lc : lin_comb K) (b : builder) : option builder :=
  let* vs := omap (fun t : nat * K => let* e := nth_error (b_oexprs b) (fst t) in Some (e, snd t)) (lc_terms lc) in
  let vs := vs ++ (if feqb (lc_const lc) 0 then [] else [(e_const (lc_const lc), 1)]) in
  let* r := lin_comb_inner vs (b_mids b) in
  let '(p, e) := r in
  fix_mid_to_out 1 (with_oexpr (with_mids b p) e).

(** basic.rs:202-215 add_mul_vec *)
Definition add_mul_vec (xs : list nat) (b : builder) : option builder :=
  let* _ := guard (2 <=? length xs) in
  let* es := omap (nth_error (b_oexprs b)) xs in
  match sort_by (expr_cmp kcmp) es with
  | e0 :: e1 :: r =>
    let* s := mul_two_expr e0 e1 (b_mids b) in
    let* s := for_each r (fun e s => let '(p, cur) := s in mul_two_expr cur e p) s in
    let '(p, cur) := s in
    fix_mid_to_out 1 (with_oexpr (with_mids b p) cur)
  | _ => None
  end.

(** basic.rs:217-220 add_const *)
Definition add_const (c : K) (b : builder) : option builder := fix_mid_to_out 1 (with_oexpr b (e_const c)).

(** basic.rs:292-306 sub_circuit_call *)
Definition sub_circuit_call (ins : list nat) (n : nat) (b : builder) : option builder :=
  let* b := for_each ins (fun i b =>
    let* e := nth_error (b_oexprs b) i in
    let* r := to_really_single (b_mids b) e in Some (with_mids b (fst r))) b in
  add_out_vars n b.

(** hint_normalize.rs:330-369 execute_out *)
Definition execute_out (i : hn_insn K) (b : builder) : option builder :=
  match i with
  | NPlain (HLin lc) => add_lin_comb lc b
  | NPlain (HMul xs) => add_mul_vec xs b
  | NHint _ _ n => add_out_vars n b
  | NPlain (HConst (Layered.Constant c)) => add_const c b
  | NPlain (HConst _) => add_out_vars 1 b
  | NPlain (HCall _ ins n) => sub_circuit_call ins n b
  | NPlain (HCustom _ _) => add_out_vars 1 b
  end.
(** basic.rs:314-330 push_insn_with_root (without its result) *)
Definition push (i : hn_insn K) (b : builder) : option builder :=
  execute_out i (with_insns b (b_insns b ++ [i])).
(** basic.rs:331-333 push_insn: the id of the single output; always used with an
    instruction that has one output *)
Definition push1 (i : hn_insn K) (b : builder) : option (builder * nat) :=
  let* b := push i b in Some (b, (length (b_oexprs b) - 1)%nat).
(** basic.rs:334-343 push_insn_multi_out *)
Definition push_multi (i : hn_insn K) (b : builder) : option (builder * list nat) :=
  let* b := push i b in
  Some (b, seq (length (b_oexprs b) - hn_outputs i) (hn_outputs i)).

(** basic.rs:222-233 assert: an existing entry is kept; 235-245 mark: an existing
    entry is replaced *)
Fixpoint con_find (e : expr) (l : list (expr * status)) : option status :=
  match l with [] => None | (k, s) :: r => if expr_eqb k e then Some s else con_find e r end.
Fixpoint con_set (e : expr) (s : status) (l : list (expr * status)) : list (expr * status) :=
  match l with
  | [] => [(e, s)]
  | (k, t) :: r => if expr_eqb k e then (k, s) :: r else (k, t) :: con_set e s r
  end.
Definition assert_zero (x : nat) (b : builder) : option builder :=
  let* e := nth_error (b_oexprs b) x in
  match con_find e (b_cons b) with
  | Some _ => Some b
  | None => Some (with_cons b (con_set e Asserted (b_cons b)))
  end.
Definition mark_zero (x : nat) (b : builder) : option builder :=
  let* e := nth_error (b_oexprs b) x in
  Some (with_cons b (con_set e Marked (b_cons b))).

(** hint_normalize.rs:29-87 *)
Definition push_const (c : K) := push1 (NPlain (HConst (Layered.Constant c))).
Definition push_add (x y : nat) := push1 (NPlain (HLin (mkLC [(x, 1); (y, 1)] 0))).
Definition push_sub (x y : nat) := push1 (NPlain (HLin (mkLC [(x, 1); (y, - (1))] 0))).
Definition push_mul (x y : nat) := push1 (NPlain (HMul [x; y])).
Definition bool_cond (x : nat) (b : builder) : option (builder * nat) :=
  let* s := push_const 1 b in let '(b, one) := s in
  let* s := push_sub x one b in let '(b, xm1) := s in
  push_mul x xm1 b.
Definition assert_bool (x : nat) (b : builder) : option builder :=
  let* s := bool_cond x b in let '(b, t) := s in assert_zero t b.
Definition mark_bool (x : nat) (b : builder) : option builder :=
  let* s := bool_cond x b in let '(b, t) := s in mark_zero t b.

(** basic.rs:104-108 InsnTransformResult (an error is [None]) *)
Inductive tres := TInsn (i : hn_insn K) | TVars (xs : list nat).
Definition div_hint := HidBin UDiv.

(** hint_normalize.rs:275-285: one bit of ToBinary *)
Definition binary_bit (bit : nat) (s : builder * nat * K) : option (builder * nat * K) :=
  let '(b, sum, coef) := s in
  let* b := assert_bool bit b in
  let* s := push1 (NPlain (HLin (mkLC [(bit, coef)] 0))) b in let '(b, sc) := s in
  let* s := push_add sum sc b in let '(b, sum) := s in
  Some (b, sum, coef + coef).

(** hint_normalize.rs:90-305 transform_in_to_out *)
Definition transform (i : src_insn K) (b : builder) : option (builder * tres) :=
  match i with
  | SPlain i => Some (b, TInsn i)
  | SDiv x y checked =>
    let* cy := constant_value b y in
    match cy with
    | Some yv =>
      if feqb yv 0 then None
      else let* s := push_const (finv yv) b in let '(b, yi) := s in Some (b, TInsn (NPlain (HMul [x; yi])))
    | None =>
      if checked then
        let* s := push_const 1 b in let '(b, one) := s in
        let* s := push1 (NHint div_hint [one; y] 1) b in let '(b, inv) := s in
        let* s := push_mul y inv b in let '(b, multy) := s in
        let* s := push_sub multy one b in let '(b, sub1) := s in
        let* b := assert_zero sub1 b in
        Some (b, TInsn (NPlain (HMul [x; inv])))
      else
        let* s := push1 (NHint div_hint [x; y] 1) b in let '(b, res) := s in
        let* s := push_mul y res b in let '(b, multy) := s in
        let* s := push_sub multy x b in let '(b, subx) := s in
        let* b := assert_zero subx b in
        Some (b, TVars [res])
    end
  | SBool x y op =>
    let* b := assert_bool x b in
    let* b := assert_bool y b in
    let* s := push_add x y b in let '(b, x_plus_y) := s in
    let* s := push_mul x y b in let '(b, x_times_y) := s in
    let* s := (match op with
               | BAnd => Some (b, x_times_y)
               | BOr => push_sub x_plus_y x_times_y b
               | BXor => push1 (NPlain (HLin (mkLC [(x_plus_y, 1); (x_times_y, - (1 + 1))] 0))) b
               end) in
    let '(b, res) := s in
    let* b := mark_bool res b in
    Some (b, TVars [res])
  | SIsZero x =>
    let* cx := constant_value b x in
    match cx with
    | Some xv => Some (b, TInsn (NPlain (HConst (Layered.Constant (if feqb xv 0 then 1 else 0)))))
    | None =>
      let* s := push_const 1 b in let '(b, one) := s in
      let* s := push1 (NHint div_hint [one; x] 1) b in let '(b, inv) := s in
      let* s := push_mul x inv b in let '(b, prod) := s in
      let* s := push_sub one prod b in let '(b, m) := s in
      let* s := push_mul x m b in let '(b, xm) := s in
      let* b := assert_zero xm b in
      let* b := mark_bool m b in
      Some (b, TVars [m])
    end
  | SCommit _ => Some (b, TInsn (NPlain (HConst Layered.Random)))
  | SUnBin x y op =>
    let* cx := constant_value b x in
    let* cy := constant_value b y in
    match cx, cy with
    | Some xv, Some yv =>
      let* r := un_eval op xv yv in
      Some (b, TInsn (NPlain (HConst (Layered.Constant r))))
    | _, _ => Some (b, TInsn (NHint (HidBin op) [x; y] 1))
    end
  | SUnSelect c t f =>
    let* cc := constant_value b c in
    match cc with
    | Some cond => Some (b, TVars [if feqb cond 0 then f else t])
    | None => Some (b, TInsn (NHint HidSelect [c; t; f] 1))
    end
  | SToBinary x n =>
    let* s := push_multi (NHint HidToBinary [x] n) b in let '(b, bits) := s in
    let* s := push_const 0 b in let '(b, sum) := s in
    let* s := for_each bits binary_bit (b, sum, 1) in
    let '(b, sum, _) := s in
    let* s := push1 (NPlain (HLin (mkLC [(sum, - (1)); (x, 1)] 0))) b in let '(b, diff) := s in
    let* b := assert_zero diff b in
    Some (b, TVars bits)
  end.

(** basic.rs:345-370 process_insn *)
Definition process_insn (i : src_insn K) (b : builder) : option builder :=
  let* im := src_replace (nth_error (b_in_to_out b)) i in
  let* s := transform im b in
  let '(b, r) := s in
  match r with
  | TInsn o =>
    let* _ := guard (hn_outputs o =? src_outputs i) in
    let start := length (b_oexprs b) in
    let* b := push o b in
    Some (with_ins b (seq start (src_outputs i)))
  | TVars xs =>
    let* _ := guard (length xs =? src_outputs i) in
    Some (with_ins b xs)
  end.

(** hint_normalize.rs:307-328 transform_in_con_to_out, basic.rs:372-377
    process_con *)
Definition process_con (c : src_con) (b : builder) : option builder :=
  let* x := nth_error (b_in_to_out b) (snd c) in
  let* s :=
    match fst c with
    | CZero => Some (b, x)
    | CBool => bool_cond x b
    | CNonZero =>
      let* s := push_const 1 b in let '(b, one) := s in
      let* s := push1 (NHint div_hint [one; x] 1) b in let '(b, inv) := s in
      let* s := push_mul x inv b in let '(b, multy) := s in
      push_sub multy one b
    end in
  let '(b, t) := s in
  assert_zero t b.

(** basic.rs:247-253 add_input *)
Definition add_input (n : nat) (b : builder) : option builder :=
  let* b := add_out_vars n b in Some (with_ins b (seq 1 n)).

(** basic.rs:58, 624: mid_expr_to_out; a later insertion replaces an earlier one *)
Fixpoint out_of_expr (e : expr) (l : list (expr * nat)) : option nat :=
  match l with [] => None | (k, x) :: r => if expr_eqb k e then Some x else out_of_expr e r end.

(** basic.rs:592-640 process_circuit *)
Definition emitted (l : list (expr * status)) : list expr :=
  flat_map (fun e => match con_find e l with Some Asserted => [e] | _ => [] end)
    (sort_by (expr_cmp kcmp) (map fst l)).
Definition process_circuit (c : circuit (src_insn K) src_con) : option (circuit (hn_insn K) nat) :=
  let* b := add_input (c_inputs c) builder_new in
  let* b := for_each (c_insns c) process_insn b in
  let* b := for_each (c_cons c) process_con b in
  let* cvars := omap (fun e => out_of_expr e (b_expr_to_out b)) (emitted (b_cons b)) in
  let* outs := omap (nth_error (b_in_to_out b)) (c_outs c) in
  Some (mkCircuit (b_insns b) cvars outs (c_inputs c)).

(** basic.rs:642-670 process_root_circuit, hint_normalize.rs:372-376 process.
    Simplification: the circuits are treated in the order of the list instead of
    a reverse topological order; each is treated independently of the others
    ([sub_circuit_call] ignores its [root] argument). *)
Definition process_root (rc : root_circuit (src_insn K) src_con) : option (root_circuit (hn_insn K) nat) :=
  let* cs := omap (fun kc : nat * circuit (src_insn K) src_con =>
                     let* c := process_circuit (snd kc) in Some (fst kc, c)) (rc_circuits rc) in
  Some (mkRoot (rc_npub rc) (rc_zeroes rc) cs).
End Normalize.
