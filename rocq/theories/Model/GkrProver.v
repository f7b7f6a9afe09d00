(** The GKR prover, vanilla scheme, prime fields, one process.
    Files under /repo/prover: sumcheck/src/{sumcheck,scratch_pad,utils}.rs,
    sumcheck/src/prover_helper/{product_gate,simd_gate,sumcheck_gkr_vanilla}.rs,
    gkr/src/prover/{gkr_vanilla,snark}.rs, gkr_engine/src/field_engine/definition.rs,
    circuit/src/layered/circuit.rs.
    The only MPI engine (gkr_engine/src/mpi_engine/engine.rs) has one process on the prover's side
    (prover_new, 43-48): gathering and combining return the local vector, broadcasts do nothing, so
    the table eq_evals_at_r_mpi0 is never read and is left out.
    A SIMD value is the list of its 2^simd_vars lanes; the circuit field, its SIMD extension and the
    challenge field are one field K.  [None] is a panic or undefined behaviour.  Logging and timing
    are left out, the metal code is not compiled. *)
From Coq Require Import List Arith Bool NArith.
From Verif Require Import Base.Field Base.Array Model.Polynomials Model.Layered Model.Gkr.
Import ListNotations.

(** sumcheck/src/scratch_pad.rs:10-30 ProverScratchPad: the fields the vanilla scheme uses *)
Record ppad (K : field) := {
  pp_v_evals : list (list K); pp_hg_evals : list (list K);
  pp_eq_rx : list K; pp_eq_rz0 : list K; pp_eq_r_simd0 : list K;
  pp_half1 : list K; pp_half2 : list K; pp_gate_exists : list bool }.
Arguments pp_v_evals {_}. Arguments pp_hg_evals {_}. Arguments pp_eq_rx {_}. Arguments pp_eq_rz0 {_}. Arguments pp_eq_r_simd0 {_}.
Arguments pp_half1 {_}. Arguments pp_half2 {_}. Arguments pp_gate_exists {_}.

Section Model.
Variable K : field.
Local Open Scope fld_scope.
Variable simd_vars : nat.
Local Notation player := (player K).
Local Notation pgate := (pgate K).
Local Notation simd := (list K).
Definition pack : nat := (2 ^ simd_vars)%nat.

(** ** SIMD arithmetic, lane by lane *)
Definition pzero : simd := repeat 0 pack.
Definition pfrom (c : K) : simd := repeat c pack.
Definition padd (a b : simd) : simd := vmap2 K fadd a b.
Definition psub (a b : simd) : simd := vmap2 K fsub a b.
Definition pmul (a b : simd) : simd := vmap2 K fmul a b.
Definition pscale (a : simd) (r : K) : simd := map (fun x => x * r) a.

(** ** circuit/src/layered/circuit.rs *)
(** 34-81 CircuitLayer::evaluate *)
Definition eval_layer_simd (l : player) (vals pub : list simd) : option (list simd) :=
  let bump (res : list simd) o v := let* x := aget res o in aset res o (padd x v) in
  let res := repeat pzero (2 ^ pl_ovars K l) in
  let* res := for_each (pl_mul K l) (fun g res =>
      let* i0 := aget (pg_in K g) 0 in let* x := aget vals i0 in
      let* i1 := aget (pg_in K g) 1 in let* y := aget vals i1 in bump res (pg_out K g) (pscale (pmul x y) (pg_coef K g))) res in
  let* res := for_each (pl_add K l) (fun g res =>
      let* i0 := aget (pg_in K g) 0 in let* x := aget vals i0 in bump res (pg_out K g) (pscale x (pg_coef K g))) res in
  let* res := for_each (pl_const K l) (fun g res =>
      let* k := match pg_ctype K g with TPublicInput id => aget pub id | _ => Some (pfrom (pg_coef K g)) end in bump res (pg_out K g) k) res in
  for_each (pl_uni K l) (fun g res =>
      let* i0 := aget (pg_in K g) 0 in let* x := aget vals i0 in
      let* v := (if (N.of_nat (pg_type K g) =? 12345)%N then let x2 := pmul x x in let x4 := pmul x2 x2 in Some (pmul x4 x)
                 else if (N.of_nat (pg_type K g) =? 12346)%N then Some x else None) in
      bump res (pg_out K g) (pscale v (pg_coef K g))) res.
(** 311-339 Circuit::evaluate: the input values of every layer, and the outputs *)
Fixpoint eval_all (layers : list player) (vals pub : list simd) : option (list (list simd) * list simd) :=
  match layers with
  | [] => Some ([], vals)
  | l :: rest =>
    let* out := eval_layer_simd l vals pub in
    let* (vs, o) := eval_all rest out pub in Some (vals :: vs, o)
  end.

(** ** gkr_engine/src/field_engine/definition.rs *)
(** [x * (h - l) + l] and [l + (h - l).scale(x)] *)
Definition fold_pair (x : K) (l h : simd) : simd := padd l (pscale (psub h l) x).
(** 72-96 eval_circuit_vals_at_challenge: the value and the scratch space *)
Definition eval_circuit_vals_at_challenge (evals : list simd) (x : list K) (scratch : list simd) : option (simd * list simd) :=
  let* _ := guard (2 ^ length x =? length evals)%nat in
  let* _ := guard (length evals <=? length scratch)%nat in
  match x with
  | [] => let* e := aget evals 0 in Some (e, scratch)
  | x0 :: rest =>
    let* s := for_in (seq 0 (length evals / 2)) (fun i s =>
        let* h := aget evals (i * 2 + 1)%nat in let* l := aget evals (i * 2)%nat in
        aset s i (fold_pair x0 l h)) scratch in
    let* (s, _) := for_each rest (fun r (st : list simd * nat) =>
        let (s, cur) := st in
        let* s := for_in (seq 0 cur) (fun i s =>
            let* l := aget s (i * 2)%nat in let* h := aget s (i * 2 + 1)%nat in
            aset s i (fold_pair r l h)) s in
        Some (s, (cur / 2)%nat)) (s, (length evals / 4)%nat) in
    let* e := aget s 0 in Some (e, s)
  end.
(** 102-140 collectively_eval_circuit_vals_at_expander_challenge, one process.  The second scratch
    space is overwritten before it is read again, its contents are not followed. *)
Definition collectively_eval (evals : list simd) (ch : dual_challenge K) (scratch : list simd) (scratch2 : list K) : option (K * list simd) :=
  let* _ := guard (2 ^ Nat.max (length (r_simd ch)) (length (r_mpi ch)) <=? length scratch2)%nat in
  let* (local_simd, scratch) := eval_circuit_vals_at_challenge evals (rz_0 ch) scratch in
  let* local_v := evaluate_with_buffer local_simd (r_simd ch) scratch2 in
  let* v := evaluate_with_buffer [local_v] (r_mpi ch) scratch2 in
  Some (v, scratch).

(** ** sumcheck/src/prover_helper/product_gate.rs *)
(** 19-51 evaluate *)
Definition pg_evaluate (eval_size : nat) (bk_f bk_hg : list simd) (gate_exists : list bool) : option (simd * simd * simd) :=
  for_in (seq 0 eval_size) (fun i (p : simd * simd * simd) =>
    let '(p0, p1, p2) := p in
    let* g0 := aget gate_exists (i * 2)%nat in let* g1 := aget gate_exists (i * 2 + 1)%nat in
    if negb g0 && negb g1 then Some p
    else
      let* f0 := aget bk_f (i * 2)%nat in let* f1 := aget bk_f (i * 2 + 1)%nat in
      let* h0 := aget bk_hg (i * 2)%nat in let* h1 := aget bk_hg (i * 2 + 1)%nat in
      Some (padd p0 (pmul h0 f0), padd p1 (pmul h1 f1), padd p2 (pmul (padd h0 h1) (padd f0 f1))))
    (pzero, pzero, pzero).
(** 64-101 poly_eval_at: the values at 0, 1, 2; mul_by_6, mul_by_3 and double by additions *)
Definition times2 (a : simd) := padd a a.
Definition times3 (a : simd) := padd (padd a a) a.
Definition pg_poly_eval_at (var_num var_idx : nat) (bk_f bk_hg init_v : list simd) (gate_exists : list bool) : option (list simd) :=
  let eval_size := (2 ^ (var_num - var_idx - 1))%nat in
  let* (p0, p1, p2) := pg_evaluate eval_size (if (var_idx =? 0)%nat then init_v else bk_f) bk_hg gate_exists in
  Some [p0; p1; psub (padd (times2 (times3 p1)) (times3 p0)) (times2 p2)].
(** 105-137 receive_challenge *)
Definition pg_receive (var_num var_idx : nat) (r : K) (bk_f bk_hg init_v : list simd) (gate_exists : list bool)
  : option (list simd * list simd * list bool) :=
  let* _ := guard (var_idx <? var_num)%nat in
  let eval_size := (2 ^ (var_num - var_idx - 1))%nat in
  let* bk_f :=
    if (var_idx =? 0)%nat then
      for_in (seq 0 eval_size) (fun i f =>
        let* h := aget init_v (2 * i + 1)%nat in let* l := aget init_v (2 * i)%nat in aset f i (fold_pair r l h)) bk_f
    else
      for_in (seq 0 eval_size) (fun i f =>
        let* l := aget f (2 * i)%nat in let* h := aget f (2 * i + 1)%nat in aset f i (fold_pair r l h)) bk_f in
  let* (hg, ge) := for_in (seq 0 eval_size) (fun i (st : list simd * list bool) =>
      let (hg, ge) := st in
      let* g0 := aget ge (i * 2)%nat in let* g1 := aget ge (i * 2 + 1)%nat in
      if negb g0 && negb g1 then
        let* ge := aset ge i false in let* hg := aset hg i pzero in Some (hg, ge)
      else
        let* ge := aset ge i true in
        let* l := aget hg (2 * i)%nat in let* h := aget hg (2 * i + 1)%nat in
        let* hg := aset hg i (fold_pair r l h) in Some (hg, ge)) (bk_hg, gate_exists) in
  Some (bk_f, hg, ge).

(** ** sumcheck/src/prover_helper/simd_gate.rs *)
(** 25-89 poly_eval_at: the values at 0, 1, 2, 3 *)
Definition sg_poly_eval_at (var_num var_idx : nat) (bk_eq bk_f bk_hg : list K) : option (list K) :=
  let eval_size := (2 ^ (var_num - var_idx - 1))%nat in
  let* (p0, p1, p2, p3) := for_in (seq 0 eval_size) (fun i (p : K * K * K * K) =>
      let '(p0, p1, p2, p3) := p in
      let* e0 := aget bk_eq (i * 2)%nat in let* e1 := aget bk_eq (i * 2 + 1)%nat in
      let* f0 := aget bk_f (i * 2)%nat in let* f1 := aget bk_f (i * 2 + 1)%nat in
      let* h0 := aget bk_hg (i * 2)%nat in let* h1 := aget bk_hg (i * 2 + 1)%nat in
      let tmp0 := e1 - e0 in let tmp1 := f1 - f0 in let tmp2 := h1 - h0 in
      let tmp3 := e1 + tmp0 in let tmp4 := f1 + tmp1 in let tmp5 := h1 + tmp2 in
      Some (p0 + e0 * f0 * h0, p1 + e1 * f1 * h1, p2 + tmp3 * tmp4 * tmp5, p3 + (tmp3 + tmp0) * (tmp4 + tmp1) * (tmp5 + tmp2)))
    (0, 0, 0, 0) in
  Some [p0; p1; p2; p3].
(** 168-184 receive_challenge; the three tables are updated in one loop there *)
Definition sg_fold (eval_size : nat) (r : K) (a : list K) : option (list K) :=
  for_in (seq 0 eval_size) (fun i a =>
    let* l := aget a (2 * i)%nat in let* h := aget a (2 * i + 1)%nat in aset a i (l + (h - l) * r)) a.
Definition sg_receive (var_num var_idx : nat) (r : K) (bk_eq bk_f bk_hg : list K) : option (list K * list K * list K) :=
  let* _ := guard (var_idx <? var_num)%nat in
  let eval_size := (2 ^ (var_num - var_idx - 1))%nat in
  let* e := sg_fold eval_size r bk_eq in let* f := sg_fold eval_size r bk_f in let* h := sg_fold eval_size r bk_hg in
  Some (e, f, h).

(** ** Transcript *)
Section Transcript.
Variable T : Type.
Variable append : K -> T -> T.
Variable sample : T -> option (K * T).
(** The prover's transcript also collects what is appended, unless the proof is locked. *)
Definition tr : Type := T * list K.
Definition emit (x : K) (tp : tr) : tr := (append x (fst tp), snd tp ++ [x]).
(** sumcheck/src/utils.rs:27-43 transcript_io *)
Definition transcript_io (ps : list K) (tp : tr) : option (K * tr) :=
  let tp := fold_left (fun tp p => emit p tp) ps tp in
  let* (r, t) := sample (fst tp) in Some (r, (t, snd tp)).

(** ** sumcheck/src/prover_helper/sumcheck_gkr_vanilla.rs and sumcheck.rs *)
(** sumcheck.rs:49-57, 86-91 with 85-112, 154-166, 169-172, 199-202: the rounds for the positions.
    [k] rounds remain, [coef] is phase2_coef in the second phase. *)
Fixpoint xy_rounds (k var_num : nat) (vals : list simd) (eqs : list K) (coef : option K)
    (v hg : list simd) (ge : list bool) (rs : list K) (tp : tr) : option (list simd * list simd * list bool * list K * tr) :=
  match k with
  | O => Some (v, hg, ge, rs, tp)
  | S k' =>
    let var_idx := (var_num - k)%nat in
    let* ps := pg_poly_eval_at var_num var_idx v hg vals ge in
    let evals := map (fun p => unpack_and_combine K p eqs) ps in
    let evals := match coef with Some c => map (fun p => p * c) evals | None => evals end in
    let* (r, tp) := transcript_io evals tp in
    let* (v, hg, ge) := pg_receive var_num var_idx r v hg vals ge in
    xy_rounds k' var_num vals eqs coef v hg ge (rs ++ [r]) tp
  end.
(** sumcheck.rs:60-67 with 114-136, 175-184: the rounds for the lanes *)
Fixpoint simd_rounds (k var_num : nat) (eqs f hg : list K) (rs : list K) (tp : tr) : option (list K * list K * list K * list K * tr) :=
  match k with
  | O => Some (eqs, f, hg, rs, tp)
  | S k' =>
    let var_idx := (var_num - k)%nat in
    let* evals := sg_poly_eval_at var_num var_idx eqs f hg in
    let* (r, tp) := transcript_io evals tp in
    let* (eqs, f, hg) := sg_receive var_num var_idx r eqs f hg in
    simd_rounds k' var_num eqs f hg (rs ++ [r]) tp
  end.

(** write_bytes(0) on the first n entries *)
Definition fill {A} (n : nat) (x : A) (a : list A) : option (list A) :=
  let* _ := guard (n <=? length a)%nat in Some (repeat x n ++ skipn n a).
(** 245-301 prepare_x_vals: eq_evals_at_rz0, hg_evals, gate_exists and the two halves *)
Definition prepare_x_vals (l : player) (vals : list simd) (ch : dual_challenge K) (alpha : option K) (is_output_layer : bool) (sp : ppad K)
  : option (list K * list simd * list bool * list K * list K) :=
  let* hg := fill (length vals) pzero (pp_hg_evals sp) in
  let* ge := fill (length vals) false (pp_gate_exists sp) in
  let* _ := guard (same_none (rz_1 ch) alpha) in
  let* (rz0, h1, h2) :=
    match is_output_layer, rz_1 ch, alpha with
    | false, Some z1, Some a =>
      let* (rz0, h1, h2) := eq_eval_at z1 a (pp_eq_rz0 sp) (pp_half1 sp) (pp_half2 sp) in
      let* rz0 := for_in (seq 0 (2 ^ length (rz_0 ch))) (fun i t =>
          let* x := aget t i in let* y := aget (pp_eq_rx sp) i in aset t i (x + y)) rz0 in
      Some (rz0, h1, h2)
    | _, _, _ => eq_eval_at (rz_0 ch) 1 (pp_eq_rz0 sp) (pp_half1 sp) (pp_half2 sp)
    end in
  let* (hg, ge) := for_each (pl_mul K l) (fun g (st : list simd * list bool) =>
      let (hg, ge) := st in
      let* e := aget rz0 (pg_out K g) in let r := e * pg_coef K g in
      let* i0 := aget (pg_in K g) 0 in let* i1 := aget (pg_in K g) 1 in
      let* y := aget vals i1 in let* x := aget hg i0 in
      let* hg := aset hg i0 (padd x (pscale y r)) in
      let* ge := aset ge i0 true in Some (hg, ge)) (hg, ge) in
  let* (hg, ge) := for_each (pl_add K l) (fun g (st : list simd * list bool) =>
      let (hg, ge) := st in
      let* i0 := aget (pg_in K g) 0 in let* e := aget rz0 (pg_out K g) in
      let* x := aget hg i0 in
      let* hg := aset hg i0 (padd x (pfrom (e * pg_coef K g))) in
      let* ge := aset ge i0 true in Some (hg, ge)) (hg, ge) in
  Some (rz0, hg, ge, h1, h2).
(** 319-375 prepare_y_vals: hg_evals, gate_exists, phase2_coef, eq_evals_at_rx, eq_evals_at_r_simd0
    and the two halves; v = mpi_var_v_evals[0], r_mpi_var is empty *)
Definition prepare_y_vals (l : player) (ch : dual_challenge K) (rx r_simd_var : list K) (v : K)
    (rz0 eq_rx eqs h1 h2 : list K) (hg : list simd) (ge : list bool)
  : option (list simd * list bool * K * list K * list K * list K * list K) :=
  let fill_len := (2 ^ length rx)%nat in
  let* hg := fill fill_len pzero hg in
  let* ge := fill fill_len false ge in
  let* e0 := aget eqs 0 in
  let coef := eq_vec (r_mpi ch) [] * e0 * v in
  let* (eq_rx, h1, h2) := eq_eval_at rx 1 eq_rx h1 h2 in
  let* (eqs, h1, h2) := eq_eval_at r_simd_var 1 eqs h1 h2 in
  let* (hg, ge) := for_each (pl_mul K l) (fun g (st : list simd * list bool) =>
      let (hg, ge) := st in
      let* i1 := aget (pg_in K g) 1 in
      let* e := aget rz0 (pg_out K g) in
      let* i0 := aget (pg_in K g) 0 in let* x := aget eq_rx i0 in
      let* h := aget hg i1 in
      let* hg := aset hg i1 (padd h (pfrom (e * x * pg_coef K g))) in
      let* ge := aset ge i1 true in Some (hg, ge)) (hg, ge) in
  Some (hg, ge, coef, eq_rx, eqs, h1, h2).

(** sumcheck.rs:27-107 sumcheck_prove_gkr_layer.  With one process there are no MPI rounds;
    prepare_mpi_var_vals (310-316) copies simd_var_v_evals[0]. *)
Definition prove_layer (l : player) (vals : list simd) (ch : dual_challenge K) (alpha : option K) (is_output_layer : bool)
    (sp : ppad K) (tp : tr) : option (dual_challenge K * ppad K * tr) :=
  (* prepare_simd 218-228 *)
  let* (eqs, h1, h2) :=
    match is_output_layer, alpha with
    | false, Some _ => Some (pp_eq_r_simd0 sp, pp_half1 sp, pp_half2 sp)
    | _, _ => eq_eval_at (r_simd ch) 1 (pp_eq_r_simd0 sp) (pp_half1 sp) (pp_half2 sp)
    end in
  let sp := {| pp_v_evals := pp_v_evals sp; pp_hg_evals := pp_hg_evals sp; pp_eq_rx := pp_eq_rx sp; pp_eq_rz0 := pp_eq_rz0 sp;
               pp_eq_r_simd0 := eqs; pp_half1 := h1; pp_half2 := h2; pp_gate_exists := pp_gate_exists sp |} in
  let* (rz0, hg, ge, h1, h2) := prepare_x_vals l vals ch alpha is_output_layer sp in
  let n := pl_ivars K l in
  let* (v, hg, ge, rx, tp) := xy_rounds n n vals eqs None (pp_v_evals sp) hg ge [] tp in
  (* prepare_simd_var_vals 304-307 *)
  let* sv := aget v 0 in let* shg := aget hg 0 in
  let* (eqs, sv, shg, rs, tp) := simd_rounds simd_vars simd_vars eqs sv shg [] tp in
  (* vx_claim 207-209 *)
  let* vx := aget sv 0 in
  let tp := emit vx tp in
  if negb (empty (pl_mul K l)) then
    let* (hg, ge, coef, eq_rx, eqs, h1, h2) := prepare_y_vals l ch rx rs vx rz0 (pp_eq_rx sp) eqs h1 h2 hg ge in
    let* (v, hg, ge, ry, tp) := xy_rounds n n vals eqs (Some coef) v hg ge [] tp in
    (* vy_claim 212-215 *)
    let* v0 := aget v 0 in
    let tp := emit (unpack_and_combine K v0 eqs) tp in
    Some ({| rz_0 := rx; rz_1 := Some ry; r_simd := rs; r_mpi := [] |},
          {| pp_v_evals := v; pp_hg_evals := hg; pp_eq_rx := eq_rx; pp_eq_rz0 := rz0; pp_eq_r_simd0 := eqs;
             pp_half1 := h1; pp_half2 := h2; pp_gate_exists := ge |}, tp)
  else
    Some ({| rz_0 := rx; rz_1 := None; r_simd := rs; r_mpi := [] |},
          {| pp_v_evals := v; pp_hg_evals := hg; pp_eq_rx := pp_eq_rx sp; pp_eq_rz0 := rz0; pp_eq_r_simd0 := eqs;
             pp_half1 := h1; pp_half2 := h2; pp_gate_exists := ge |}, tp).

(** ** gkr/src/prover/gkr_vanilla.rs, snark.rs *)
(** scratch_pad.rs:33-72 ProverScratchPad::new *)
Definition ppad_new (max_num_input_var max_num_output_var : nat) : ppad K :=
  let max_input_size := (2 ^ max_num_input_var)%nat in
  let max_output_size := (2 ^ max_num_output_var)%nat in
  let half := Nat.max (Nat.max (Nat.max max_input_size max_output_size) pack) 1 in
  {| pp_v_evals := repeat pzero max_input_size; pp_hg_evals := repeat pzero max_input_size;
     pp_eq_rx := repeat 0 max_input_size; pp_eq_rz0 := repeat 0 max_output_size; pp_eq_r_simd0 := repeat 0 pack;
     pp_half1 := repeat 0 half; pp_half2 := repeat 0 half; pp_gate_exists := repeat false max_input_size |}.
(** snark.rs:66-87 prepare_mem *)
Definition list_max_vars (f : player -> nat) (layers : list player) : nat := fold_right Nat.max 0%nat (map f layers).
Definition prepare_mem (layers : list player) : ppad K := ppad_new (list_max_vars (pl_ivars K) layers) (list_max_vars (pl_ovars K) layers).

(** gkr_vanilla.rs:42-72: the loop over the layers, last to first *)
Fixpoint prove_layers (rev_layers : list (player * list simd)) (is_output_layer : bool) (ch : dual_challenge K) (alpha : option K)
    (sp : ppad K) (tp : tr) : option (dual_challenge K * tr) :=
  match rev_layers with
  | [] => Some (ch, tp)
  | (l, vals) :: rest =>
    let* (ch, sp, tp) := prove_layer l vals ch alpha is_output_layer sp tp in
    let* (alpha, t) := sample_alpha K T sample ch (fst tp) in
    prove_layers rest false ch alpha sp (t, snd tp)
  end.
(** gkr_vanilla.rs:12-76 gkr_prove: the claim, the last challenge and the transcript.  The claim is
    appended while the proof is locked. *)
Definition gkr_prove (layers : list player) (layer_vals : list (list simd)) (output_vals : list simd) (sp : ppad K) (tp : tr)
  : option (K * dual_challenge K * tr) :=
  let* last := aget layers (length layers - 1) in
  let* (ch, t) := sample_from_transcript K simd_vars 0 T sample (pl_ovars K last) (fst tp) in
  let* (claimed_v, hg) := collectively_eval output_vals ch (pp_hg_evals sp) (pp_half1 sp) in
  let sp := {| pp_v_evals := pp_v_evals sp; pp_hg_evals := hg; pp_eq_rx := pp_eq_rx sp; pp_eq_rz0 := pp_eq_rz0 sp;
               pp_eq_r_simd0 := pp_eq_r_simd0 sp; pp_half1 := pp_half1 sp; pp_half2 := pp_half2 sp; pp_gate_exists := pp_gate_exists sp |} in
  let* (ch, tp) := prove_layers (rev (combine layers layer_vals)) true ch None sp (append claimed_v t, snd tp) in
  Some (claimed_v, ch, tp).
(** snark.rs:89-176 prove, between the commitment and the openings: evaluate the circuit, run the
    GKR prover *)
Definition prove (layers : list player) (inputs pub : list simd) (t : T) : option (K * dual_challenge K * tr) :=
  let* _ := guard (negb (empty layers)) in
  let* (layer_vals, output_vals) := eval_all layers inputs pub in
  gkr_prove layers layer_vals output_vals (prepare_mem layers) (t, []).
End Transcript.
End Model.
