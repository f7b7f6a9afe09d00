(** Model of the GKR verifier: prover/gkr/src/verifier (common.rs, gkr_vanilla.rs, structs.rs,
    snark.rs 145-255) with the helpers of prover/sumcheck/src (verifier_helper.rs,
    scratch_pad.rs, utils.rs).

    Simplifications.  Circuit field, challenge field and the scalars of the SIMD field are one
    abstract field K; a SIMD value is the list of its 2^simd_vars lanes.  The branches for
    GF2Ext128 are left out.  The number of processes is 2^mpi_vars (the code panics otherwise).
    The proof is read element by element: [Some v] is an element that decodes to v, [None] one
    that does not, the empty list is the end of the proof.  Timers and the progress callback are
    left out.  [None] as a result is a panic. *)
From Coq Require Import List Bool Arith NArith.
From Verif Require Import Base.Field Base.Array Model.Polynomials Model.Layered.
Import ListNotations.
Local Open Scope list_scope.

(** gkr_engine/src/transcript/challenge.rs:9-18 ExpanderDualVarChallenge *)
Record dual_challenge (K : field) := { rz_0 : list K; rz_1 : option (list K); r_simd : list K; r_mpi : list K }.
Arguments rz_0 {K}. Arguments rz_1 {K}. Arguments r_simd {K}. Arguments r_mpi {K}.

(** scratch_pad.rs:94-101: the constants of the interpolations; they never change *)
Record lagrange (K : field) := { deg3_eval_at : list K; deg3_lag_denoms_inv : list K; deg6_eval_at : list K; deg6_lag_denoms_inv : list K }.
Arguments deg3_eval_at {K}. Arguments deg3_lag_denoms_inv {K}. Arguments deg6_eval_at {K}. Arguments deg6_lag_denoms_inv {K}.
(** scratch_pad.rs:75-102 VerifierScratchPad *)
Record vpad (K : field) := {
  eq_evals_at_rz0 : list K; eq_evals_at_r_simd : list K; eq_evals_at_r_mpi : list K;
  eq_evals_at_rx : list K; eq_evals_at_ry : list K;
  eq_evals_first_part : list K; eq_evals_second_part : list K;
  sp_r_simd : list K; sp_r_mpi : list K; eq_r_simd_r_simd_xy : K; eq_r_mpi_r_mpi_xy : K;
  sp_lagrange : lagrange K }.
Arguments eq_evals_at_rz0 {K}. Arguments eq_evals_at_r_simd {K}. Arguments eq_evals_at_r_mpi {K}.
Arguments eq_evals_at_rx {K}. Arguments eq_evals_at_ry {K}. Arguments eq_evals_first_part {K}. Arguments eq_evals_second_part {K}.
Arguments sp_r_simd {K}. Arguments sp_r_mpi {K}. Arguments eq_r_simd_r_simd_xy {K}. Arguments eq_r_mpi_r_mpi_xy {K}. Arguments sp_lagrange {K}.

Section Model.
Variable K : field.
Local Open Scope fld_scope.
Variables simd_vars mpi_vars : nat.
Local Notation player := (player K).
Local Notation pgate := (pgate K).

(** ** Scratch pad *)

(** [x.inv().unwrap()] *)
Definition inv_unwrap (x : K) : option K := if feqb x 0 then None else Some (finv x).
(** scratch_pad.rs:145-155, 167-177: prod over j <> i of (points[i] - points[j]), inverted *)
Definition lag_denoms_inv (points : list K) : option (list K) :=
  omap (fun i =>
    let* pi := aget points i in
    let* d := for_in (seq 0 (length points)) (fun j d =>
        if (j =? i)%nat then Some d else let* pj := aget points j in Some (d * (pi - pj))) 1 in
    inv_unwrap d) (seq 0 (length points)).
Definition new_lagrange : option (lagrange K) :=
  let at3 := map f_of_nat (seq 0 4) in
  let at6 := map f_of_nat (seq 0 7) in
  let* inv3 := lag_denoms_inv at3 in
  let* inv6 := lag_denoms_inv at6 in
  Some {| deg3_eval_at := at3; deg3_lag_denoms_inv := inv3; deg6_eval_at := at6; deg6_lag_denoms_inv := inv6 |}.

(** scratch_pad.rs:120-208 new_with_num_vars *)
Definition new_with_num_vars (max_num_var : nat) : option (vpad K) :=
  let max_io_size := (2 ^ max_num_var)%nat in
  let simd_size := (2 ^ simd_vars)%nat in
  let mpi_world_size := (2 ^ mpi_vars)%nat in
  let part := repeat (0 : K) (Nat.max (Nat.max max_io_size simd_size) mpi_world_size) in
  let* lag := new_lagrange in
  Some {| eq_evals_at_rz0 := repeat 0 max_io_size; eq_evals_at_r_simd := repeat 0 simd_size;
          eq_evals_at_r_mpi := repeat 0 mpi_world_size;
          eq_evals_at_rx := repeat 0 max_io_size; eq_evals_at_ry := repeat 0 max_io_size;
          eq_evals_first_part := part; eq_evals_second_part := part;
          sp_r_simd := []; sp_r_mpi := []; eq_r_simd_r_simd_xy := 0; eq_r_mpi_r_mpi_xy := 0; sp_lagrange := lag |}.
(** scratch_pad.rs:105-114 new; [max().unwrap()] and [layers[0]] panic on an empty circuit *)
Definition vpad_new (layers : list player) : option (vpad K) :=
  let* l0 := aget layers 0 in
  new_with_num_vars (Nat.max (fold_right Nat.max 0%nat (map (pl_ovars K) layers)) (pl_ivars K l0)).

(** field updates *)
Definition with_rz0 (sp : vpad K) v p1 p2 : vpad K :=
  {| eq_evals_at_rz0 := v; eq_evals_at_r_simd := eq_evals_at_r_simd sp; eq_evals_at_r_mpi := eq_evals_at_r_mpi sp;
     eq_evals_at_rx := eq_evals_at_rx sp; eq_evals_at_ry := eq_evals_at_ry sp; eq_evals_first_part := p1; eq_evals_second_part := p2;
     sp_r_simd := sp_r_simd sp; sp_r_mpi := sp_r_mpi sp; eq_r_simd_r_simd_xy := eq_r_simd_r_simd_xy sp;
     eq_r_mpi_r_mpi_xy := eq_r_mpi_r_mpi_xy sp; sp_lagrange := sp_lagrange sp |}.
Definition with_rx (sp : vpad K) v p1 p2 : vpad K :=
  {| eq_evals_at_rz0 := eq_evals_at_rz0 sp; eq_evals_at_r_simd := eq_evals_at_r_simd sp; eq_evals_at_r_mpi := eq_evals_at_r_mpi sp;
     eq_evals_at_rx := v; eq_evals_at_ry := eq_evals_at_ry sp; eq_evals_first_part := p1; eq_evals_second_part := p2;
     sp_r_simd := sp_r_simd sp; sp_r_mpi := sp_r_mpi sp; eq_r_simd_r_simd_xy := eq_r_simd_r_simd_xy sp;
     eq_r_mpi_r_mpi_xy := eq_r_mpi_r_mpi_xy sp; sp_lagrange := sp_lagrange sp |}.
Definition with_ry (sp : vpad K) v p1 p2 : vpad K :=
  {| eq_evals_at_rz0 := eq_evals_at_rz0 sp; eq_evals_at_r_simd := eq_evals_at_r_simd sp; eq_evals_at_r_mpi := eq_evals_at_r_mpi sp;
     eq_evals_at_rx := eq_evals_at_rx sp; eq_evals_at_ry := v; eq_evals_first_part := p1; eq_evals_second_part := p2;
     sp_r_simd := sp_r_simd sp; sp_r_mpi := sp_r_mpi sp; eq_r_simd_r_simd_xy := eq_r_simd_r_simd_xy sp;
     eq_r_mpi_r_mpi_xy := eq_r_mpi_r_mpi_xy sp; sp_lagrange := sp_lagrange sp |}.
Definition with_lanes (sp : vpad K) es em p1 p2 rs rm : vpad K :=
  {| eq_evals_at_rz0 := eq_evals_at_rz0 sp; eq_evals_at_r_simd := es; eq_evals_at_r_mpi := em;
     eq_evals_at_rx := eq_evals_at_rx sp; eq_evals_at_ry := eq_evals_at_ry sp; eq_evals_first_part := p1; eq_evals_second_part := p2;
     sp_r_simd := rs; sp_r_mpi := rm; eq_r_simd_r_simd_xy := eq_r_simd_r_simd_xy sp;
     eq_r_mpi_r_mpi_xy := eq_r_mpi_r_mpi_xy sp; sp_lagrange := sp_lagrange sp |}.
Definition with_eqs (sp : vpad K) es em : vpad K :=
  {| eq_evals_at_rz0 := eq_evals_at_rz0 sp; eq_evals_at_r_simd := eq_evals_at_r_simd sp; eq_evals_at_r_mpi := eq_evals_at_r_mpi sp;
     eq_evals_at_rx := eq_evals_at_rx sp; eq_evals_at_ry := eq_evals_at_ry sp;
     eq_evals_first_part := eq_evals_first_part sp; eq_evals_second_part := eq_evals_second_part sp;
     sp_r_simd := sp_r_simd sp; sp_r_mpi := sp_r_mpi sp; eq_r_simd_r_simd_xy := es;
     eq_r_mpi_r_mpi_xy := em; sp_lagrange := sp_lagrange sp |}.

(** ** verifier_helper.rs *)

(** [for i in 0..n { a[i] += c * b[i] }] *)
Definition add_scaled (n : nat) (c : K) (b a : list K) : option (list K) :=
  for_in (seq 0 n) (fun i a => let* x := aget a i in let* y := aget b i in aset a i (x + c * y)) a.
(** [a[..n].copy_from_slice(&b[..n])] *)
Definition copy_prefix (n : nat) (b a : list K) : option (list K) :=
  let* _ := guard ((n <=? length b) && (n <=? length a)) in Some (firstn n b ++ skipn n a).

(** 45-64, 97-116: the tables for the SIMD and MPI variables *)
Definition prepare_lanes (ch : dual_challenge K) (sp : vpad K) : option (vpad K) :=
  let* (es, p1, p2) := eq_eval_at (r_simd ch) 1 (eq_evals_at_r_simd sp) (eq_evals_first_part sp) (eq_evals_second_part sp) in
  let* (em, p1, p2) := eq_eval_at (r_mpi ch) 1 (eq_evals_at_r_mpi sp) p1 p2 in
  Some (with_lanes sp es em p1 p2 (r_simd ch) (r_mpi ch)).
(** [alpha.is_none() == rz_1.is_none()] *)
Definition same_none {A B} (a : option A) (b : option B) : bool :=
  match a, b with Some _, Some _ => true | None, None => true | _, _ => false end.
(** 18-65 prepare_layer *)
Definition prepare_layer (l : player) (alpha : option K) (ch : dual_challenge K) (is_output_layer : bool) (sp : vpad K) : option (vpad K) :=
  let* _ := guard (same_none alpha (rz_1 ch)) in
  let* sp :=
    if is_output_layer then
      let* (z, p1, p2) := eq_eval_at (rz_0 ch) 1 (eq_evals_at_rz0 sp) (eq_evals_first_part sp) (eq_evals_second_part sp) in
      Some (with_rz0 sp z p1 p2)
    else
      let* z := copy_prefix (2 ^ length (rz_0 ch)) (eq_evals_at_rx sp) (eq_evals_at_rz0 sp) in
      let* z := match alpha, rz_1 ch with
                | Some a, Some _ => add_scaled (2 ^ pl_ovars K l) a (eq_evals_at_ry sp) z
                | _, _ => Some z
                end in
      Some (with_rz0 sp z (eq_evals_first_part sp) (eq_evals_second_part sp)) in
  prepare_lanes ch sp.
(** 72-117 prepare_layer_non_sequential *)
Definition prepare_layer_non_sequential (l : player) (alpha : option K) (ch : dual_challenge K) (sp : vpad K) : option (vpad K) :=
  let* (z, p1, p2) := eq_eval_at (rz_0 ch) 1 (eq_evals_at_rz0 sp) (eq_evals_first_part sp) (eq_evals_second_part sp) in
  let* sp :=
    match alpha, rz_1 ch with
    | Some a, Some rz1 =>
      let* (x, p1, p2) := eq_eval_at rz1 1 (eq_evals_at_rx sp) p1 p2 in
      let* z := add_scaled (2 ^ pl_ovars K l) a x z in
      Some (with_rx (with_rz0 sp z p1 p2) x p1 p2)
    | _, _ => Some (with_rz0 sp z p1 p2)
    end in
  prepare_lanes ch sp.

(** utils.rs:11-23 unpack_and_combine *)
Definition unpack_and_combine (p coef : list K) : K := fsum (map (fun pc => fst pc * snd pc) (combine p coef)).
(** 120-158 eval_cst *)
Definition eval_cst (gates : list pgate) (public_input : list (list K)) (sp : vpad K) : option K :=
  let mpi_world_size := length (eq_evals_at_r_mpi sp) in
  let local_input_size := (length public_input / mpi_world_size)%nat in
  for_each gates (fun g v =>
    let* tmp :=
      match pg_ctype K g with
      | TPublicInput idx =>
        let* input := omap (fun i => aget public_input (i * local_input_size + idx)) (seq 0 mpi_world_size) in
        let combined := fold_left (fun acc vc => vadd K acc (map (fun x => snd vc * x) (fst vc)))
                          (combine input (eq_evals_at_r_mpi sp)) (repeat 0 (2 ^ simd_vars)) in
        let* e := aget (eq_evals_at_rz0 sp) (pg_out K g) in
        Some (e * unpack_and_combine combined (eq_evals_at_r_simd sp))
      | _ => let* e := aget (eq_evals_at_rz0 sp) (pg_out K g) in Some (e * pg_coef K g)
      end in
    Some (v + tmp)) 0.
(** 161-169 eval_add *)
Definition eval_add (gates : list pgate) (sp : vpad K) : option K :=
  let* v := for_each gates (fun g v =>
      let* z := aget (eq_evals_at_rz0 sp) (pg_out K g) in
      let* i := aget (pg_in K g) 0 in let* x := aget (eq_evals_at_rx sp) i in
      Some (v + z * x * pg_coef K g)) 0 in
  Some (v * eq_r_simd_r_simd_xy sp * eq_r_mpi_r_mpi_xy sp).
(** 172-181 eval_mul *)
Definition eval_mul (gates : list pgate) (sp : vpad K) : option K :=
  let* v := for_each gates (fun g v =>
      let* i := aget (pg_in K g) 0 in let* x := aget (eq_evals_at_rx sp) i in
      let* j := aget (pg_in K g) 1 in let* y := aget (eq_evals_at_ry sp) j in
      let tmp := x * y * pg_coef K g in
      let* z := aget (eq_evals_at_rz0 sp) (pg_out K g) in
      Some (v + z * tmp)) 0 in
  Some (v * eq_r_simd_r_simd_xy sp * eq_r_mpi_r_mpi_xy sp).
(** 349-378 set_rx, set_r_simd_xy, set_r_mpi_xy, set_ry *)
Definition set_rx (rx : list K) (sp : vpad K) : option (vpad K) :=
  let* (v, p1, p2) := eq_eval_at rx 1 (eq_evals_at_rx sp) (eq_evals_first_part sp) (eq_evals_second_part sp) in
  Some (with_rx sp v p1 p2).
Definition set_ry (ry : list K) (sp : vpad K) : option (vpad K) :=
  let* (v, p1, p2) := eq_eval_at ry 1 (eq_evals_at_ry sp) (eq_evals_first_part sp) (eq_evals_second_part sp) in
  Some (with_ry sp v p1 p2).
Definition set_r_simd_xy (r : list K) (sp : vpad K) : vpad K := with_eqs sp (eq_vec (sp_r_simd sp) r) (eq_r_mpi_r_mpi_xy sp).
Definition set_r_mpi_xy (r : list K) (sp : vpad K) : vpad K := with_eqs sp (eq_r_simd_r_simd_xy sp) (eq_vec (sp_r_mpi sp) r).

(** 381-404 degree_2_eval; INV_2 is the inverse of two *)
Definition degree_2_eval (ps : list K) (x : K) : option K :=
  match ps with
  | [p0; p1; p2] =>
    let c2 := finv (1 + 1) * (p2 - p1 - p1 + p0) in
    let c1 := p1 - p0 - c2 in
    Some (p0 + (c2 * x + c1) * x)
  | _ => None
  end.
(** 426-449 lag_eval (degree_3_eval, degree_6_eval) *)
Definition lag_eval (lag : lagrange K) (vals : list K) (x : K) : option K :=
  let* (evals, inv) :=
    match length vals with
    | 4 => Some (deg3_eval_at lag, deg3_lag_denoms_inv lag)
    | 7 => Some (deg6_eval_at lag, deg6_lag_denoms_inv lag)
    | _ => None
    end%nat in
  for_in (seq 0 (length vals)) (fun i v =>
    let* numerator := for_in (seq 0 (length vals)) (fun j n =>
        if (j =? i)%nat then Some n else let* e := aget evals j in Some (n * (x - e))) 1 in
    let* d := aget inv i in let* y := aget vals i in
    Some (v + numerator * d * y)) 0.

(** ** Transcript and proof reader *)
Section Transcript.
Variable T : Type.
Variable append : K -> T -> T.
(** None: panic (only the random tape can panic) *)
Variable sample : T -> option (K * T).

(** transcript/definition.rs:63-69 generate_field_elements *)
Fixpoint samples (n : nat) (t : T) : option (list K * T) :=
  match n with
  | O => Some ([], t)
  | S n => let* (c, t) := sample t in let* (cs, t) := samples n t in Some (c :: cs, t)
  end.
(** challenge.rs:61-77, 133-152 sample_from_transcript and into *)
Definition sample_from_transcript (num_circuit_var : nat) (t : T) : option (dual_challenge K * T) :=
  let* (rz, t) := samples num_circuit_var t in
  let* (rs, t) := samples simd_vars t in
  let* (rm, t) := samples mpi_vars t in
  Some ({| rz_0 := rz; rz_1 := None; r_simd := rs; r_mpi := rm |}, t).

(** common.rs:12-17 try_deserialize_field *)
Definition reader := list (option K).
Definition try_deserialize_field (rd : reader) : K * bool * reader :=
  match rd with
  | [] => (0, false, [])
  | None :: r => (0, false, r)
  | Some v :: r => (v, true, r)
  end.

(** common.rs:30-37: read [n] values, absorbing each *)
Fixpoint read_message (n : nat) (rd : reader) (t : T) : list K * bool * reader * T :=
  match n with
  | O => ([], true, rd, t)
  | S n =>
    let '(v, ok, rd) := try_deserialize_field rd in
    let '(ps, ok', rd, t) := read_message n rd (append v t) in
    (v :: ps, ok && ok', rd, t)
  end.
(** common.rs:20-53 verify_sumcheck_step: the verdict, the new claimed sum, the challenge *)
Definition verify_sumcheck_step (lag : lagrange K) (degree : nat) (claimed_sum : K) (rd : reader) (t : T)
  : option (bool * K * K * reader * T) :=
  let '(ps, deser_ok, rd, t) := read_message (degree + 1) rd t in
  let* (r, t) := sample t in
  let* p0 := aget ps 0 in let* p1 := aget ps 1 in
  let verified := deser_ok && feqb (p0 + p1) claimed_sum in
  if (degree =? 2)%nat then let* s := degree_2_eval ps r in Some (verified, s, r, rd, t)
  else if (degree =? 3)%nat then let* s := lag_eval lag ps r in Some (verified, s, r, rd, t)
  else if (degree =? 6)%nat then let* s := lag_eval lag ps r in Some (verified, s, r, rd, t)
  else Some (false, claimed_sum, r, rd, t).
(** the loops of common.rs:99-134 and 146-156: the verdict, the sum and the challenges *)
Fixpoint verify_rounds (lag : lagrange K) (n degree : nat) (verified : bool) (sum : K) (rs : list K) (rd : reader) (t : T)
  : option (bool * K * list K * reader * T) :=
  match n with
  | O => Some (verified, sum, rs, rd, t)
  | S n =>
    let* (v, sum, r, rd, t) := verify_sumcheck_step lag degree sum rd t in
    verify_rounds lag n degree (verified && v) sum (rs ++ [r]) rd t
  end.

(** common.rs:58-170 sumcheck_verify_gkr_layer; skip_sumcheck_phase_two is [mul.is_empty()]
    (circuit.rs:125-127) *)
Definition verify_layer (l : player) (public_input : list (list K)) (ch : dual_challenge K) (claimed_v0 : K) (claimed_v1 : option K)
    (alpha : option K) (is_output_layer parallel_verify : bool) (rd : reader) (t : T) (sp : vpad K)
  : option (bool * dual_challenge K * K * option K * reader * T * vpad K) :=
  let* _ := guard (same_none (rz_1 ch) claimed_v1) in
  let* _ := guard (same_none (rz_1 ch) alpha) in
  let* sp := if parallel_verify then prepare_layer_non_sequential l alpha ch sp else prepare_layer l alpha ch is_output_layer sp in
  let var_num := pl_ivars K l in
  let sum := claimed_v0 in
  let sum := match claimed_v1, alpha with Some v1, Some a => sum + v1 * a | _, _ => sum end in
  let* cst := eval_cst (pl_const K l) public_input sp in
  let sum := sum - cst in
  let lag := sp_lagrange sp in
  let* (verified, sum, rx, rd, t) := verify_rounds lag var_num 2 true sum [] rd t in
  let* sp := set_rx rx sp in
  let* (verified, sum, r_simd_xy, rd, t) := verify_rounds lag simd_vars 3 verified sum [] rd t in
  let sp := set_r_simd_xy r_simd_xy sp in
  let* (verified, sum, r_mpi_xy, rd, t) := verify_rounds lag mpi_vars 3 verified sum [] rd t in
  let sp := set_r_mpi_xy r_mpi_xy sp in
  let '(vx_claim, vx_ok, rd) := try_deserialize_field rd in
  let verified := verified && vx_ok in
  let* add := eval_add (pl_add K l) sp in
  let sum := sum - vx_claim * add in
  let t := append vx_claim t in
  if negb (empty (pl_mul K l)) then
    let* (verified, sum, ry, rd, t) := verify_rounds lag var_num 2 verified sum [] rd t in
    let* sp := set_ry ry sp in
    let '(vy_claim, vy_ok, rd) := try_deserialize_field rd in
    let verified := verified && vy_ok in
    let t := append vy_claim t in
    let* mul := eval_mul (pl_mul K l) sp in
    let verified := verified && feqb sum (vx_claim * vy_claim * mul) in
    Some (verified, {| rz_0 := rx; rz_1 := Some ry; r_simd := r_simd_xy; r_mpi := r_mpi_xy |}, vx_claim, Some vy_claim, rd, t, sp)
  else
    let verified := verified && feqb sum 0 in
    Some (verified, {| rz_0 := rx; rz_1 := None; r_simd := r_simd_xy; r_mpi := r_mpi_xy |}, vx_claim, None, rd, t, sp).

(** gkr_vanilla.rs:68-72: alpha for the next layer *)
Definition sample_alpha (ch : dual_challenge K) (t : T) : option (option K * T) :=
  match rz_1 ch with
  | Some _ => let* (a, t) := sample t in Some (Some a, t)
  | None => Some (None, t)
  end.
(** gkr_vanilla.rs:47-73: the loop over the layers, last to first *)
Fixpoint verify_layers (rev_layers : list player) (is_output_layer : bool) (public_input : list (list K)) (verified : bool)
    (ch : dual_challenge K) (v0 : K) (v1 alpha : option K) (rd : reader) (t : T) (sp : vpad K)
  : option (bool * dual_challenge K * K * option K * reader * T) :=
  match rev_layers with
  | [] => Some (verified, ch, v0, v1, rd, t)
  | l :: rest =>
    let* (cur, ch, v0, v1, rd, t, sp) := verify_layer l public_input ch v0 v1 alpha is_output_layer false rd t sp in
    let* (alpha, t) := sample_alpha ch t in
    verify_layers rest false public_input (verified && cur) ch v0 v1 alpha rd t sp
  end.
(** gkr_vanilla.rs:11-81 gkr_verify: verdict, challenge, the two claims; the rest of the proof
    and the transcript, which the caller goes on using *)
Definition gkr_verify (layers : list player) (public_input : list (list K)) (claimed_v : K) (rd : reader) (t : T)
  : option (bool * dual_challenge K * K * option K * reader * T) :=
  let* sp := vpad_new layers in
  let* last := aget layers (length layers - 1) in
  let* (ch, t) := sample_from_transcript (pl_ovars K last) t in
  let t := append claimed_v t in
  verify_layers (rev layers) true public_input true ch claimed_v None None rd t sp.

(** ** structs.rs: splitting the proof for parallel verification *)

(** 12-24 SumcheckClaim, SumcheckVerificationUnit *)
Record unit_ := { u_tape : list K; u_challenge : dual_challenge K; u_claim_x : K; u_alpha : option K; u_claim_y : option K; u_proof : reader }.
(** 27-49 parse_challenge_field: the element, what is added to the unit's proof, ok *)
Definition parse_challenge_field (rd : reader) (t : T) : K * reader * bool * reader * T :=
  match rd with
  | [] => (0, [], false, [], append 0 t)
  | None :: r => (0, [None], false, r, append 0 t)
  | Some v :: r => (v, [Some v], true, r, append v t)
  end.
Fixpoint parse_fields (n : nat) (rd : reader) (t : T) : reader * bool * reader * T :=
  match n with
  | O => ([], true, rd, t)
  | S n =>
    let '(_, b, ok, rd, t) := parse_challenge_field rd t in
    let '(bs, ok', rd, t) := parse_fields n rd t in
    (b ++ bs, ok && ok', rd, t)
  end.
(** 51-75 parse_sumcheck_rounds: the challenges (which also go on the tape), the bytes, ok *)
Fixpoint parse_sumcheck_rounds (n_rounds degree : nat) (rd : reader) (t : T) : option (list K * reader * bool * reader * T) :=
  match n_rounds with
  | O => Some ([], [], true, rd, t)
  | S n =>
    let '(b, ok, rd, t) := parse_fields (degree + 1) rd t in
    let* (c, t) := sample t in
    let* (cs, bs, ok', rd, t) := parse_sumcheck_rounds n degree rd t in
    Some (c :: cs, b ++ bs, ok && ok', rd, t)
  end.
(** 133-208: one layer *)
Definition parse_layer (l : player) (degree : nat) (ch : dual_challenge K) (claim_x : K) (alpha claim_y : option K) (rd : reader) (t : T)
  : option (unit_ * dual_challenge K * K * option K * option K * bool * reader * T) :=
  let* (rz0, b1, ok1, rd, t) := parse_sumcheck_rounds (pl_ivars K l) degree rd t in
  let* (rs, b2, ok2, rd, t) := parse_sumcheck_rounds simd_vars 3 rd t in
  let* (rm, b3, ok3, rd, t) := parse_sumcheck_rounds mpi_vars 3 rd t in
  let '(vx, b4, ok4, rd, t) := parse_challenge_field rd t in
  if negb (empty (pl_mul K l)) then
    let* (rz1, b5, ok5, rd, t) := parse_sumcheck_rounds (pl_ivars K l) degree rd t in
    let '(vy, b6, ok6, rd, t) := parse_challenge_field rd t in
    let* (a, t) := sample t in
    Some ({| u_tape := rz0 ++ rs ++ rm ++ rz1 ++ [a]; u_challenge := ch; u_claim_x := claim_x; u_alpha := alpha; u_claim_y := claim_y;
             u_proof := b1 ++ b2 ++ b3 ++ b4 ++ b5 ++ b6 |},
          {| rz_0 := rz0; rz_1 := Some rz1; r_simd := rs; r_mpi := rm |}, vx, Some vy, Some a,
          ok1 && ok2 && ok3 && ok4 && ok5 && ok6, rd, t)
  else
    Some ({| u_tape := rz0 ++ rs ++ rm; u_challenge := ch; u_claim_x := claim_x; u_alpha := alpha; u_claim_y := claim_y;
             u_proof := b1 ++ b2 ++ b3 ++ b4 |},
          {| rz_0 := rz0; rz_1 := None; r_simd := rs; r_mpi := rm |}, vx, None, None,
          ok1 && ok2 && ok3 && ok4, rd, t).
Fixpoint parse_layers (rev_layers : list player) (degree : nat) (ch : dual_challenge K) (claim_x : K) (alpha claim_y : option K) (rd : reader) (t : T)
  : option (list unit_ * dual_challenge K * K * option K * bool * reader * T) :=
  match rev_layers with
  | [] => Some ([], ch, claim_x, claim_y, true, rd, t)
  | l :: rest =>
    let* (u, ch, claim_x, claim_y, alpha, ok, rd, t) := parse_layer l degree ch claim_x alpha claim_y rd t in
    let* (us, ch, claim_x, claim_y, ok', rd, t) := parse_layers rest degree ch claim_x alpha claim_y rd t in
    Some (u :: us, ch, claim_x, claim_y, ok && ok', rd, t)
  end.
(** 78-211 parse_proof: the units (here last layer first) *)
Definition parse_proof (layers : list player) (degree : nat) (claimed_v : K) (rd : reader) (t : T)
  : option (list unit_ * dual_challenge K * K * option K * bool * reader * T) :=
  match rev layers with
  | [] => Some ([], {| rz_0 := []; rz_1 := None; r_simd := []; r_mpi := [] |}, claimed_v, None, false, rd, t)
  | last :: _ =>
    let* (ch, t) := sample_from_transcript (pl_ovars K last) t in
    let t := append claimed_v t in
    parse_layers (rev layers) degree ch claimed_v None None rd t
  end.
End Transcript.

(** transcript/src/random_tape_transcript.rs:32-58: absorbing does nothing, sampling takes the
    next element and panics at the end of the tape *)
Definition tape_append (x : K) (t : list K) : list K := t.
Definition tape_sample (t : list K) : option (K * list K) := match t with [] => None | c :: r => Some (c, r) end.

(** snark.rs:145-255 gkr_parallel, vanilla scheme.  Every unit is verified on its own copy of a
    fresh scratch pad; the order in which the threads run does not matter.  [all] may skip units
    once one has failed; here all are run, so a panic in any of them is a panic. *)
Definition gkr_parallel (T : Type) (append : K -> T -> T) (sample : T -> option (K * T))
    (layers : list player) (public_input : list (list K)) (claimed_v : K) (rd : reader) (t : T)
  : option (bool * dual_challenge K * K * option K * reader * T) :=
  let* (units, ch, claim_x, claim_y, parse_ok, rd, t) := parse_proof T append sample layers 2 claimed_v rd t in
  let* sp := vpad_new layers in
  let* vs := omap (fun ul : unit_ * player => let (u, l) := ul in
      let* (v, _, _, _, _, _, _) :=
        verify_layer (list K) tape_append tape_sample l public_input (u_challenge u) (u_claim_x u) (u_claim_y u) (u_alpha u)
          false true (u_proof u) (u_tape u) sp in Some v)
    (combine units (rev layers)) in
  Some (forallb (fun v => v) vs && parse_ok, ch, claim_x, claim_y, rd, t).
End Model.
