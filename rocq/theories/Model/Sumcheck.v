(** Model of the generic sumcheck of prover/sumcheck/src/sumcheck_generic.rs
    (with its files sumcheck_generic/prover.rs and sumcheck_generic/verifier.rs)
    and of prover/arith/polynomials/src/sum_of_products.rs.
    The field is abstract, a multilinear polynomial is its coefficient vector
    (the values on the cube), a panic is [None].  The transcript is a state [T]
    with two operations: absorbing a prover message and sampling one field
    element.  rayon's parallel iterators are the corresponding maps (each
    closure reads shared data and writes its own cell). *)
From Coq Require Import List Arith Bool.
From Verif Require Import Base.Field Base.Array Model.Polynomials.
Import ListNotations.

Section Model.
Variable K : field.
Local Open Scope fld_scope.

(** mle.rs:27-29, 221-223  num_vars (ark_std's log2, rounding up) *)
Definition num_vars1 (coeffs : list K) : nat := Nat.log2_up (length coeffs).

(** sum_of_products.rs:9-12  SumOfProductsPoly *)
Definition sop := list (list K * list K).

(** sum_of_products.rs:25-31  num_vars *)
Definition num_vars (p : sop) : nat := fold_left Nat.max (map (fun fg => num_vars1 (fst fg)) p) O.

(** sum_of_products.rs:34-37  add_pair *)
Definition add_pair (p : sop) (f g : list K) : option sop :=
  let* _ := guard (num_vars1 f =? num_vars1 g) in Some (p ++ [(f, g)]).

(** [zip], multiply, [sum] *)
Definition dot (f g : list K) : K := fold_left fadd (map (fun ab => fst ab * snd ab) (combine f g)) 0.

(** sum_of_products.rs:40-56  evaluate ([split_at] panics when the polynomial
    has more variables than the point) *)
Definition evaluate (p : sop) (point : list K) : option K :=
  let* vs := omap (fun fg : list K * list K =>
      let n := num_vars1 (fst fg) in
      let* _ := guard (n <=? length point) in
      let remaining := firstn (length point - n) point in
      let for_polys := skipn (length point - n) point in
      let* a := eval_reverse_order (fst fg) for_polys in
      let* b := eval_reverse_order (snd fg) for_polys in
      let* e := ith_eq_vec_elem remaining 0 in
      Some (a * b * (e * e))) p in
  Some (fold_left fadd vs 0).

(** sum_of_products.rs:59-64  sum *)
Definition sum (p : sop) : K :=
  fold_left fadd (flat_map (fun fg => map (fun ab => fst ab * snd ab) (combine (fst fg) (snd fg))) p) 0.

(** sumcheck_generic.rs:43-57  IOPProverState *)
Record prover_state := {
  challenges : list K;
  init_num_vars : nat;
  round : nat;
  mle_list : sop;
  init_sum_of_vals : list K;
  eq_prefix : list K }.

(** prover.rs:12-32  prover_init *)
Definition prover_init (p : sop) : prover_state :=
  {| challenges := [];
     init_num_vars := num_vars p;
     round := 0;
     mle_list := p;
     init_sum_of_vals := map (fun fg => dot (fst fg) (snd fg)) p;
     eq_prefix := repeat 1 (length p) |}.

(** prover.rs:162-168  get_sub_idx (the subtraction underflows when the
    polynomial has more variables than the sum: panic) *)
Definition get_sub_idx (init rnd local : nat) : option (option nat) :=
  let* _ := guard (local <=? init) in
  if rnd <? init - local + 1 then Some None else Some (Some (rnd - (init - local + 1))%nat).

(** prover.rs:170-186  fix_top_variable_for_poly_pairs, for one pair and its
    prefix, and for all of them *)
Definition fix_pair (init rnd : nat) (r : K) (fge : list K * list K * K) : option (list K * list K * K) :=
  let '(f, g, e) := fge in
  let* s := get_sub_idx init rnd (num_vars1 f) in
  match s with
  | Some _ => Some (fix_top_variable f r, fix_top_variable g r, e)
  | None => Some (f, g, e * (1 - r))
  end.
Definition fix_pairs (st : prover_state) (r : K) : option (sop * list K) :=
  let* l := omap (fix_pair (init_num_vars st) (round st) r) (combine (mle_list st) (eq_prefix st)) in
  Some (map fst l, map snd l).

(** prover.rs:101-148  the contribution of one pair to the round's message *)
Definition local_message (init rnd : nat) (f g : list K) (e total : K) : option (K * K * K) :=
  let* s := get_sub_idx init rnd (num_vars1 f) in
  match s with
  | Some sub_idx =>
    let* _ := guard (sub_idx + 1 <=? num_vars1 f) in
    let len := (2 ^ (num_vars1 f - sub_idx - 1))%nat in
    let* _ := guard (len <=? length f) in
    let* _ := guard (len <=? length g) in
    let f_lo := firstn len f in let f_hi := skipn len f in
    let g_lo := firstn len g in let g_hi := skipn len g in
    let at2 := fun lo hi => map (fun ab => - fst ab + (snd ab + snd ab)) (combine lo hi) in
    let ee := e * e in
    Some (dot f_lo g_lo * ee, dot f_hi g_hi * ee, dot (at2 f_lo f_hi) (at2 g_lo g_hi) * ee)
  | None => let h := e * e * total in Some (h, 0, h)
  end.

(** prover.rs:38-160  prove_round_and_update_state.  Returns the message (the
    values at 0, 1 and 2) and the new state. *)
Definition prove_round (st : prover_state) (challenge : option K) : option (list K * prover_state) :=
  let* _ := guard (round st <? init_num_vars st) in
  let* st := match challenge with
    | Some chal =>
      let* _ := guard (negb (round st =? 0)) in
      let cs := challenges st ++ [chal] in
      let* r := aget cs (round st - 1) in
      let* fe := fix_pairs st r in
      Some {| challenges := cs; init_num_vars := init_num_vars st; round := round st;
              mle_list := fst fe; init_sum_of_vals := init_sum_of_vals st; eq_prefix := snd fe |}
    | None =>
      let* _ := guard (round st =? 0) in Some st
    end in
  let rnd := (round st + 1)%nat in
  let* hs := omap (fun x : (list K * list K) * (K * K) =>
      local_message (init_num_vars st) rnd (fst (fst x)) (snd (fst x)) (fst (snd x)) (snd (snd x)))
    (combine (mle_list st) (combine (eq_prefix st) (init_sum_of_vals st))) in
  let h0 := fold_left fadd (map (fun h => fst (fst h)) hs) 0 in
  let h1 := fold_left fadd (map (fun h => snd (fst h)) hs) 0 in
  let h2 := fold_left fadd (map (fun h => snd h) hs) 0 in
  Some ([h0; h1; h2],
    {| challenges := challenges st; init_num_vars := init_num_vars st; round := rnd;
       mle_list := mle_list st; init_sum_of_vals := init_sum_of_vals st; eq_prefix := eq_prefix st |}).

(** sumcheck_generic.rs:21-25  IOPProof *)
Record iop_proof := { proofs : list (list K); point : list K }.

(** sumcheck_generic.rs:76-82  SumCheckSubClaim *)
Record subclaim := { sub_point : list K; expected_evaluation : K }.

Variable T : Type.
Variable append : list K -> T -> T.
Variable sample : T -> K * T.

(** sumcheck_generic.rs:97-122  prove: the loop (state: prover state, last
    challenge, messages, transcript) and the final push *)
Fixpoint prove_loop (fuel : nat) (st : prover_state) (challenge : option K) (msgs : list (list K)) (t : T)
  : option (prover_state * option K * list (list K) * T) :=
  match fuel with
  | O => Some (st, challenge, msgs, t)
  | S k =>
    let* ms := prove_round st challenge in
    let (m, st') := ms in
    let (c, t') := sample (append m t) in
    prove_loop k st' (Some c) (msgs ++ [m]) t'
  end.
Definition prove (p : sop) (t : T) : option (iop_proof * T) :=
  let* out := prove_loop (num_vars p) (prover_init p) None [] t in
  let '(st, challenge, msgs, t) := out in
  let cs := match challenge with Some c => challenges st ++ [c] | None => challenges st end in
  Some ({| proofs := msgs; point := cs |}, t).

(** verifier.rs:8-16, 24-55 and sumcheck_generic.rs:132-140: the verifier's
    rounds.  State: round, finished, challenges, received polynomials. *)
Definition verify_round (num_vars : nat) (m : list K) (t : T) (st : nat * bool * list K * list (list K))
  : option (nat * bool * list K * list (list K) * T) :=
  let '(rnd, finished, chals, polys) := st in
  let* _ := guard (negb finished) in
  let (c, t') := sample t in
  let done := rnd =? num_vars in
  Some (if done then rnd else (rnd + 1)%nat, done, chals ++ [c], polys ++ [m], t').
Definition verify_rounds (n : nat) (pf : iop_proof) (t : T)
  : option (nat * bool * list K * list (list K) * T) :=
  for_in (seq 0 n) (fun i st =>
      let '(st, t) := st in
      let* m := aget (proofs pf) i in
      verify_round n m (append m t) st)
    (1%nat, false, [], [], t).

(** [F::from(2u32).inv().unwrap()] *)
Definition inv_two : option K := if feqb (1 + 1 : K) 0 then None else Some (finv (1 + 1)).

(** verifier.rs:76-102  the deferred checks, round by round.  [Some None] is the
    early return of [false]. *)
Fixpoint check_rounds (polys : list (list K)) (chals : list K) (expected : K) : option (option K) :=
  match polys, chals with
  | evals :: ps, c :: cs =>
    let* e0 := aget evals 0 in
    let* e1 := aget evals 1 in
    if feqb expected (e0 + e1) then
      let* e2 := aget evals 2 in
      let* i2 := inv_two in
      let h_0 := e0 in
      let h_2 := (e2 + e0) * i2 - e1 in
      let h_1 := e1 - h_0 - h_2 in
      check_rounds ps cs (h_0 + h_1 * c + h_2 * (c * c))
    else Some None
  | _, _ => Some (Some expected)
  end.

(** sumcheck_generic.rs:125-142  verify, with verifier.rs:65-113
    check_and_generate_subclaim *)
Definition default_subclaim : subclaim := {| sub_point := []; expected_evaluation := 0 |}.
Definition verify (claimed_sum : K) (pf : iop_proof) (n : nat) (t : T) : option (bool * subclaim * T) :=
  let* out := verify_rounds n pf t in
  let '(_, finished, chals, polys, t') := out in
  let* _ := guard finished in
  if negb (length polys =? n) then Some (false, default_subclaim, t')
  else
    let* e := check_rounds polys chals claimed_sum in
    match e with
    | Some expected => Some (true, {| sub_point := chals; expected_evaluation := expected |}, t')
    | None => Some (false, default_subclaim, t')
    end.

(** sumcheck_generic.rs:90-92  extract_sum *)
Definition extract_sum (pf : iop_proof) : option K :=
  let* m := aget (proofs pf) 0 in
  let* a := aget m 0 in
  let* b := aget m 1 in
  Some (a + b).

End Model.
Arguments num_vars1 {_}. Arguments num_vars {_}. Arguments add_pair {_}. Arguments dot {_}. Arguments evaluate {_}.
Arguments sum {_}. Arguments challenges {_}. Arguments init_num_vars {_}. Arguments round {_}. Arguments mle_list {_}.
Arguments init_sum_of_vals {_}. Arguments eq_prefix {_}. Arguments prover_init {_}. Arguments fix_pair {_}.
Arguments fix_pairs {_}. Arguments local_message {_}. Arguments prove_round {_}. Arguments proofs {_}.
Arguments point {_}. Arguments sub_point {_}. Arguments expected_evaluation {_}. Arguments prove_loop {_ _}.
Arguments prove {_ _}. Arguments verify_round {_ _}. Arguments verify_rounds {_ _}. Arguments inv_two {_}.
Arguments check_rounds {_}. Arguments default_subclaim {_}. Arguments verify {_ _}. Arguments extract_sum {_}.
Arguments Build_iop_proof {_}. Arguments Build_subclaim {_}. Arguments Build_prover_state {_}.
