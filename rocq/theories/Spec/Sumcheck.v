(** Specification vocabulary for the sumcheck protocols: sums over the Boolean
    cube, the polynomial of a list of pairs, interaction and counting. *)
From Coq Require Import List Arith Bool.
From Verif Require Import Base.Field Base.Poly Spec.Multilinear.
Import ListNotations.

Section Sumcheck.
Variable K : field.
Local Open Scope fld_scope.

(** The sum of P over {0,1}^n. *)
Fixpoint cube_sum (n : nat) (P : list K -> K) : K :=
  match n with
  | O => P []
  | S k => cube_sum k (fun x => P (0 :: x)) + cube_sum k (fun x => P (1 :: x))
  end.

(** The polynomial of a list of pairs of tables, in n variables.  The table of a
    pair with 2^m entries uses the last m coordinates (the first of them is the
    most significant index bit); in the other coordinates the pair is
    (1 - x)^2 each, so that it lives on the part of the cube where they are 0. *)
Definition table (c : list K) : nat -> K := fun i => nth i c 0.
Definition pair_poly (fg : list K * list K) (x : list K) : K :=
  let m := Nat.log2 (length (fst fg)) in
  let y := rev (skipn (length x - m) x) in
  let pre := fprod (map (fun r => 1 - r) (firstn (length x - m) x)) in
  mle (table (fst fg)) y * mle (table (snd fg)) y * (pre * pre).
Definition sop_poly (p : list (list K * list K)) (x : list K) : K := fsum (map (fun fg => pair_poly fg x) p).

(** Tables whose lengths are powers of two, equal within a pair, at most 2^n
    and 2^n for some pair. *)
Definition well_formed (n : nat) (p : list (list K * list K)) : Prop :=
  (forall f g, In (f, g) p -> exists m, (m <= n)%nat /\ length f = (2 ^ m)%nat /\ length g = (2 ^ m)%nat) /\
  (exists f g, In (f, g) p /\ length f = (2 ^ n)%nat).

(** Degree at most d in every variable. *)
Definition individual_degree (d : nat) (n : nat) (P : list K -> K) : Prop :=
  forall pre post, length (pre ++ post) = pred n -> polyfn d (fun x => P (pre ++ x :: post)).

(** The honest round polynomial after the challenges [pre]: the sum over the
    remaining variables. *)
Definition round_poly (n : nat) (P : list K -> K) (pre : list K) (x : K) : K :=
  cube_sum (n - 1 - length pre) (fun b => P (pre ++ x :: b)).

(** q is the polynomial of degree at most 2 with values e0, e1, e2 at 0, 1, 2. *)
Definition through (e0 e1 e2 : K) (q : K -> K) : Prop :=
  polyfn 2 q /\ q 0 = e0 /\ q 1 = e1 /\ q (1 + 1) = e2.

(** Interaction: the transcript is the list of the verifier's coming challenges;
    absorbing a message does nothing, sampling takes the next one. *)
Definition ignore (m : list K) (t : list K) : list K := t.
Definition next (t : list K) : K * list K := match t with [] => (0, []) | c :: r => (c, r) end.

(** The messages of a prover who chooses each message knowing all challenges
    sent so far. *)
Definition answers (prover : list K -> list K) (n : nat) (r : list K) : list (list K) :=
  map (fun i => prover (firstn i r)) (seq 0 n).

(** The transcript after the messages [ms] and the challenges drawn for them. *)
Definition after {T} (append : list K -> T -> T) (sample : T -> K * T) (ms : list (list K)) (t : T) : T :=
  fold_left (fun t m => snd (sample (append m t))) ms t.

(** All vectors of length n over S. *)
Fixpoint vectors {A} (n : nat) (S : list A) : list (list A) :=
  match n with
  | O => [[]]
  | S k => flat_map (fun a => map (cons a) (vectors k S)) S
  end.

End Sumcheck.
Arguments cube_sum {_}. Arguments table {_}. Arguments pair_poly {_}. Arguments sop_poly {_}. Arguments well_formed {_}.
Arguments individual_degree {_}. Arguments round_poly {_}. Arguments through {_}. Arguments ignore {_}.
Arguments next {_}. Arguments after {_ _}. Arguments answers {_}.
