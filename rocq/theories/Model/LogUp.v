(** Model of the LogUp lookup argument,
    /repo/compiler/circuit-std-rs/src/logup.rs.
    Circuit variables are modelled by their field values; the builder calls
    [add], [mul], [sub] become field operations and [assert_is_equal] becomes a
    proposition about the values. *)
From Coq Require Import List Arith Bool.
From Verif Require Import Base.Field.
Import ListNotations.

Section LogUp.
Variable K : field.
Local Open Scope fld_scope.

(** struct Rational, logup.rs:33-37 *)
Record rational := mkRat { num : K; den : K }.

(** add_rational, logup.rs:39-51 *)
Definition add_rational (v1 v2 : rational) : rational :=
  let p1 := num v1 * den v2 in
  let p2 := den v1 * num v2 in
  mkRat (p1 + p2) (den v1 * den v2).

(** assert_eq_rational, logup.rs:53-57: the asserted equation *)
Definition assert_eq_rational (v1 v2 : rational) : Prop :=
  num v1 * den v2 = den v1 * num v2.

(** One iteration of the while loop of sum_rational_vec, logup.rs:79-91:
    entry [i] is added to entry [i + half]; an odd last entry is kept. *)
Fixpoint map2 {A B C} (f : A -> B -> C) (l : list A) (m : list B) : list C :=
  match l, m with
  | a :: l', b :: m' => f a b :: map2 f l' m'
  | _, _ => []
  end.

Definition sum_step (vs : list rational) : list rational :=
  let n := length vs in
  let half := Nat.div2 n in
  map2 add_rational (firstn half vs) (firstn half (skipn half vs))
  ++ (if Nat.odd n then skipn (n - 1) vs else []).

(** sum_rational_vec, logup.rs:59-93.  The loop runs while more than one value
    is left; [fuel] is the initial length, which bounds the iterations
    (lemma [sum_loop_one] shows it is enough). *)
Fixpoint sum_loop (fuel : nat) (vs : list rational) : list rational :=
  match fuel with
  | O => vs
  | S f => if Nat.leb (length vs) 1 then vs else sum_loop f (sum_step vs)
  end.

Definition rat_zero : rational := mkRat 0 1.

Definition sum_rational_vec (vs : list rational) : rational :=
  match vs with
  | [] => rat_zero
  | _ => hd rat_zero (sum_loop (length vs) vs)
  end.

(** logup_poly_val, logup.rs:138-153: the sum of [c / (x - v)]; [zip]
    truncates to the shorter list, as [combine] does. *)
Definition logup_poly_val (vals counts : list K) (x : K) : rational :=
  sum_rational_vec (map (fun vc => mkRat (snd vc) (x - fst vc)) (combine vals counts)).

(** LogUpRangeProofTable::final_check, logup.rs:444-464: [alpha] is the random
    value, [query_count] the (unconstrained) hint output, one entry per table
    key.  An empty query list adds no constraint. *)
Definition range_final_check (table_keys query_keys query_count : list K) (alpha : K) : Prop :=
  match query_keys with
  | [] => True
  | _ =>
    assert_eq_rational
      (logup_poly_val table_keys query_count alpha)
      (logup_poly_val query_keys (repeat 1 (length query_keys)) alpha)
  end.

(** get_column_randomness, logup.rs:102-112: the constant one followed by the
    random values [betas]. *)
Definition column_randomness (betas : list K) : list K := 1 :: betas.

(** combine_columns, logup.rs:114-136 (one row) *)
Definition combine_row (row randomness : list K) : K :=
  fold_left (fun acc vr => acc + fst vr * snd vr) (combine row randomness) 0.

Definition combine_columns (rows : list (list K)) (randomness : list K) : list K :=
  map (fun row => combine_row row randomness) rows.

(** LogUpSingleKeyTable::final_check, logup.rs:297-330; rows are a key
    followed by its values.  The panics on an empty table or query list are the
    [False] cases. *)
Definition single_key_final_check (table queries : list (list K)) (query_count : list K)
    (alpha : K) (betas : list K) : Prop :=
  match table, queries with
  | [], _ | _, [] => False
  | _, _ =>
    let r := column_randomness betas in
    let t := combine_columns table r in
    let q := combine_columns queries r in
    assert_eq_rational
      (logup_poly_val t query_count alpha)
      (logup_poly_val q (repeat 1 (length q)) alpha)
  end.

End LogUp.
Arguments mkRat {_}. Arguments num {_}. Arguments den {_}.
Arguments add_rational {_}. Arguments assert_eq_rational {_}. Arguments sum_rational_vec {_}.
Arguments sum_step {_}. Arguments sum_loop {_}. Arguments rat_zero {_}.
Arguments logup_poly_val {_}. Arguments range_final_check {_}. Arguments single_key_final_check {_}.
Arguments combine_row {_}. Arguments combine_columns {_}. Arguments column_randomness {_}.
