From Coq Require Import ZArith Znumtheory List Bool Lia.
From Verif Require Import Base.Field Model.LogUp Model.LogUpHints Proofs.LogUp.
Import ListNotations.
Local Open Scope Z_scope.

(** [counts_of table qs]: how often each table entry occurs among the queries. *)
Definition counts_of (table qs : list Z) : list Z :=
  map (fun t => Z.of_nat (count_occ Z.eq_dec qs t)) table.

Lemma upd_length A (l : list A) i f : length (upd l i f) = length l.
Proof. revert i. induction l as [|x l IH]; intros [|i]; cbn; auto. Qed.

Lemma upd_nth A (l : list A) i f j d : (i < length l)%nat ->
  nth j (upd l i f) d = if (j =? i)%nat then f (nth j l d) else nth j l d.
Proof.
  revert i j. induction l as [|x l IH]; intros i j Hi; [cbn in Hi; lia|].
  destruct i as [|i], j as [|j]; cbn [upd nth]; auto.
  cbn in Hi. rewrite IH by lia. cbn. reflexivity.
Qed.

Lemma count_loop_spec inputs count :
  Forall (fun x => 0 <= x < Z.of_nat (length count)) inputs -> Z.of_nat (length count) <= 2 ^ 64 ->
  exists out, count_loop inputs count = Some out /\ length out = length count /\
    forall j, (j < length count)%nat ->
      nth j out 0 = nth j count 0 + Z.of_nat (count_occ Z.eq_dec inputs (Z.of_nat j)).
Proof.
  intros H. revert count H. induction inputs as [|x r IH]; intros count H Hl.
  - exists count. cbn. repeat split; auto. intros. lia.
  - inversion H; subst. cbn [count_loop]. rewrite (Z.mod_small x) by lia.
    destruct (Z.leb_spec (Z.of_nat (length count)) x); [lia|].
    destruct (IH (upd count (Z.to_nat x) (fun v => v + 1))) as (out & E & L & N).
    + rewrite upd_length. auto.
    + rewrite upd_length. auto.
    + rewrite upd_length in *. exists out. split; [auto|]. split; [auto|].
      intros j Hj. rewrite N by auto. rewrite upd_nth by lia. cbn [count_occ].
      destruct (Nat.eqb_spec j (Z.to_nat x)), (Z.eq_dec x (Z.of_nat j)); try lia.
Qed.

Lemma list_eq_nth (l m : list Z) : length l = length m ->
  (forall j, (j < length l)%nat -> nth j l 0 = nth j m 0) -> l = m.
Proof. intros. apply (nth_ext _ _ 0 0); auto. Qed.

(** The range-table hint returns the true multiplicities. *)
Theorem query_count_hint_correct qs n :
  Forall (fun x => 0 <= x < Z.of_nat n) qs -> Z.of_nat n <= 2 ^ 64 ->
  Z.of_nat (length qs) < 2 ^ 32 ->
  query_count_hint qs n = Some (counts_of (map Z.of_nat (seq 0 n)) qs).
Proof.
  intros H Hn Hq. unfold query_count_hint.
  destruct (count_loop_spec qs (repeat 0 n)) as (out & E & L & N).
  { rewrite repeat_length. auto. } { rewrite repeat_length. auto. }
  rewrite E. cbn. f_equal. rewrite repeat_length in *.
  unfold counts_of. rewrite map_map.
  apply list_eq_nth; rewrite !map_length, ?seq_length; [auto|].
  intros j Hj. rewrite L in Hj.
  rewrite (nth_indep _ 0 (0 mod 2 ^ 32)) by (rewrite map_length; lia).
  rewrite (map_nth (fun v => v mod 2 ^ 32)), N by auto.
  rewrite nth_repeat, Z.add_0_l.
  rewrite Z.mod_small.
  - rewrite (nth_indep _ 0 (Z.of_nat (count_occ Z.eq_dec qs (Z.of_nat 0))))
      by (rewrite map_length, seq_length; lia).
    rewrite (map_nth (fun x => Z.of_nat (count_occ Z.eq_dec qs (Z.of_nat x)))), seq_nth by lia.
    reflexivity.
  - pose proof (count_occ_bound Z.eq_dec (Z.of_nat j) qs). lia.
Qed.

(** The key-table hint is right when no two keys in play agree modulo 2^32. *)
Theorem query_count_by_key_correct table qs :
  (forall t q, In t table -> In q qs -> key32 t = key32 q -> t = q) ->
  Z.of_nat (length qs) < 2 ^ 32 ->
  query_count_by_key_hint table qs = counts_of table qs.
Proof.
  intros Hinj Hq. unfold query_count_by_key_hint, counts_of. apply map_ext_in. intros t Ht.
  unfold count_key.
  assert (E : length (filter (fun q => key32 q =? key32 t) qs) = count_occ Z.eq_dec qs t).
  { assert (H' : forall q, In q qs -> key32 t = key32 q -> t = q) by (intros; apply Hinj; auto).
    clear - H'. induction qs as [|q qs IH]; cbn; auto.
    destruct (Z.eqb_spec (key32 q) (key32 t)) as [E|E], (Z.eq_dec q t) as [E'|E']; cbn.
    - f_equal. apply IH. intros; apply H'; auto. now right.
    - exfalso. apply E'. symmetry. apply H'; auto. now left.
    - subst. congruence.
    - apply IH. intros; apply H'; auto. now right. }
  rewrite E. apply Z.mod_small. pose proof (count_occ_bound Z.eq_dec t qs). lia.
Qed.
