(** Rust slices as lists, with index faults as explicit failure ([None] is the
    panic of an out-of-range index), and counted loops over a state. *)
From Coq Require Import List Lia Arith Bool.
Import ListNotations.

Definition obind {A B} (o : option A) (f : A -> option B) : option B :=
  match o with Some a => f a | None => None end.
Notation "'let*' x ':=' m 'in' k" := (obind m (fun x => k))
  (at level 200, x pattern, m at level 100, k at level 200, right associativity).

(** [l[i]] *)
Definition aget {A} (l : list A) (i : nat) : option A := nth_error l i.

(** [l[i] = v] *)
Fixpoint aset {A} (l : list A) (i : nat) (v : A) : option (list A) :=
  match l, i with
  | [], _ => None
  | _ :: r, O => Some (v :: r)
  | a :: r, S j => match aset r j v with Some r' => Some (a :: r') | None => None end
  end.

(** [for i in is { s = f(i, s) }] *)
Fixpoint for_in {S} (is : list nat) (f : nat -> S -> option S) (s : S) : option S :=
  match is with
  | [] => Some s
  | i :: r => let* s' := f i s in for_in r f s'
  end.

(** The list [l] holds the values [f 0 .. f (n-1)]. *)
Definition arr {A} (l : list A) (n : nat) (f : nat -> A) : Prop :=
  length l = n /\ forall i, i < n -> nth_error l i = Some (f i).

Lemma arr_self {A} (l : list A) d : arr l (length l) (fun i => nth i l d).
Proof. split; auto. intros i Hi. apply nth_error_nth'. exact Hi. Qed.

Lemma arr_get {A} (l : list A) n f i : arr l n f -> i < n -> aget l i = Some (f i).
Proof. intros (_ & H) Hi. exact (H i Hi). Qed.

Lemma aset_some {A} (l : list A) i v : i < length l ->
  exists l', aset l i v = Some l' /\ length l' = length l /\
    forall k, nth_error l' k = if k =? i then Some v else nth_error l k.
Proof.
  revert i. induction l as [|a l IH]; cbn [length]; intros i Hi; [lia|].
  destruct i as [|i]; cbn [aset].
  - exists (v :: l). repeat split. intros [|k]; reflexivity.
  - destruct (IH i) as (l' & E & L & N); [lia|]. rewrite E. exists (a :: l'). cbn. repeat split; [lia|].
    intros [|k]; cbn; auto.
Qed.

Lemma aset_none {A} (l : list A) i v : length l <= i -> aset l i v = None.
Proof.
  revert i. induction l as [|a l IH]; cbn; intros i Hi; [reflexivity|].
  destruct i; [lia|]. rewrite IH by lia. reflexivity.
Qed.

Lemma arr_set {A} (l : list A) n f i v : arr l n f -> i < n ->
  exists l', aset l i v = Some l' /\ arr l' n (fun k => if k =? i then v else f k).
Proof.
  intros (L & H) Hi. destruct (aset_some l i v) as (l' & E & L' & N); [lia|].
  exists l'. split; auto. split; [lia|]. intros k Hk. rewrite N, H by lia. now destruct (k =? i).
Qed.

Lemma arr_ext {A} (l : list A) n f g : arr l n f -> (forall i, i < n -> f i = g i) -> arr l n g.
Proof. intros (L & H) E. split; auto. intros i Hi. rewrite H, E by auto. reflexivity. Qed.

Lemma nth_error_ext' {A} (l m : list A) : (forall i, nth_error l i = nth_error m i) -> l = m.
Proof.
  revert m. induction l as [|a l IH]; intros [|b m] H; auto.
  - specialize (H 0). discriminate.
  - specialize (H 0). discriminate.
  - f_equal; [specialize (H 0); now injection H|]. apply IH. intros i. exact (H (S i)).
Qed.

Lemma arr_list {A} (l : list A) n f : arr l n f -> l = map f (seq 0 n).
Proof.
  intros (L & H). apply nth_error_ext'. intros i.
  destruct (Nat.lt_ge_cases i n) as [Hi|Hi].
  - rewrite H by auto. rewrite nth_error_map, (nth_error_nth' _ 0) by (now rewrite seq_length).
    cbn. now rewrite seq_nth by auto.
  - rewrite (proj2 (nth_error_None l i)) by lia.
    symmetry. apply nth_error_None. rewrite map_length, seq_length. auto.
Qed.

Lemma arr_map_seq {A} n (f : nat -> A) : arr (map f (seq 0 n)) n f.
Proof.
  split; [now rewrite map_length, seq_length|]. intros i Hi.
  rewrite nth_error_map, (nth_error_nth' _ 0) by (now rewrite seq_length). cbn. now rewrite seq_nth.
Qed.

Lemma arr_uniq {A} (l m : list A) n f : arr l n f -> arr m n f -> l = m.
Proof. intros H1 H2. now rewrite (arr_list _ _ _ H1), (arr_list _ _ _ H2). Qed.

Lemma arr_firstn {A} (l : list A) n f k : arr l n f -> k <= n -> arr (firstn k l) k f.
Proof.
  intros (L & H) Hk. split; [rewrite firstn_length; lia|].
  intros i Hi. rewrite <- (H i) by lia. rewrite <- (firstn_skipn k l) at 2.
  rewrite nth_error_app1; auto. rewrite firstn_length. lia.
Qed.

Lemma arr_skipn {A} (l : list A) n f k : arr l n f -> k <= n -> arr (skipn k l) (n - k) (fun i => f (k + i)).
Proof.
  intros (L & H) Hk. split; [rewrite skipn_length; lia|].
  intros i Hi. rewrite <- (H (k + i)) by lia. rewrite <- (firstn_skipn k l) at 2.
  rewrite nth_error_app2 by (rewrite firstn_length; lia). f_equal. rewrite firstn_length. lia.
Qed.

Lemma arr_app {A} (l m : list A) n k f g : arr l n f -> arr m k g ->
  arr (l ++ m) (n + k) (fun i => if i <? n then f i else g (i - n)).
Proof.
  intros (L & H) (L' & H'). split; [rewrite app_length; lia|]. intros i Hi.
  destruct (Nat.ltb_spec i n).
  - rewrite nth_error_app1 by lia. auto.
  - rewrite nth_error_app2 by lia. rewrite L. apply H'. lia.
Qed.

Lemma for_in_app {S} is js (f : nat -> S -> option S) s :
  for_in (is ++ js) f s = let* s' := for_in is f s in for_in js f s'.
Proof.
  revert s. induction is as [|i is IH]; intros s; cbn; auto. destruct (f i s); cbn; auto.
Qed.

(** Loop rule for [for i in a..a+n]. *)
Lemma for_seq {S} (I : nat -> S -> Prop) (f : nat -> S -> option S) a n s :
  I a s ->
  (forall j s, a <= j < a + n -> I j s -> exists s', f j s = Some s' /\ I (Datatypes.S j) s') ->
  exists s', for_in (seq a n) f s = Some s' /\ I (a + n) s'.
Proof.
  revert a s. induction n as [|n IH]; intros a s H0 Hs; cbn.
  - exists s. rewrite Nat.add_0_r. auto.
  - destruct (Hs a s) as (s1 & E & H1); [lia|auto|]. rewrite E. cbn.
    destruct (IH (Datatypes.S a) s1 H1) as (s2 & E2 & H2).
    + intros j t Hj. apply Hs. lia.
    + exists s2. split; auto. replace (a + Datatypes.S n) with (Datatypes.S a + n) by lia. auto.
Qed.

(** Loop rule for an arbitrary index sequence: the invariant carries the
    number of steps done. *)
Lemma for_list {S} (I : nat -> S -> Prop) (f : nat -> S -> option S) is s :
  I 0 s ->
  (forall j i s, nth_error is j = Some i -> I j s -> exists s', f i s = Some s' /\ I (Datatypes.S j) s') ->
  exists s', for_in is f s = Some s' /\ I (length is) s'.
Proof.
  revert I s. induction is as [|i is IH]; intros I s H0 Hs; cbn.
  - exists s; auto.
  - destruct (Hs 0 i s) as (s1 & E & H1); [reflexivity|auto|]. rewrite E. cbn.
    apply (IH (fun j => I (Datatypes.S j)) s1 H1). intros j k t Hj. apply Hs. exact Hj.
Qed.

(** [for x in xs] over elements. *)
Fixpoint for_each {A S} (xs : list A) (f : A -> S -> option S) (s : S) : option S :=
  match xs with
  | [] => Some s
  | x :: r => let* s' := f x s in for_each r f s'
  end.

(** Checked [assert!]. *)
Definition guard (b : bool) : option unit := if b then Some tt else None.

(** All-or-nothing map. *)
Fixpoint omap {A B} (f : A -> option B) (l : list A) : option (list B) :=
  match l with
  | [] => Some []
  | a :: r => let* b := f a in let* bs := omap f r in Some (b :: bs)
  end.

Lemma omap_total {A B} (f : A -> option B) (g : A -> B) l :
  (forall a, In a l -> f a = Some (g a)) -> omap f l = Some (map g l).
Proof.
  induction l as [|a l IH]; cbn; intros H; auto. rewrite H by auto. cbn. rewrite IH by auto. reflexivity.
Qed.

(** Loop rule for [for x in xs]: the invariant sees the elements already visited. *)
Lemma for_each_rule {A S} (I : list A -> S -> Prop) (f : A -> S -> option S) xs s :
  I [] s ->
  (forall done x rest s, xs = done ++ x :: rest -> I done s -> exists s', f x s = Some s' /\ I (done ++ [x]) s') ->
  exists s', for_each xs f s = Some s' /\ I xs s'.
Proof.
  intros H0 Hs. enough (G : forall ys done s, xs = done ++ ys -> I done s ->
    exists s', for_each ys f s = Some s' /\ I xs s') by (apply (G xs []); auto).
  induction ys as [|y ys IH]; intros done t E H; cbn.
  - exists t. rewrite app_nil_r in E. now subst.
  - destruct (Hs done y ys t E H) as (t' & E' & H'). rewrite E'. cbn. apply IH with (done ++ [y]); auto.
    now rewrite <- app_assoc.
Qed.
Lemma for_each_app {A S} (f : A -> S -> option S) xs ys s :
  for_each (xs ++ ys) f s = let* s' := for_each xs f s in for_each ys f s'.
Proof. revert s. induction xs as [|x xs IH]; intros s; cbn; auto. destruct (f x s); cbn; auto. Qed.
Lemma arr_repeat {A} (x : A) n : arr (repeat x n) n (fun _ => x).
Proof.
  split; [apply repeat_length|]. intros i Hi. rewrite (nth_error_nth' _ x) by (now rewrite repeat_length).
  f_equal. apply nth_repeat.
Qed.
