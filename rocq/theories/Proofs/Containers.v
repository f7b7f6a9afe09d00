From Coq Require Import List Arith Lia Bool Permutation.
From Verif Require Import Base.Array Spec.Containers Model.Containers.
Import ListNotations.

(** ** Pool *)
Section Pool.
Variable V : Type.
Variable eqb : V -> V -> bool.
Hypothesis eqb_ok : forall a b, eqb a b = true <-> a = b.

Definition pool_ok (p : pool V) : Prop :=
  NoDup (pool_vec p) /\
  forall v i, pool_lookup V eqb v (pool_map p) = Some i <-> nth_error (pool_vec p) i = Some v.

Lemma eqb_rf v : eqb v v = true.
Proof. now apply eqb_ok. Qed.

Lemma add_ok p v : pool_ok p ->
  let (p', i) := pool_add V eqb p v in
  pool_ok p' /\ pool_get V p' i = Some v /\
  (exists ext, pool_vec p' = pool_vec p ++ ext) /\
  (In v (pool_vec p) -> p' = p) /\ (~ In v (pool_vec p) -> i = pool_len V p /\ pool_len V p' = S (pool_len V p)).
Proof.
  intros (ND & M). unfold pool_add. destruct (pool_lookup V eqb v (pool_map p)) as [i|] eqn:E.
  - pose proof (proj1 (M v i) E) as G. split; [split; auto|]. split; [exact G|]. split; [exists []; now rewrite app_nil_r|].
    split; [auto|]. intros N. exfalso. apply N. eapply nth_error_In; eauto.
  - assert (NI : ~ In v (pool_vec p)).
    { intros I. apply In_nth_error in I. destruct I as (i & Hi). apply M in Hi. congruence. }
    split; [split|split; [|split; [|split]]]; unfold pool_get, pool_len; cbn [pool_vec pool_map].
    + apply NoDup_rev in ND. rewrite <- (rev_involutive (pool_vec p ++ [v])). apply NoDup_rev. rewrite rev_app_distr. cbn.
      constructor; auto. rewrite <- in_rev. auto.
    + intros w i. unfold pool_lookup; cbn [find fst]. destruct (eqb w v) eqn:Ew.
      * apply eqb_ok in Ew. subst w. cbn. split.
        -- intros X. injection X as <-. rewrite nth_error_app2, Nat.sub_diag by lia. reflexivity.
        -- intros X. destruct (Nat.lt_ge_cases i (length (pool_vec p))) as [L|L].
           ++ rewrite nth_error_app1 in X by auto. exfalso. apply NI. eapply nth_error_In; eauto.
           ++ assert (H : i < length (pool_vec p ++ [v])) by (apply nth_error_Some; congruence).
              rewrite app_length in H. cbn in H. f_equal. lia.
      * change (pool_lookup V eqb w (pool_map p) = Some i <-> nth_error (pool_vec p ++ [v]) i = Some w). rewrite M.
        destruct (Nat.lt_ge_cases i (length (pool_vec p))) as [L|L].
        -- rewrite nth_error_app1 by auto. tauto.
        -- rewrite (proj2 (nth_error_None _ _) L). rewrite nth_error_app2 by auto.
           split; [discriminate|]. destruct (i - length (pool_vec p)) as [|k]; cbn.
           ++ intros X. injection X as ->. rewrite eqb_rf in Ew. discriminate.
           ++ destruct k; discriminate.
    + rewrite nth_error_app2, Nat.sub_diag by lia. reflexivity.
    + eauto.
    + intros I. contradiction.
    + intros _. rewrite app_length. cbn. split; [auto|lia].
Qed.

(** Histories of additions: the pool and the indices returned. *)
Fixpoint pool_run (vs : list V) (p : pool V) : pool V * list nat :=
  match vs with
  | [] => (p, [])
  | v :: r => let (p, i) := pool_add V eqb p v in let (p, is) := pool_run r p in (p, i :: is)
  end.

Lemma run_ok vs : forall p p' is, pool_ok p -> pool_run vs p = (p', is) ->
  pool_ok p' /\ (exists ext, pool_vec p' = pool_vec p ++ ext) /\ length is = length vs /\
  (forall j v i, nth_error vs j = Some v -> nth_error is j = Some i -> pool_get V p' i = Some v) /\
  (forall v, In v (pool_vec p') <-> In v (pool_vec p) \/ In v vs).
Proof.
  induction vs as [|v vs IH]; intros p p' is H E; cbn in E.
  - injection E as <- <-. split; [auto|]. split; [exists []; now rewrite app_nil_r|]. split; [auto|].
    split; [intros [|j] w i Hj; discriminate|]. cbn. tauto.
  - pose proof (add_ok p v H) as A. destruct (pool_add V eqb p v) as (p1, i1).
    destruct A as (H1 & G1 & (e1 & X1) & S1 & N1).
    destruct (pool_run vs p1) as (p2, is2) eqn:E2. injection E as <- <-.
    destruct (IH _ _ _ H1 E2) as (H2 & (e2 & X2) & L2 & G2 & I2).
    split; [auto|]. split; [exists (e1 ++ e2); now rewrite X2, X1, app_assoc|]. split; [cbn; congruence|]. split.
    + intros [|j] w i Hj Hi; cbn in Hj, Hi.
      * injection Hj as <-. injection Hi as <-. unfold pool_get. rewrite X2. rewrite nth_error_app1; [exact G1|].
        apply nth_error_Some. unfold pool_get in G1. congruence.
      * eapply G2; eauto.
    + intros w. rewrite I2. split.
      * intros [J|J]; [|right; now right]. destruct (in_dec (fun a b => match bool_dec (eqb a b) true with left e => left (proj1 (eqb_ok a b) e) | right n => right (fun x => n (proj2 (eqb_ok a b) x)) end) v (pool_vec p)) as [K|K].
        -- rewrite (S1 K) in J. auto.
        -- apply In_nth_error in J. destruct J as (k & Hk). unfold pool_len in N1.
           destruct (N1 K) as (-> & Ln). rewrite X1 in Hk, Ln. rewrite app_length in Ln.
           destruct e1 as [|u [|? ?]]; cbn in Ln; try lia.
           unfold pool_get in G1. rewrite X1, nth_error_app2, Nat.sub_diag in G1 by lia. cbn in G1. injection G1 as ->.
           apply nth_error_In in Hk. apply in_app_or in Hk. cbn in Hk |- *. tauto.
      * intros [J|[->|J]]; [left; rewrite X1; apply in_or_app; auto| |auto].
        left. unfold pool_get in G1. eapply nth_error_In; eauto.
Qed.

Lemma new_ok : pool_ok pool_new.
Proof. split; [constructor|]. intros v i. cbn. split; [discriminate|]. destruct i; discriminate. Qed.

Theorem pool_history vs p is : pool_run vs pool_new = (p, is) ->
  length is = length vs /\
  (forall j v i, nth_error vs j = Some v -> nth_error is j = Some i ->
     pool_get V p i = Some v /\ pool_try_get_idx V eqb p v = Some i) /\
  (forall j k v w i i', nth_error vs j = Some v -> nth_error vs k = Some w ->
     nth_error is j = Some i -> nth_error is k = Some i' -> (i = i' <-> v = w)) /\
  (forall v, In v (pool_vec p) <-> In v vs) /\ NoDup (pool_vec p).
Proof.
  intros E. destruct (run_ok vs _ _ _ new_ok E) as ((ND & M) & _ & L & G & I).
  split; [auto|]. split; [|split; [|split; [|auto]]].
  - intros j v i Hv Hi. pose proof (G _ _ _ Hv Hi) as X. split; [auto|]. apply M. exact X.
  - intros j k v w i i' Hv Hw Hi Hi'. pose proof (G _ _ _ Hv Hi) as X. pose proof (G _ _ _ Hw Hi') as Y.
    split; [intros ->; congruence|]. intros ->.
    apply (proj1 (NoDup_nth_error _) ND); [apply nth_error_Some; unfold pool_get in X; congruence|unfold pool_get in *; congruence].
  - intros v. rewrite I. cbn. tauto.
Qed.

(** Earlier indices stay valid. *)
Theorem pool_stable vs ws p is q js i v : pool_run vs pool_new = (p, is) -> pool_run ws p = (q, js) ->
  pool_get V p i = Some v -> pool_get V q i = Some v.
Proof.
  intros E1 E2 G. destruct (run_ok vs _ _ _ new_ok E1) as (H & _). destruct (run_ok ws _ _ _ H E2) as (_ & (ext & X) & _).
  unfold pool_get in *. rewrite X. rewrite nth_error_app1; auto. apply nth_error_Some. congruence.
Qed.
End Pool.

(** ** Bucket sort *)
Section Buckets.
Variable T : Type.
Variable default : T.
Variable f : T -> nat.

Definition cnt_eq (k : nat) (l : list T) : nat := length (filter (fun x => f x =? k) l).
Definition cnt_lt (k : nat) (l : list T) : nat := length (filter (fun x => f x <? k) l).

Lemma cnt_lt_S k l : cnt_lt (S k) l = cnt_lt k l + cnt_eq k l.
Proof.
  unfold cnt_lt, cnt_eq. induction l as [|x l IH]; cbn [filter]; auto.
  destruct (Nat.ltb_spec (f x) (S k)), (Nat.ltb_spec (f x) k), (Nat.eqb_spec (f x) k); cbn [length]; lia.
Qed.
Lemma cnt_eq_app k l m : cnt_eq k (l ++ m) = cnt_eq k l + cnt_eq k m.
Proof. unfold cnt_eq. now rewrite filter_app, app_length. Qed.
Lemma cnt_eq_one k x : cnt_eq k [x] = if f x =? k then 1 else 0.
Proof. unfold cnt_eq. cbn. now destruct (f x =? k). Qed.
Lemma filter_all m l : Forall (fun x => f x < m) l -> filter (fun x => f x <? m) l = l.
Proof. induction 1 as [|x l Hx F IH]; cbn [filter]; auto. destruct (Nat.ltb_spec (f x) m); [|lia]. now rewrite IH. Qed.
Lemma cnt_lt_all m l : Forall (fun x => f x < m) l -> cnt_lt m l = length l.
Proof.
  unfold cnt_lt. induction 1 as [|x l Hx F IH]; cbn [filter]; auto. destruct (Nat.ltb_spec (f x) m); [cbn [length]; lia|lia].
Qed.
Lemma cnt_lt_mono k k' l : k <= k' -> cnt_lt k l <= cnt_lt k' l.
Proof. intros H. induction H; auto. rewrite cnt_lt_S. lia. Qed.

(** The sorted vector: the buckets one after the other. *)
Definition bucket (k : nat) (a : list T) : list T := filter (fun x => f x =? k) a.
Definition sorted (m : nat) (a : list T) : list T := flat_map (fun k => bucket k a) (seq 0 m).

Lemma sorted_S m a : sorted (S m) a = sorted m a ++ bucket m a.
Proof. unfold sorted. rewrite seq_S, flat_map_app. cbn. now rewrite app_nil_r. Qed.
Lemma sorted_length m a : length (sorted m a) = cnt_lt m a.
Proof.
  induction m; [unfold sorted, cnt_lt; cbn; induction a; auto|]. rewrite sorted_S, app_length, IHm, cnt_lt_S. reflexivity.
Qed.
Lemma sorted_nth m a k t : k < m -> t < cnt_eq k a -> nth_error (sorted m a) (cnt_lt k a + t) = nth_error (bucket k a) t.
Proof.
  intros Hk Ht. induction m; [lia|]. rewrite sorted_S. destruct (Nat.eq_dec k m) as [->|N].
  - rewrite nth_error_app2 by (rewrite sorted_length; lia). f_equal. rewrite sorted_length. lia.
  - rewrite nth_error_app1; [apply IHm; lia|]. rewrite sorted_length.
    pose proof (cnt_lt_mono (S k) m a ltac:(lia)). rewrite cnt_lt_S in H. lia.
Qed.
(** Every position lies in one bucket. *)
Lemma sorted_pos m a i : i < cnt_lt m a -> exists k t, k < m /\ t < cnt_eq k a /\ i = cnt_lt k a + t.
Proof.
  induction m; intros Hi.
  - exfalso. unfold cnt_lt in Hi. assert (E : filter (fun x => f x <? 0) a = []) by (clear; induction a; auto). rewrite E in Hi. cbn in Hi. lia.
  - rewrite cnt_lt_S in Hi. destruct (Nat.lt_ge_cases i (cnt_lt m a)) as [L|L].
    + destruct (IHm L) as (k & t & ? & ? & ?). exists k, t. auto.
    + exists m, (i - cnt_lt m a). lia.
Qed.

Section Run.
Variable a : list T.
Variable m : nat.
Hypothesis Hf : Forall (fun x => f x < m) a.

Lemma key_lt i x : nth_error a i = Some x -> f x < m.
Proof. intros H. apply (proj1 (Forall_forall _ _) Hf). eapply nth_error_In; eauto. Qed.

Lemma firstn_S i x : nth_error a i = Some x -> firstn (S i) a = firstn i a ++ [x].
Proof.
  revert i. induction a as [|y l IH]; intros [|i] H; cbn in *; try discriminate; [congruence|]. f_equal.
  apply IH; auto. now inversion Hf.
Qed.

Lemma bucket_sort_run : exists cnt, bucket_sort T default f a m = Some (sorted m a, cnt) /\ arr cnt m (fun k => cnt_lt k a).
Proof.
  unfold bucket_sort. cbv zeta. set (n := length a).
  (* counting *)
  destruct (for_seq (fun i cnt => arr cnt m (fun k => cnt_eq k (firstn i a)))
    (fun i cnt => let* x := aget a i in let* c := aget cnt (f x) in aset cnt (f x) (c + 1)) 0 n (repeat 0 m)) as (c1 & -> & A1).
  { eapply arr_ext; [apply arr_repeat|]. reflexivity. }
  { intros j s Hj A. destruct (nth_error a j) as [x|] eqn:Ex; [|apply nth_error_None in Ex; fold n in Ex; lia].
    unfold aget at 1. rewrite Ex. cbn [obind]. pose proof (key_lt _ _ Ex) as Hx. rewrite (arr_get _ _ _ _ A Hx). cbn [obind].
    destruct (arr_set _ _ _ (f x) (cnt_eq (f x) (firstn j a) + 1) A Hx) as (s' & E & A'). exists s'. split; [exact E|].
    eapply arr_ext; [exact A'|]. intros k Hk. cbv beta. rewrite (firstn_S _ _ Ex), cnt_eq_app, cnt_eq_one.
    destruct (Nat.eqb_spec k (f x)) as [->|N].
    - rewrite Nat.eqb_refl. lia.
    - destruct (Nat.eqb_spec (f x) k); [congruence|]. lia. }
  cbn [Nat.add] in A1. unfold n in A1. rewrite firstn_all in A1. cbn [obind].
  (* prefix sums *)
  destruct (for_seq (fun i cnt => arr cnt m (fun k => if k <? i then cnt_lt (S k) a else cnt_eq k a))
    (fun i cnt => let* c := aget cnt i in let* c' := aget cnt (i - 1) in aset cnt i (c + c')) 1 (m - 1) c1) as (c2 & -> & A2).
  { eapply arr_ext; [exact A1|]. intros k Hk. cbv beta. destruct (Nat.ltb_spec k 1); auto. replace k with 0 by lia.
    rewrite cnt_lt_S. unfold cnt_lt. replace (filter (fun x => f x <? 0) a) with (@nil T); [reflexivity|]. clear. induction a; auto. }
  { intros j s Hj A. rewrite (arr_get _ _ _ j A) by lia. cbn [obind]. rewrite (arr_get _ _ _ (j - 1) A) by lia. cbn [obind].
    match goal with |- context [aset s j ?v] => destruct (arr_set _ _ _ j v A ltac:(lia)) as (s' & E & A') end.
    exists s'. split; [exact E|]. eapply arr_ext; [exact A'|]. intros k Hk. cbv beta.
    destruct (Nat.eqb_spec k j) as [->|N].
    - destruct (Nat.ltb_spec j j); [lia|]. destruct (Nat.ltb_spec (j - 1) j); [|lia]. destruct (Nat.ltb_spec j (S j)); [|lia].
      replace (S (j - 1)) with j by lia. rewrite cnt_lt_S. lia.
    - destruct (Nat.ltb_spec k j), (Nat.ltb_spec k (S j)); auto; lia. }
  cbn [obind].
  assert (A2' : arr c2 m (fun k => cnt_lt k a + cnt_eq k (firstn n a))).
  { eapply arr_ext; [exact A2|]. intros k Hk. cbv beta. unfold n. rewrite firstn_all.
    destruct (Nat.ltb_spec k (1 + (m - 1))); [apply cnt_lt_S|lia]. }
  clear A2.
  (* placing *)
  assert (Ln : cnt_lt m a = n) by (apply cnt_lt_all; auto).
  set (body := fun i (st : list T * list nat) => let (res, cnt) := st in let* x := aget a i in let* c := aget cnt (f x) in
    let* _ := guard (1 <=? c) in let* cnt := aset cnt (f x) (c - 1) in let* c := aget cnt (f x) in let* res := aset res c x in Some (res, cnt)).
  assert (Loop : forall j res cnt, j <= n -> length res = n -> arr cnt m (fun k => cnt_lt k a + cnt_eq k (firstn j a)) ->
    (forall k t, k < m -> cnt_eq k (firstn j a) <= t < cnt_eq k a -> nth_error res (cnt_lt k a + t) = nth_error (bucket k a) t) ->
    exists res' cnt', for_in (rev (seq 0 j)) body (res, cnt) = Some (res', cnt') /\ length res' = n /\
      arr cnt' m (fun k => cnt_lt k a) /\
      (forall k t, k < m -> t < cnt_eq k a -> nth_error res' (cnt_lt k a + t) = nth_error (bucket k a) t)).
  { induction j as [|j IH]; intros res cnt Hj Lr A R.
    - exists res, cnt. split; [reflexivity|]. split; [auto|]. split.
      + eapply arr_ext; [exact A|]. intros k Hk. cbn. lia.
      + intros k t Hk Ht. apply R; auto. cbn. lia.
    - rewrite seq_S, rev_app_distr. cbn [rev app for_in Nat.add]. unfold body at 1.
      destruct (nth_error a j) as [x|] eqn:Ex; [|apply nth_error_None in Ex; fold n in Ex; lia].
      unfold aget at 1. rewrite Ex. cbn [obind]. pose proof (key_lt _ _ Ex) as Hx.
      rewrite (arr_get _ _ _ _ A Hx). cbn [obind].
      assert (Ec : forall k, cnt_eq k (firstn (S j) a) = cnt_eq k (firstn j a) + if f x =? k then 1 else 0).
      { intros k. rewrite (firstn_S _ _ Ex), cnt_eq_app, cnt_eq_one. reflexivity. }
      rewrite Ec, Nat.eqb_refl. destruct (Nat.leb_spec 1 (cnt_lt (f x) a + (cnt_eq (f x) (firstn j a) + 1))); [|lia]. cbn [guard obind].
      match goal with |- context [aset cnt (f x) ?v] => destruct (arr_set _ _ _ (f x) v A Hx) as (cnt' & -> & A') end. cbn [obind].
      rewrite (arr_get _ _ _ _ A' Hx), Nat.eqb_refl. cbn [obind].
      set (t0 := cnt_eq (f x) (firstn j a)) in *.
      replace (cnt_lt (f x) a + (t0 + 1) - 1) with (cnt_lt (f x) a + t0) by lia.
      assert (Ea : a = firstn j a ++ x :: skipn (S j) a).
      { rewrite <- (firstn_skipn (S j) a) at 1. rewrite (firstn_S _ _ Ex), <- app_assoc. reflexivity. }
      assert (Ht0 : t0 < cnt_eq (f x) a).
      { rewrite Ea at 1. rewrite cnt_eq_app. fold t0. unfold cnt_eq. cbn. rewrite Nat.eqb_refl. cbn. lia. }
      assert (Bt : nth_error (bucket (f x) a) t0 = Some x).
      { unfold bucket. rewrite Ea at 1. rewrite filter_app. rewrite nth_error_app2 by (unfold t0, cnt_eq; lia).
        unfold t0, cnt_eq. rewrite Nat.sub_diag. cbn. rewrite Nat.eqb_refl. reflexivity. }
      assert (Pos : cnt_lt (f x) a + t0 < length res).
      { rewrite Lr, <- Ln. pose proof (cnt_lt_mono (S (f x)) m a ltac:(lia)). rewrite cnt_lt_S in H0. lia. }
      destruct (aset_some res _ x Pos) as (res' & -> & Lr' & Nr'). cbn [obind].
      apply IH; [lia|congruence| |].
      + eapply arr_ext; [exact A'|]. intros k Hk. cbv beta. rewrite Ec. destruct (Nat.eqb_spec k (f x)) as [->|N].
        * fold t0. lia.
        * destruct (Nat.eqb_spec (f x) k); [congruence|lia].
      + intros k t Hk Ht. rewrite Nr'. destruct (Nat.eqb_spec (cnt_lt k a + t) (cnt_lt (f x) a + t0)) as [E|N].
        * assert (K : k = f x).
          { destruct (lt_eq_lt_dec k (f x)) as [[L|L]|L]; auto; exfalso.
            - pose proof (cnt_lt_mono (S k) (f x) a ltac:(lia)) as Mo. rewrite cnt_lt_S in Mo. lia.
            - pose proof (cnt_lt_mono (S (f x)) k a ltac:(lia)) as Mo. rewrite cnt_lt_S in Mo. lia. }
          subst k. replace t with t0 by lia. now rewrite Bt.
        * apply R; auto. rewrite Ec. destruct (Nat.eqb_spec (f x) k) as [<-|]; [|lia].
          fold t0. assert (t <> t0) by (intros ->; lia). fold t0 in Ht. lia. }
  destruct (Loop n (repeat default n) c2 (le_n n) (repeat_length _ _) A2') as (res & cnt & E & Lr & Ac & R).
  { intros k t Hk Ht. exfalso. unfold n in Ht. rewrite firstn_all in Ht. lia. }
  fold body. rewrite E. cbn [obind]. exists cnt. split; [|exact Ac]. f_equal. f_equal.
  apply nth_error_ext'. intros i. destruct (Nat.lt_ge_cases i n) as [Hi|Hi].
  - rewrite <- Ln in Hi. destruct (sorted_pos m a i Hi) as (k & t & Hk & Ht & ->). rewrite R, sorted_nth; auto.
  - rewrite !(proj2 (nth_error_None _ _)); auto; [rewrite sorted_length|]; lia.
Qed.

Lemma filter_filter k j : filter (fun x => f x =? k) (bucket j a) = if j =? k then bucket k a else [].
Proof.
  unfold bucket. clear Hf. induction a as [|x l IH]; cbn; [now destruct (j =? k)|].
  destruct (Nat.eqb_spec (f x) j) as [E|N]; cbn.
  - rewrite E, IH. destruct (Nat.eqb_spec j k); auto.
  - rewrite IH. destruct (Nat.eqb_spec j k) as [->|]; auto. destruct (Nat.eqb_spec (f x) k); [contradiction|auto].
Qed.

Lemma sorted_filter k : filter (fun x => f x =? k) (sorted m a) = bucket k a.
Proof.
  assert (G : forall j, filter (fun x => f x =? k) (sorted j a) = if k <? j then bucket k a else []).
  { induction j as [|j IH]; [reflexivity|]. rewrite sorted_S, filter_app, IH, filter_filter.
    destruct (Nat.ltb_spec k j), (Nat.ltb_spec k (S j)), (Nat.eqb_spec j k); subst; try lia; rewrite ?app_nil_r; auto. }
  rewrite G. destruct (Nat.ltb_spec k m) as [|L]; auto. unfold bucket.
  symmetry. clear G. induction Hf as [|x l Hx F IH]; cbn; auto. destruct (Nat.eqb_spec (f x) k); [lia|]. auto.
Qed.

Lemma sorted_perm : Permutation a (sorted m a).
Proof.
  assert (G : forall j, Permutation (filter (fun x => f x <? j) a) (sorted j a)).
  { induction j as [|j IH].
    - assert (E : filter (fun x => f x <? 0) a = []) by (clear; induction a; auto). rewrite E. constructor.
    - rewrite sorted_S. eapply Permutation_trans; [|apply Permutation_app_tail; exact IH].
      unfold bucket. clear. induction a as [|x l IH]; cbn [filter app]; [constructor|].
      destruct (Nat.ltb_spec (f x) (S j)), (Nat.ltb_spec (f x) j), (Nat.eqb_spec (f x) j); try lia; cbn [app].
      + constructor. exact IH.
      + apply Permutation_cons_app. exact IH.
      + exact IH. }
  rewrite <- G, filter_all by auto. auto.
Qed.

Lemma sorted_ordered i j x y : i < j -> nth_error (sorted m a) i = Some x -> nth_error (sorted m a) j = Some y -> f x <= f y.
Proof.
  intros Hij Ex Ey.
  assert (Hi : i < cnt_lt m a) by (rewrite <- sorted_length; apply nth_error_Some; congruence).
  assert (Hj : j < cnt_lt m a) by (rewrite <- sorted_length; apply nth_error_Some; congruence).
  destruct (sorted_pos m a i Hi) as (k & t & Hk & Ht & ->). destruct (sorted_pos m a j Hj) as (k' & t' & Hk' & Ht' & ->).
  rewrite sorted_nth in Ex, Ey by auto. apply nth_error_In in Ex. apply nth_error_In in Ey.
  apply filter_In in Ex. apply filter_In in Ey. destruct Ex as (_ & Ex), Ey as (_ & Ey). apply Nat.eqb_eq in Ex. apply Nat.eqb_eq in Ey.
  rewrite Ex, Ey. destruct (Nat.le_gt_cases k k') as [|L]; auto. exfalso.
  pose proof (cnt_lt_mono (S k') k a ltac:(lia)) as Mo. rewrite cnt_lt_S in Mo. lia.
Qed.
End Run.

Theorem bucket_sort_ok a m : Forall (fun x => f x < m) a ->
  exists out cnt, bucket_sort T default f a m = Some (out, cnt) /\ stable_sort_by f a out /\
    length cnt = m /\ forall k, k < m -> nth_error cnt k = Some (length (filter (fun x => f x <? k) a)).
Proof.
  intros H. destruct (bucket_sort_run a m H) as (cnt & E & L & N). exists (sorted m a), cnt. split; [auto|].
  split; [|split; auto]. split; [apply sorted_perm; auto|]. split; [apply sorted_ordered|apply sorted_filter; auto].
Qed.

(** A key outside the buckets faults. *)
Lemma count_faults a m : forall is cnt, length cnt = m -> (exists i x, In i is /\ nth_error a i = Some x /\ m <= f x) ->
  (forall i, In i is -> i < length a) ->
  for_in is (fun i cnt => let* x := aget a i in let* c := aget cnt (f x) in aset cnt (f x) (c + 1)) cnt = None.
Proof.
  induction is as [|j is IH]; intros cnt L (i & x & I & E & B) D; [destruct I|]. cbn [for_in].
  destruct (nth_error a j) as [y|] eqn:Ej; [|apply nth_error_None in Ej; specialize (D j (or_introl eq_refl)); lia].
  unfold aget at 1. rewrite Ej. cbn [obind].
  destruct (aget cnt (f y)) as [c|] eqn:Ec; cbn [obind]; [|reflexivity].
  assert (Hy : f y < length cnt) by (apply nth_error_Some; unfold aget in Ec; congruence).
  destruct (aset_some cnt (f y) (c + 1) Hy) as (cnt' & -> & L' & _). cbn [obind].
  apply IH; [congruence| |intros k Hk; apply D; now right]. destruct I as [->|I]; [|eauto 6].
  exfalso. replace y with x in * by congruence. lia.
Qed.
Theorem bucket_sort_faults a m : Exists (fun x => m <= f x) a -> bucket_sort T default f a m = None.
Proof.
  intros H. apply Exists_exists in H. destruct H as (x & I & B). apply In_nth_error in I. destruct I as (i & Hi).
  unfold bucket_sort. cbv zeta. rewrite (count_faults a m); [reflexivity|apply repeat_length| |].
  - exists i, x. split; [|auto]. apply in_seq. split; [lia|]. cbn. apply nth_error_Some. congruence.
  - intros k Hk. apply in_seq in Hk. lia.
Qed.
End Buckets.

(** ** Powers of two *)
Lemma prev_loop_ok fuel : forall k x K, 2 ^ K <= x < 2 ^ S K -> k <= S K -> S K < k + fuel -> prev_pow2_loop fuel k x = Some (S K).
Proof.
  induction fuel as [|u IH]; intros k x K Hx Hk Hu; [lia|]. cbn [prev_pow2_loop].
  destruct (Nat.leb_spec (2 ^ k) x) as [L|L].
  - apply IH; auto; [|lia]. assert (k <> S K) by (intros ->; lia). lia.
  - f_equal. destruct (Nat.eq_dec k (S K)); auto. pose proof (Nat.pow_le_mono_r 2 k K ltac:(lia) ltac:(lia)). lia.
Qed.
Theorem prev_pow2_ok x K : K < 63 -> 2 ^ K <= x < 2 ^ S K -> prev_power_of_two x = Some (2 ^ K).
Proof.
  intros HK Hx. unfold prev_power_of_two. destruct (Nat.eqb_spec x 0) as [->|].
  - pose proof (Nat.pow_nonzero 2 K ltac:(lia)). lia.
  - rewrite (prev_loop_ok 64 0 x K Hx) by lia. cbn [obind]. f_equal. f_equal. lia.
Qed.
Lemma next_loop_ok fuel : forall k x K, x <= 2 ^ K -> (forall j, j < K -> 2 ^ j < x) -> k <= K -> K < k + fuel ->
  next_pow2_loop fuel k x = Some K.
Proof.
  induction fuel as [|u IH]; intros k x K H1 H2 Hk Hu; [lia|]. cbn [next_pow2_loop].
  destruct (Nat.ltb_spec (2 ^ k) x) as [L|L].
  - apply IH; auto; [|lia]. assert (k <> K) by (intros ->; lia). lia.
  - f_equal. destruct (Nat.eq_dec k K); auto. specialize (H2 k ltac:(lia)). lia.
Qed.
Theorem next_pow2_ok x K : K < 64 -> x <= 2 ^ K -> (forall j, j < K -> 2 ^ j < x) -> next_power_of_two x = Some (2 ^ K).
Proof. intros HK H1 H2. unfold next_power_of_two. rewrite (next_loop_ok 64 0 x K) by (auto; lia). reflexivity. Qed.

Theorem prev_pow2_total x M : M = 2 ^ 63 -> 0 < x < M ->
  exists K, prev_power_of_two x = Some (2 ^ K) /\ 2 ^ K <= x < 2 ^ S K.
Proof.
  intros -> Hx. pose proof (Nat.log2_spec x ltac:(lia)) as S. exists (Nat.log2 x). split; [|exact S].
  apply prev_pow2_ok; [|exact S]. apply Nat.log2_lt_pow2; lia.
Qed.
Lemma prev_loop_over fuel : forall k x, 2 ^ (k + fuel - 1) <= x -> prev_pow2_loop fuel k x = None.
Proof.
  induction fuel as [|u IH]; intros k x Hx; [reflexivity|]. cbn [prev_pow2_loop].
  destruct (Nat.leb_spec (2 ^ k) x) as [L|L].
  - apply IH. replace (k + 1 + u - 1) with (k + S u - 1) by lia. exact Hx.
  - pose proof (Nat.pow_le_mono_r 2 k (k + S u - 1) ltac:(lia) ltac:(lia)). lia.
Qed.
Theorem prev_pow2_over x M : M = 2 ^ 63 -> M <= x -> prev_power_of_two x = None.
Proof.
  intros -> Hx. unfold prev_power_of_two. destruct (Nat.eqb_spec x 0) as [->|N].
  - pose proof (Nat.pow_nonzero 2 63 ltac:(lia)). lia.
  - rewrite (prev_loop_over 64 0 x); [reflexivity|exact Hx].
Qed.
Theorem next_pow2_total x M : M = 2 ^ 63 -> x <= M ->
  exists K, next_power_of_two x = Some (2 ^ K) /\ x <= 2 ^ K /\ forall j, x <= 2 ^ j -> K <= j.
Proof.
  intros -> Hx. exists (Nat.log2_up x). assert (U : x <= 2 ^ Nat.log2_up x).
  { destruct (Nat.le_gt_cases x 1) as [L|L].
    - pose proof (Nat.pow_nonzero 2 (Nat.log2_up x) ltac:(lia)). lia.
    - apply Nat.log2_up_spec. exact L. }
  assert (D : forall j, x <= 2 ^ j -> Nat.log2_up x <= j).
  { intros j Hj. destruct (Nat.le_gt_cases x 1) as [L|L].
    - rewrite Nat.log2_up_eqn0 by exact L. lia.
    - apply Nat.log2_up_le_pow2; [lia|exact Hj]. }
  split; [|split; auto]. apply next_pow2_ok; auto.
  - pose proof (D 63 Hx) as B. apply Nat.lt_succ_r. exact B.
  - intros j Hj. destruct (Nat.le_gt_cases x (2 ^ j)) as [L|L]; [|exact L]. specialize (D j L). lia.
Qed.
Lemma next_loop_over fuel : forall k x, 2 ^ (k + fuel - 1) < x -> next_pow2_loop fuel k x = None.
Proof.
  induction fuel as [|u IH]; intros k x Hx; [reflexivity|]. cbn [next_pow2_loop].
  destruct (Nat.ltb_spec (2 ^ k) x) as [L|L].
  - apply IH. replace (k + 1 + u - 1) with (k + S u - 1) by lia. exact Hx.
  - pose proof (Nat.pow_le_mono_r 2 k (k + S u - 1) ltac:(lia) ltac:(lia)). lia.
Qed.
Theorem next_pow2_over x M : M = 2 ^ 63 -> M < x -> next_power_of_two x = None.
Proof. intros -> Hx. unfold next_power_of_two. rewrite (next_loop_over 64 0 x); [reflexivity|exact Hx]. Qed.
