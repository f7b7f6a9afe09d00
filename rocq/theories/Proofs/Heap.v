From Coq Require Import List Arith Lia Bool Permutation.
From Verif Require Import Base.Array Spec.Containers Model.Containers.
Import ListNotations.

Section Heap.
Variable lt : nat -> nat -> bool.
Hypothesis SWO : strict_weak_order lt.

Lemma asym a b : lt a b = true -> lt b a = false.
Proof. apply SWO. Qed.
Lemma ntrans a b c : lt a b = false -> lt b c = false -> lt a c = false.
Proof. apply SWO. Qed.
Lemma irrefl a : lt a a = false.
Proof. destruct (lt a a) eqn:E; auto. pose proof (asym _ _ E). congruence. Qed.

Definition par (k : nat) : nat := (k - 1) / 2.
Lemma par_spec k : 0 < k -> k = 2 * par k + 1 \/ k = 2 * par k + 2.
Proof.
  intros H. unfold par. pose proof (Nat.div_mod (k - 1) 2 ltac:(lia)). pose proof (Nat.mod_upper_bound (k - 1) 2 ltac:(lia)). lia.
Qed.

(** [f] is the content of the vector. *)
Definition heap_below (n : nat) (f : nat -> nat) : Prop := forall k, 0 < k < n -> lt (f k) (f (par k)) = false.
Definition heap (s : list nat) : Prop := heap_below (length s) (fun i => nth i s 0).

Lemma swap_ok s n f i j : arr s n f -> i < n -> j < n -> i <> j ->
  exists s', swap s i j = Some s' /\ arr s' n (fun k => if k =? j then f i else if k =? i then f j else f k) /\
    Permutation s s'.
Proof.
  intros A Hi Hj N. unfold swap. rewrite (arr_get _ _ _ _ A Hi). cbn [obind]. rewrite (arr_get _ _ _ _ A Hj). cbn [obind].
  destruct (arr_set _ _ _ i (f j) A Hi) as (s1 & -> & A1). cbn [obind].
  destruct (arr_set _ _ _ j (f i) A1 Hj) as (s2 & -> & A2). exists s2. split; [auto|]. split; [exact A2|].
  apply Permutation_nth_error. destruct A as (L & A), A2 as (L2 & A2). split; [congruence|].
  exists (fun k => if k =? j then i else if k =? i then j else k). split.
  - intros a b. repeat match goal with |- context [?u =? ?v] => destruct (Nat.eqb_spec u v) end; lia.
  - intros k. destruct (Nat.lt_ge_cases k n) as [Hk|Hk].
    + rewrite A2 by auto. destruct (Nat.eqb_spec k j) as [->|]; [now rewrite A|]. destruct (Nat.eqb_spec k i) as [->|]; now rewrite A.
    + destruct (Nat.eqb_spec k j); [lia|]. destruct (Nat.eqb_spec k i); [lia|].
      rewrite !(proj2 (nth_error_None _ _)) by lia. reflexivity.
Qed.

(** ** Sifting up *)
Definition up_inv (n : nat) (f : nat -> nat) (i : nat) : Prop :=
  (forall k, 0 < k < n -> k <> i -> lt (f k) (f (par k)) = false) /\
  (forall c, 0 < c < n -> par c = i -> 0 < i -> lt (f c) (f (par i)) = false).

Lemma sift_up_ok fuel : forall s n f i, arr s n f -> i < n -> i <= fuel -> up_inv n f i ->
  exists s' g, sift_up lt fuel s i = Some s' /\ arr s' n g /\ heap_below n g /\ Permutation s s'.
Proof.
  induction fuel as [|u IH]; intros s n f i A Hi Hu (I1 & I2); cbn [sift_up].
  - replace i with 0 in * by lia. cbn. exists s, f. split; [auto|]. split; [auto|]. split; [|auto].
    intros k Hk. apply I1; lia.
  - destruct (Nat.eqb_spec i 0) as [->|Ni].
    { exists s, f. split; [auto|]. split; [auto|]. split; [|auto]. intros k Hk. apply I1; lia. }
    fold (par i). pose proof (par_spec i ltac:(lia)) as Pi.
    rewrite (arr_get _ _ _ _ A Hi). cbn [obind]. rewrite (arr_get _ _ _ (par i) A) by lia. cbn [obind].
    destruct (lt (f i) (f (par i))) eqn:El.
    + destruct (swap_ok s n f i (par i) A Hi ltac:(lia) ltac:(lia)) as (s1 & -> & A1 & P1). cbn [obind].
      destruct (IH s1 n _ (par i) A1 ltac:(lia) ltac:(lia)) as (s2 & g & E & A2 & H2 & P2).
      2:{ exists s2, g. split; [auto|]. split; [auto|]. split; [auto|]. eapply Permutation_trans; eauto. }
      split.
      * intros k Hk Nk. pose proof (par_spec k ltac:(lia)) as Pk. cbv beta.
        destruct (Nat.eqb_spec k (par i)) as [|_]; [contradiction|].
        destruct (Nat.eqb_spec k i) as [->|Nki].
        { rewrite Nat.eqb_refl. now apply asym. }
        destruct (Nat.eqb_spec (par k) (par i)) as [Ep|Np].
        { apply ntrans with (f (par k)); [apply I1; auto|]. rewrite Ep. now apply asym. }
        destruct (Nat.eqb_spec (par k) i) as [Ep|Np2]; [apply I2; lia|]. apply I1; auto.
      * intros c Hc Ep H0. pose proof (par_spec c ltac:(lia)) as Pc. pose proof (par_spec (par i) H0) as Pp. cbv beta.
        destruct (Nat.eqb_spec c (par i)); [lia|].
        destruct (Nat.eqb_spec (par (par i)) (par i)); [lia|]. destruct (Nat.eqb_spec (par (par i)) i); [lia|].
        destruct (Nat.eqb_spec c i) as [->|Nc]; [apply I1; lia|].
        apply ntrans with (f (par i)); [rewrite <- Ep; apply I1; lia | apply I1; lia].
    + exists s, f. split; [auto|]. split; [auto|]. split; [|auto].
      intros k Hk. destruct (Nat.eq_dec k i) as [->|]; auto.
Qed.

Lemma arr_heap s n g : arr s n g -> heap_below n g -> heap s.
Proof.
  intros (L & A) H k Hk. rewrite L in Hk. pose proof (par_spec k ltac:(lia)).
  rewrite (nth_error_nth s k 0 (A k ltac:(lia))), (nth_error_nth s (par k) 0 (A (par k) ltac:(lia))). auto.
Qed.

Lemma push_ok s x : heap s -> exists s', heap_push lt s x = Some s' /\ heap s' /\ Permutation s' (x :: s).
Proof.
  intros H. unfold heap_push. cbv zeta. set (t := s ++ [x]).
  assert (Lt : length t = S (length s)) by (unfold t; rewrite app_length; cbn; lia).
  destruct (sift_up_ok (length t) t (length t) (fun i => nth i t 0) (length t - 1)) as (s' & g & E & A & Hg & P).
  - apply arr_self.
  - lia.
  - lia.
  - split.
    + intros k Hk Nk. pose proof (par_spec k ltac:(lia)). unfold t. rewrite !app_nth1 by lia. apply H. lia.
    + intros c Hc Ep _. pose proof (par_spec c ltac:(lia)). lia.
  - exists s'. split; [auto|]. split; [eapply arr_heap; eauto|]. apply Permutation_sym. eapply Permutation_trans; [|exact P].
    unfold t. apply Permutation_cons_append.
Qed.

(** ** Sifting down *)
Definition down_inv (n : nat) (f : nat -> nat) (i : nat) : Prop :=
  (forall k, 0 < k < n -> par k <> i -> lt (f k) (f (par k)) = false) /\
  (forall c, 0 < c < n -> par c = i -> 0 < i -> lt (f c) (f (par i)) = false).

Lemma par_left i : par (2 * i + 1) = i.
Proof. pose proof (par_spec (2 * i + 1) ltac:(lia)). lia. Qed.
Lemma par_right i : par (2 * i + 1 + 1) = i.
Proof. pose proof (par_spec (2 * i + 1 + 1) ltac:(lia)). lia. Qed.

Lemma sift_down_ok fuel : forall s n f i, arr s n f -> i < n -> n <= i + fuel -> down_inv n f i ->
  exists s' g, sift_down lt fuel s i = Some s' /\ arr s' n g /\ heap_below n g /\ Permutation s s'.
Proof.
  induction fuel as [|u IH]; intros s n f i A Hi Hu (I1 & I2); [lia|]. cbn [sift_down].
  pose proof A as (L & _). rewrite L.
  destruct (Nat.ltb_spec (2 * i + 1) n) as [Hc|Hc].
  2:{ exists s, f. split; [auto|]. split; [auto|]. split; [|auto]. intros k Hk. apply I1; auto. pose proof (par_spec k ltac:(lia)). lia. }
  cbv zeta.
  set (jj := if 2 * i + 1 + 1 <? n then if lt (f (2 * i + 1 + 1)) (f (2 * i + 1)) then 2 * i + 1 + 1 else 2 * i + 1 else 2 * i + 1).
  assert (Ej : (if 2 * i + 1 + 1 <? n
     then let* b := aget s (2 * i + 1 + 1) in let* a := aget s (2 * i + 1) in Some (if lt b a then 2 * i + 1 + 1 else 2 * i + 1)
     else Some (2 * i + 1)) = Some jj).
  { unfold jj. destruct (Nat.ltb_spec (2 * i + 1 + 1) n); auto.
    rewrite (arr_get _ _ _ _ A) by lia. cbn [obind]. rewrite (arr_get _ _ _ _ A Hc). reflexivity. }
  rewrite Ej. cbn [obind].
  assert (Hj : jj < n /\ par jj = i /\ i < jj /\ forall c, 0 < c < n -> par c = i -> lt (f c) (f jj) = false).
  { unfold jj. destruct (Nat.ltb_spec (2 * i + 1 + 1) n) as [H2|H2].
    - destruct (lt (f (2 * i + 1 + 1)) (f (2 * i + 1))) eqn:El.
      + split; [lia|]. split; [apply par_right|]. split; [lia|]. intros c Hcn Ep. destruct (par_spec c ltac:(lia)) as [E|E]; rewrite Ep in E; subst c.
        * now apply asym.
        * replace (2 * i + 2) with (2 * i + 1 + 1) by lia. apply irrefl.
      + split; [lia|]. split; [apply par_left|]. split; [lia|]. intros c Hcn Ep. destruct (par_spec c ltac:(lia)) as [E|E]; rewrite Ep in E; subst c.
        * apply irrefl.
        * replace (2 * i + 2) with (2 * i + 1 + 1) by lia. auto.
    - split; [lia|]. split; [apply par_left|]. split; [lia|]. intros c Hcn Ep. destruct (par_spec c ltac:(lia)) as [E|E]; rewrite Ep in E; subst c.
      + apply irrefl.
      + lia. }
  clearbody jj. destruct Hj as (Hj & Pj & Hij & Mj). clear Ej.
  rewrite (arr_get _ _ _ _ A Hj). cbn [obind]. rewrite (arr_get _ _ _ _ A Hi). cbn [obind].
  destruct (lt (f jj) (f i)) eqn:El.
  - destruct (swap_ok s n f i jj A Hi Hj ltac:(lia)) as (s1 & -> & A1 & P1). cbn [obind].
    destruct (IH s1 n _ jj A1 ltac:(lia) ltac:(lia)) as (s2 & g & E & A2 & H2 & P2).
    2:{ exists s2, g. split; [auto|]. split; [auto|]. split; [auto|]. eapply Permutation_trans; eauto. }
    split.
    + intros k Hk Nk. pose proof (par_spec k ltac:(lia)) as Pk. cbv beta.
      destruct (Nat.eqb_spec k jj) as [->|Nkj].
      { rewrite Pj. destruct (Nat.eqb_spec i jj); [lia|]. rewrite Nat.eqb_refl. now apply asym. }
      destruct (Nat.eqb_spec (par k) jj) as [|_]; [contradiction|].
      destruct (Nat.eqb_spec k i) as [->|Nki].
      { destruct (Nat.eqb_spec (par i) i); [lia|]. apply I2; lia. }
      destruct (Nat.eqb_spec (par k) i) as [Ep|Np]; auto.
    + intros c Hcn Ep H0. pose proof (par_spec c ltac:(lia)) as Pc. cbv beta. rewrite Pj.
      destruct (Nat.eqb_spec c jj); [lia|]. destruct (Nat.eqb_spec i jj); [lia|]. destruct (Nat.eqb_spec c i); [lia|].
      rewrite Nat.eqb_refl. rewrite <- Ep. apply I1; lia.
  - exists s, f. split; [auto|]. split; [auto|]. split; [|auto].
    intros k Hk. destruct (Nat.eq_dec (par k) i) as [Ep|Np]; auto.
    rewrite Ep. apply ntrans with (f jj); auto.
Qed.

Lemma heap_min s : heap s -> forall k, k < length s -> lt (nth k s 0) (nth 0 s 0) = false.
Proof.
  intros H k. induction k as [k IH] using (well_founded_induction lt_wf). intros Hk.
  destruct (Nat.eq_dec k 0) as [->|N]; [apply irrefl|]. pose proof (par_spec k ltac:(lia)).
  apply ntrans with (nth (par k) s 0); [apply H; lia|]. apply IH; lia.
Qed.

Lemma pop_ok x r : heap (x :: r) -> exists s', heap_pop lt (x :: r) = Some (Some x, s') /\ heap s' /\
  pq_pop lt (x :: r) x s'.
Proof.
  intros H.
  assert (M : forall y, In y (x :: r) -> lt y x = false).
  { intros y Iy. apply (In_nth _ _ 0) in Iy. destruct Iy as (k & Hk & <-). exact (heap_min _ H k Hk). }
  unfold heap_pop. destruct r as [|z r].
  { exists []. split; [auto|]. split; [intros k Hk; cbn in Hk; lia|]. split; auto. }
  set (s := x :: z :: r) in *. set (t := removelast s).
  assert (Es : s = t ++ [last s 0]) by (apply app_removelast_last; discriminate).
  assert (Lt : length s = S (length t)) by (rewrite Es at 1; rewrite app_length; cbn; lia).
  assert (L2 : length t = S (length r)) by (change (length s) with (S (S (length r))) in Lt; lia).
  assert (Et : t = x :: tl t).
  { unfold t, s. cbn. destruct r; reflexivity. }
  destruct (arr_set t (length t) (fun i => nth i t 0) 0 (last s 0) (arr_self _ _) ltac:(lia)) as (t1 & E1 & A1).
  rewrite E1. cbn [obind]. pose proof A1 as (Lt1 & _).
  destruct (sift_down_ok (length t1) t1 (length t) _ 0 A1 ltac:(lia) ltac:(lia)) as (s' & g & E & A & Hg & P).
  { split.
    - intros k Hk Np. pose proof (par_spec k ltac:(lia)). cbv beta. destruct (Nat.eqb_spec k 0); [lia|].
      destruct (Nat.eqb_spec (par k) 0); [lia|].
      specialize (H k ltac:(lia)). cbv beta in H. rewrite Es in H. rewrite !app_nth1 in H by lia. exact H.
    - intros; lia. }
  rewrite E. cbn [obind]. exists s'. split; [auto|]. split; [eapply arr_heap; eauto|].
  split; [|exact M].
  rewrite Et in E1. cbn [aset] in E1. injection E1 as <-.
  eapply Permutation_trans with (x :: (tl t ++ [last s 0])).
  - rewrite Es at 1. rewrite Et at 1. reflexivity.
  - apply perm_skip. eapply Permutation_trans; [|exact P]. apply Permutation_sym, Permutation_cons_append.
Qed.

(** ** Histories: the vector refines a bag *)
Definition heap_step (o : heap_op) (s : list nat) : option (option nat * list nat) :=
  match o with
  | Push x => let* s := heap_push lt s x in Some (None, s)
  | Pop => heap_pop lt s
  end.
Fixpoint heap_run (ops : list heap_op) (s : list nat) : option (list (option nat) * list nat) :=
  match ops with
  | [] => Some ([], s)
  | o :: r => let* (x, s) := heap_step o s in let* (xs, s) := heap_run r s in Some (x :: xs, s)
  end.

Local Notation pq_run := (pq_run lt).

Lemma pq_run_perm ops : forall bag bag2 out fin, Permutation bag bag2 -> pq_run ops bag out fin ->
  exists fin2, pq_run ops bag2 out fin2 /\ Permutation fin fin2.
Proof.
  induction ops as [|o ops IH]; intros bag bag2 out fin P R; inversion R; subst.
  - exists bag2. split; [constructor|auto].
  - destruct (IH (x :: bag) (x :: bag2) out0 fin) as (f2 & R2 & P2); auto. exists f2. split; [constructor|]; auto.
  - apply Permutation_nil in P. subst. destruct (IH [] [] out0 fin) as (f2 & R2 & P2); auto. exists f2. split; [constructor|]; auto.
  - destruct (IH rest rest out0 fin) as (f2 & R2 & P2); auto. exists f2. split; auto. apply pq_pop_some with rest; auto.
    destruct H1 as (Q & M). split; [eapply Permutation_trans; [apply Permutation_sym; exact P|exact Q]|].
    intros y Iy. apply M. eapply Permutation_in; [apply Permutation_sym; exact P|exact Iy].
Qed.

Lemma run_ok ops : forall s, heap s -> exists out s' bag, heap_run ops s = Some (out, s') /\ heap s' /\
  pq_run ops s out bag /\ Permutation s' bag.
Proof.
  induction ops as [|o ops IH]; intros s H; cbn [heap_run].
  - exists [], s, s. split; [auto|]. split; [auto|]. split; [constructor|auto].
  - destruct o as [x|]; cbn [heap_step].
    + destruct (push_ok s x H) as (s1 & -> & H1 & P1). cbn [obind].
      destruct (IH s1 H1) as (out & s2 & bag & -> & H2 & R & P2). cbn [obind].
      destruct (pq_run_perm ops s1 (x :: s) out bag P1 R) as (f2 & R2 & Pf).
      exists (None :: out), s2, f2. split; [auto|]. split; [auto|]. split; [constructor; auto|]. eapply Permutation_trans; eauto.
    + destruct s as [|x r].
      * cbn [heap_pop obind]. destruct (IH [] H) as (out & s2 & bag & -> & H2 & R & P2). cbn [obind].
        exists (None :: out), s2, bag. split; [auto|]. split; [auto|]. split; [constructor; auto|auto].
      * destruct (pop_ok x r H) as (s1 & -> & H1 & Q). cbn [obind].
        destruct (IH s1 H1) as (out & s2 & bag & -> & H2 & R & P2). cbn [obind].
        exists (Some x :: out), s2, bag. split; [auto|]. split; [auto|]. split; [econstructor; eauto|auto].
Qed.

Theorem history_ok ops : exists out s bag, heap_run ops [] = Some (out, s) /\ pq_run ops [] out bag /\ Permutation s bag.
Proof.
  destruct (run_ok ops []) as (out & s & bag & E & _ & R & P); [intros k Hk; cbn in Hk; lia|]. eauto 10.
Qed.
End Heap.
