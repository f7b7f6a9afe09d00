(** Kahn's algorithm, as an invariant shared by both implementations. *)
From Coq Require Import List Arith Lia Bool Permutation Relations String.
From Verif Require Import Base.Array Spec.Graph Model.Graph.
Import ListNotations.
Local Open Scope list_scope.
Local Notation length := List.length.

Section Kahn.
Variable V : list nat.
Variable adj : nat -> list nat.
Hypothesis ND : NoDup V.
Hypothesis closed : forall u v, In u V -> In v (adj u) -> In v V.

Definition cnt (t : list nat) (v : nat) : nat := count_occ Nat.eq_dec t v.
Definition pend (R : list nat) (v : nat) : nat := list_sum (map (fun u => cnt (adj u) v) R).
Definition ordered (o : list nat) : Prop :=
  forall o1 v o2, o = o1 ++ v :: o2 -> forall u, In u V -> In v (adj u) -> In u o1.
Definition Inv (o q t : list nat) (f : nat -> nat) : Prop :=
  exists R, Permutation V (o ++ q ++ R) /\ incl t V /\
    (forall v, In v V -> f v = pend (q ++ R) v + cnt t v) /\
    (forall v, In v V -> (f v = 0 <-> In v (o ++ q))) /\ ordered o.

Lemma pend_app a b v : pend (a ++ b) v = pend a v + pend b v.
Proof. unfold pend. now rewrite map_app, list_sum_app. Qed.
Lemma pend_cons u b v : pend (u :: b) v = cnt (adj u) v + pend b v.
Proof. reflexivity. Qed.
Lemma pend_perm a b v : Permutation a b -> pend a v = pend b v.
Proof. induction 1; rewrite ?pend_cons; lia. Qed.
Lemma pend_pos R v u : In u R -> In v (adj u) -> pend R v <> 0.
Proof.
  intros I J. apply in_split in I. destruct I as (a & b & ->). rewrite pend_app, pend_cons.
  apply (count_occ_In Nat.eq_dec) in J. fold (cnt (adj u) v) in J. lia.
Qed.
Lemma pend_zero R v : pend R v <> 0 -> exists u, In u R /\ In v (adj u).
Proof.
  induction R as [|u R IH]; [cbn; lia|]. rewrite pend_cons. intros H.
  destruct (Nat.eq_dec (cnt (adj u) v) 0) as [E|E].
  - destruct IH as (w & I & J); [lia|]. exists w. split; [right|]; auto.
  - exists u. split; [now left|]. apply (count_occ_In Nat.eq_dec). fold (cnt (adj u) v). lia.
Qed.

Lemma inv_init f q : (forall v, In v V -> f v = pend V v) ->
  q = filter (fun v => f v =? 0) V -> Inv [] q [] f.
Proof.
  intros Hf ->. exists (filter (fun v => negb (f v =? 0)) V). split.
  - cbn. clear. induction V as [|a l IH]; cbn; auto. destruct (f a =? 0); cbn.
    + now constructor.
    + now apply Permutation_cons_app.
  - split; [intros ? []|]. split; [|split].
    + intros v Hv. rewrite Hf by auto. cbn. rewrite Nat.add_0_r. apply pend_perm.
      clear. induction V as [|a l IH]; cbn; auto. destruct (f a =? 0); cbn.
      * now constructor.
      * now apply Permutation_cons_app.
    + intros v Hv. cbn. rewrite filter_In, Nat.eqb_eq. tauto.
    + intros [|? ?] v o2 E; discriminate.
Qed.

Lemma inv_pop o u q f : Inv o (u :: q) [] f -> In u V /\ Inv (o ++ [u]) q (adj u) f.
Proof.
  intros (R & P & _ & F & Z & O).
  assert (Hu : In u V). { eapply Permutation_in; [symmetry; exact P|]. apply in_or_app. right. now left. }
  split; auto. exists R. split; [now rewrite <- app_assoc|]. split; [intros v; apply closed; auto|]. split; [|split].
  - intros v Hv. rewrite F by auto. change ((u :: q) ++ R) with (u :: (q ++ R)). rewrite pend_cons.
    change (cnt [] v) with 0. lia.
  - intros v Hv. rewrite Z by auto. now rewrite <- app_assoc.
  - intros o1 v o2 E w Hw Hvw.
    destruct o2 as [|y o2] using rev_ind.
    + apply app_inj_tail in E. destruct E as (E & E'). subst o1 v.
      assert (f u = 0) as Fu by (apply Z; auto; apply in_or_app; right; now left).
      rewrite F in Fu by auto. assert (I : In w (o ++ (u :: q) ++ R)) by (eapply Permutation_in; eauto).
      apply in_app_or in I. destruct I as [I|I]; auto. pose proof (pend_pos _ _ _ I Hvw). lia.
    + rewrite app_comm_cons, app_assoc in E. apply app_inj_tail in E. destruct E as (E & _). eapply O; eauto.
Qed.

Lemma inv_relax o q to t f f' : Inv o q (to :: t) f ->
  (forall v, In v V -> f' v = if v =? to then f to - 1 else f v) ->
  In to V /\ 1 <= f to /\ Inv o (if f' to =? 0 then q ++ [to] else q) t f'.
Proof.
  intros (R & P & T & F & Z & O) Hf'. assert (Ht : In to V) by (apply T; now left).
  assert (Pos : f to = pend (q ++ R) to + S (cnt t to)).
  { rewrite F by auto. unfold cnt. rewrite count_occ_cons_eq; auto. }
  assert (NZ : ~ In to (o ++ q)). { intros X. apply Z in X; auto. lia. }
  assert (Fto : f' to = f to - 1). { rewrite Hf' by auto. now rewrite Nat.eqb_refl. }
  assert (Ne : forall v, v <> to -> cnt (to :: t) v = cnt t v).
  { intros v Hv. unfold cnt. rewrite count_occ_cons_neq; auto. }
  split; auto. split; [lia|]. destruct (Nat.eqb_spec (f' to) 0) as [E|E].
  - assert (IR : In to R).
    { assert (I : In to (o ++ q ++ R)) by (eapply Permutation_in; eauto). rewrite app_assoc in I.
      apply in_app_or in I. tauto. }
    apply in_split in IR. destruct IR as (R1 & R2 & ->). exists (R1 ++ R2).
    assert (PQ : Permutation (q ++ R1 ++ to :: R2) ((q ++ [to]) ++ R1 ++ R2)).
    { rewrite <- app_assoc. apply Permutation_app_head. cbn. symmetry. apply Permutation_middle. }
    split; [|split; [|split; [|split; auto]]].
    + rewrite P. now apply Permutation_app_head.
    + intros v Hv. apply T. now right.
    + intros v Hv. rewrite Hf', <- (pend_perm _ _ v PQ) by auto. destruct (Nat.eqb_spec v to) as [->|Nv]; [lia|].
      rewrite F by auto. now rewrite Ne.
    + intros v Hv. rewrite app_assoc. rewrite in_app_iff. rewrite Hf' by auto. destruct (Nat.eqb_spec v to) as [->|Nv].
      * split; [right; now left|lia].
      * rewrite Z by auto. cbn. split; [tauto|]. intros [?|[?|[]]]; auto; congruence.
  - exists R. split; auto. split; [intros v Hv; apply T; now right|]. split; [|split; auto].
    + intros v Hv. rewrite Hf' by auto. destruct (Nat.eqb_spec v to) as [->|Nv]; [lia|]. rewrite F by auto. now rewrite Ne.
    + intros v Hv. rewrite Hf' by auto. destruct (Nat.eqb_spec v to) as [->|Nv]; [|apply Z; auto].
      split; [lia|tauto].
Qed.

Lemma inv_length o q t f : Inv o q t f -> length o + length q <= length V.
Proof. intros (R & P & _). rewrite (Permutation_length P), !app_length. lia. Qed.

Definition edge (u v : nat) : Prop := In u V /\ In v (adj u).

Lemma inv_topological o f : Inv o [] [] f -> length o = length V -> topological V edge o.
Proof.
  intros (R & P & _ & _ & _ & O) L. cbn in P. pose proof (Permutation_length P) as PL. rewrite app_length in PL.
  destruct R; [|cbn in PL; lia]. rewrite app_nil_r in P. split; [|split].
  - eapply Permutation_NoDup; eauto.
  - intros v. split; apply Permutation_in; auto; now symmetry.
  - intros u v (Hu & Hv). assert (Iv : In v o) by (eapply Permutation_in; [exact P|]; eapply closed; eauto).
    apply in_split in Iv. destruct Iv as (o1 & o3 & E). pose proof (O _ _ _ E u Hu Hv) as Iu.
    apply in_split in Iu. destruct Iu as (a & b & ->). exists a, b, o3. subst. now rewrite <- app_assoc.
Qed.

(** A non-empty set in which every element has a predecessor contains a cycle. *)
Lemma walk (R : list nat) : (forall v, In v R -> exists u, In u R /\ edge u v) ->
  forall v, In v R -> forall k, exists l, length l = k /\ incl l R /\
    forall a x b y c, v :: l = a ++ x :: b ++ y :: c -> clos_trans nat edge y x.
Proof.
  intros H v Hv k. enough (exists l, length l = k /\ incl l R /\ In (last (v :: l) 0) R /\
    forall a x b y c, v :: l = a ++ x :: b ++ y :: c -> clos_trans nat edge y x) by firstorder.
  induction k as [|k IH].
  - exists []. split; auto. split; [intros ? []|]. split; [exact Hv|].
    intros [|? [|? ?]] x b y c E; cbn in E; try discriminate. destruct b; discriminate.
  - destruct IH as (l & L & I & La & W). destruct (H _ La) as (u & Iu & Eu).
    exists (l ++ [u]). split; [rewrite app_length; cbn; lia|]. split.
    { intros z Hz. apply in_app_or in Hz. destruct Hz as [Hz|[<-|[]]]; auto. }
    split; [rewrite app_comm_cons, last_last; exact Iu|].
    intros a x b y c E. rewrite app_comm_cons in E.
    destruct c as [|z c _] using rev_ind.
    + rewrite app_comm_cons, app_assoc in E. apply app_inj_tail in E. destruct E as (E & <-).
      destruct b as [|z b _] using rev_ind.
      * assert (last (v :: l) 0 = x) as <- by (rewrite E; apply last_last). now apply t_step.
      * assert (Lz : last (v :: l) 0 = z).
        { rewrite E, app_comm_cons, app_assoc. apply last_last. }
        apply t_trans with z; [apply t_step; now rewrite <- Lz|]. eapply W. rewrite E. reflexivity.
    + replace (a ++ x :: b ++ y :: c ++ [z]) with ((a ++ x :: b ++ y :: c) ++ [z]) in E
        by (rewrite <- ?app_assoc; cbn; now rewrite <- ?app_assoc).
      apply app_inj_tail in E. destruct E as (E & _). eapply W; eauto.
Qed.
Lemma dup_split (l : list nat) : ~ NoDup l -> exists a x b c, l = a ++ x :: b ++ x :: c.
Proof.
  induction l as [|z l IH]; intros N; [destruct N; constructor|].
  destruct (in_dec Nat.eq_dec z l) as [I|I].
  - apply in_split in I. destruct I as (b & c & ->). exists [], z, b, c. reflexivity.
  - destruct IH as (a & x & b & c & ->); [intros X; apply N; now constructor|]. exists (z :: a), x, b, c. reflexivity.
Qed.
Lemma no_source_cyclic R : R <> [] -> (forall v, In v R -> exists u, In u R /\ edge u v) -> cyclic edge.
Proof.
  intros NE H. destruct R as [|v R]; [easy|].
  destruct (walk (v :: R) H v (or_introl eq_refl) (length (v :: R))) as (l & L & I & W).
  destruct (dup_split (v :: l)) as (a & x & b & c & E).
  - intros X. assert (incl (v :: l) (v :: R)) as Y by (intros z [<-|Hz]; [now left|auto]).
    pose proof (NoDup_incl_length X Y) as Q. rewrite <- L in Q. cbn in Q. lia.
  - exists x. eapply W; eauto.
Qed.
Lemma inv_cyclic o f : Inv o [] [] f -> length o <> length V -> cyclic edge.
Proof.
  intros (R & P & _ & F & Z & _) L. cbn in P. apply (no_source_cyclic R).
  - intros ->. rewrite app_nil_r in P. apply L. symmetry. now apply Permutation_length.
  - intros v Hv. assert (Vv : In v V). { eapply Permutation_in; [symmetry; exact P|]. apply in_or_app. auto. }
    assert (N : ~ In v o).
    { intros X. pose proof (Permutation_NoDup P ND) as D. apply in_split in X. destruct X as (a & b & ->).
      rewrite <- app_assoc in D. cbn in D. apply NoDup_remove_2 in D. apply D.
      rewrite app_assoc. apply in_or_app. auto. }
    assert (X : f v <> 0). { intros E. apply N. apply Z in E; auto. now rewrite app_nil_r in E. }
    rewrite F in X by auto. cbn in X. rewrite Nat.add_0_r in X. apply pend_zero in X. destruct X as (u & Iu & Hu).
    exists u. split; auto. split; auto. eapply Permutation_in; [symmetry; exact P|]. apply in_or_app. auto.
Qed.
Lemma precedes_trans o u v w : NoDup o -> precedes o u v -> precedes o v w -> precedes o u w.
Proof.
  intros N (a & b & c & E) (a' & b' & c' & E').
  rewrite E in E'. rewrite (app_comm_cons _ _ u), app_assoc in E'.
  assert (Q : a ++ u :: b = a' /\ c = b' ++ w :: c').
  { rewrite E, app_comm_cons, app_assoc in N. revert E' N. generalize (a ++ u :: b). generalize (b' ++ w :: c'). clear.
    intros c' x. revert a'. induction x as [|y x IH]; intros [|z a'] E N; cbn in *.
    - injection E as <-. auto.
    - injection E as E1 E2. subst. inversion N as [|? ? X]; subst. destruct X. apply in_or_app. right. now left.
    - injection E as E1 E2. subst. inversion N as [|? ? X]; subst. destruct X. apply in_or_app. right. now left.
    - injection E as E1 E. subst. inversion N; subst. destruct (IH _ E) as (<- & <-); auto. }
  destruct Q as (_ & ->). exists a, (b ++ v :: b'), c'. rewrite E. rewrite <- app_assoc. reflexivity.
Qed.
Lemma precedes_irrefl o u : NoDup o -> ~ precedes o u u.
Proof.
  intros N (a & b & c & ->). apply NoDup_remove_2 in N. apply N. apply in_or_app. right. apply in_or_app. right. now left.
Qed.
Lemma topological_acyclic (e : nat -> nat -> Prop) o : topological V e o -> ~ cyclic e.
Proof.
  intros (N & _ & H) (v & C). apply (precedes_irrefl o v N).
  enough (forall x y, clos_trans nat e x y -> precedes o x y) by auto.
  induction 1; auto. eapply precedes_trans; eauto.
Qed.
End Kahn.

(** ** topological_sort *)
Lemma combine_snoc {A B} (a : list A) : forall (b : list B) x y, length a = length b ->
  combine (a ++ [x]) (b ++ [y]) = combine a b ++ [(x, y)].
Proof. induction a as [|z a IH]; intros [|w b] x y E; cbn in *; try discriminate; auto. now rewrite IH by lia. Qed.
Lemma enumerate_app {A} (l : list A) x : enumerate (l ++ [x]) = enumerate l ++ [(length l, x)].
Proof.
  unfold enumerate. rewrite app_length. cbn [length]. rewrite Nat.add_1_r, seq_S. apply combine_snoc. apply seq_length.
Qed.
Lemma in_enumerate {A} (l : list A) i x : In (i, x) (enumerate l) <-> nth_error l i = Some x.
Proof.
  induction l as [|y l IH] using rev_ind.
  - cbn. split; [tauto|destruct i; discriminate].
  - rewrite enumerate_app, in_app_iff, IH. cbn. split.
    + intros [H|[E|[]]].
      * rewrite nth_error_app1; auto. apply nth_error_Some. congruence.
      * injection E as <- <-. rewrite nth_error_app2, Nat.sub_diag; auto.
    + intros H. destruct (Nat.lt_ge_cases i (length l)) as [L|L].
      * rewrite nth_error_app1 in H; auto.
      * rewrite nth_error_app2 in H by auto. destruct (i - length l) as [|k] eqn:E; cbn in H.
        -- injection H as <-. right. left. f_equal. lia.
        -- destruct k; discriminate.
Qed.

Lemma owner_fold outs idx m x : owner (fold_left (fun m out => (out, idx) :: m) outs m) x =
  if in_dec string_dec x outs then Some idx else owner m x.
Proof.
  revert m. induction outs as [|o outs IH]; intros m; cbn [fold_left].
  - destruct (in_dec string_dec x []) as [[]|]; reflexivity.
  - rewrite IH. destruct (in_dec string_dec x outs) as [I|I].
    + destruct (in_dec string_dec x (o :: outs)) as [J|J]; auto. destruct J. now right.
    + unfold owner at 1. cbn [find fst]. destruct (String.eqb_spec o x) as [->|N]; cbn [option_map snd].
      * destruct (in_dec string_dec x (x :: outs)) as [J|J]; auto. destruct J. now left.
      * destruct (in_dec string_dec x (o :: outs)) as [[J|J]|J]; try contradiction. reflexivity.
Qed.
Lemma owner_spec layers x j : owner (output_to_layer layers) x = Some j <-> last_writer layers j x.
Proof.
  revert j. induction layers as [|l ls IH] using rev_ind; intros j.
  - cbn. split; [discriminate|]. intros (l & H & _). destruct j; discriminate.
  - unfold output_to_layer. rewrite enumerate_app, fold_left_app. cbn [fold_left]. fold (output_to_layer ls).
    rewrite owner_fold. destruct (in_dec string_dec x (l_outputs l)) as [I|I].
    + split.
      * intros E. injection E as <-. exists l. split; [rewrite nth_error_app2, Nat.sub_diag; auto|]. split; auto.
        intros k l' Hk H. assert (k < length (ls ++ [l])) by (apply nth_error_Some; congruence).
        rewrite app_length in *. cbn in *. lia.
      * intros (l' & H & I' & N). destruct (Nat.lt_trichotomy j (length ls)) as [L|[->|L]]; auto.
        -- destruct (N (length ls) l); auto. rewrite nth_error_app2, Nat.sub_diag; auto.
        -- assert (j < length (ls ++ [l])) by (apply nth_error_Some; congruence). rewrite app_length in *. cbn in *. lia.
    + rewrite IH. split; intros (l' & H & I' & N); exists l'.
      * assert (L : j < length ls) by (apply nth_error_Some; congruence).
        split; [now rewrite nth_error_app1|]. split; auto. intros k l2 Hk H2.
        destruct (Nat.lt_ge_cases k (length ls)) as [Lk|Lk].
        -- rewrite nth_error_app1 in H2 by auto. eauto.
        -- rewrite nth_error_app2 in H2 by auto. destruct (k - length ls) as [|r]; cbn in H2; [injection H2 as <-; auto|].
           destruct r; discriminate.
      * assert (L : j < length ls).
        { destruct (Nat.lt_ge_cases j (length ls)) as [L|L]; auto. rewrite nth_error_app2 in H by auto.
          destruct (j - length ls) as [|r]; cbn in H; [injection H as <-; contradiction|]. destruct r; discriminate. }
        rewrite nth_error_app1 in H by auto. split; auto. split; auto. intros k l2 Hk H2. apply (N k l2 Hk).
        rewrite nth_error_app1; auto. apply nth_error_Some. congruence.
Qed.

Definition input_edges (m : list (string * nat)) (idx : nat) (inputs : list string) : list (nat * nat) :=
  flat_map (fun x => match owner m x with Some dep => if dep =? idx then [] else [(dep, idx)] | None => [] end) inputs.
Definition edge_list (m : list (string * nat)) (es : list (nat * layer)) : list (nat * nat) :=
  flat_map (fun e => input_edges m (fst e) (l_inputs (snd e))) es.
Definition adj_of (E : list (nat * nat)) (u : nat) : list nat := map snd (filter (fun e => fst e =? u) E).
Definition deg_of (E : list (nat * nat)) (v : nat) : nat := cnt (map snd E) v.
Definition linked (n : nat) (E : list (nat * nat)) (st : list (list nat) * list nat) : Prop :=
  arr (fst st) n (adj_of E) /\ arr (snd st) n (deg_of E).

Lemma cnt_cons b t v : cnt (b :: t) v = (if v =? b then 1 else 0) + cnt t v.
Proof.
  unfold cnt. destruct (Nat.eqb_spec v b) as [->|N]; [now rewrite count_occ_cons_eq|].
  rewrite count_occ_cons_neq; auto.
Qed.
Lemma cnt_app s t v : cnt (s ++ t) v = cnt s v + cnt t v.
Proof. apply count_occ_app. Qed.
Lemma adj_of_app E F u : adj_of (E ++ F) u = adj_of E u ++ adj_of F u.
Proof. unfold adj_of. now rewrite filter_app, map_app. Qed.
Lemma deg_of_app E F v : deg_of (E ++ F) v = deg_of E v + deg_of F v.
Proof. unfold deg_of, cnt. now rewrite map_app, count_occ_app. Qed.

Lemma link_input_ok n m idx x E st : idx < n -> (forall y j, owner m y = Some j -> j < n) -> linked n E st ->
  exists st', link_input m idx x st = Some st' /\ linked n (E ++ input_edges m idx [x]) st'.
Proof.
  intros Hi Hm (A & D). unfold link_input, input_edges. cbn. destruct (owner m x) as [dep|] eqn:Eo.
  - destruct (Nat.eqb_spec dep idx) as [->|Ne].
    + exists st. cbn. rewrite app_nil_r. split; auto. split; auto.
    + destruct st as (adj, deg). cbn [fst snd] in *. rewrite (arr_get _ _ _ dep A) by eauto. cbn.
      destruct (arr_set _ _ _ dep (adj_of E dep ++ [idx]) A ltac:(eauto)) as (adj' & -> & A'). cbn.
      rewrite (arr_get _ _ _ idx D) by auto. cbn.
      destruct (arr_set _ _ _ idx (deg_of E idx + 1) D Hi) as (deg' & -> & D'). cbn.
      eexists. split; [reflexivity|]. split; cbn [fst snd].
      * apply (arr_ext _ _ _ _ A'). intros u _. rewrite adj_of_app. unfold adj_of at 4. cbn.
        destruct (Nat.eqb_spec u dep) as [->|Nu]; [now rewrite Nat.eqb_refl|].
        destruct (Nat.eqb_spec dep u) as [->|_]; [contradiction|]. cbn. now rewrite app_nil_r.
      * apply (arr_ext _ _ _ _ D'). intros v _. rewrite deg_of_app. change (deg_of [(dep, idx)] v) with (cnt [idx] v). rewrite cnt_cons.
        change (cnt [] v) with 0. destruct (Nat.eqb_spec v idx) as [->|Nv]; lia.
  - exists st. cbn. rewrite app_nil_r. split; auto. split; auto.
Qed.

Lemma link_ok layers : exists adj deg, link_layers layers = Some (adj, deg) /\
  linked (length layers) (edge_list (output_to_layer layers) (enumerate layers)) (adj, deg).
Proof.
  set (m := output_to_layer layers). set (n := length layers).
  assert (Hm : forall y j, owner m y = Some j -> j < n).
  { intros y j H. apply owner_spec in H. destruct H as (l & H & _). apply nth_error_Some. congruence. }
  destruct (for_each_rule (fun done st => linked n (edge_list m done) st)
    (fun (e : nat * layer) st => let (idx, l) := e in for_each (l_inputs l) (link_input m idx) st)
    (enumerate layers) (repeat [] n, repeat 0 n)) as ((adj, deg) & E & H).
  - split; cbn [fst snd]; apply arr_repeat.
  - intros done (idx, l) rest st Ee Hst.
    assert (Hidx : idx < n).
    { assert (I : In (idx, l) (enumerate layers)) by (rewrite Ee; apply in_or_app; right; now left).
      apply in_enumerate in I. apply nth_error_Some. congruence. }
    destruct (for_each_rule (fun xs st => linked n (edge_list m done ++ input_edges m idx xs) st)
      (link_input m idx) (l_inputs l) st) as (st' & E' & H').
    + cbn. now rewrite app_nil_r.
    + intros xs x r t _ Ht. destruct (link_input_ok n m idx x _ t Hidx Hm Ht) as (t' & Et & Ht').
      exists t'. split; auto. unfold input_edges in *. rewrite flat_map_app, app_assoc. exact Ht'.
    + exists st'. split; auto. unfold edge_list in *. rewrite flat_map_app. cbn [flat_map fst snd]. now rewrite app_nil_r.
  - exists adj, deg. split; auto.
Qed.

Lemma adj_edge layers u v : In v (adj_of (edge_list (output_to_layer layers) (enumerate layers)) u) <-> feeds layers u v.
Proof.
  unfold adj_of, edge_list, input_edges. rewrite in_map_iff. split.
  - intros ((a & b) & Eb & I). cbn in Eb. subst b. apply filter_In in I. destruct I as (I & Ea). cbn in Ea.
    apply Nat.eqb_eq in Ea. subst a. apply in_flat_map in I. destruct I as ((i & l) & Il & I). cbn in I.
    apply in_flat_map in I. destruct I as (x & Ix & I). destruct (owner _ x) as [dep|] eqn:Eo; [|destruct I].
    destruct (Nat.eqb_spec dep i) as [->|Ne]; [destruct I|]. destruct I as [E|[]]. injection E as -> ->.
    split; auto. exists l, x. split; [now apply in_enumerate|]. split; auto. now apply owner_spec.
  - intros (Ne & l & x & Hl & Ix & W). exists (u, v). split; auto. apply filter_In. cbn. split; [|apply Nat.eqb_refl].
    apply in_flat_map. exists (v, l). split; [now apply in_enumerate|]. cbn. apply in_flat_map. exists x. split; auto.
    apply owner_spec in W. rewrite W. destruct (Nat.eqb_spec u v); [contradiction|]. now left.
Qed.

Lemma pend_adj_of n E v : (forall e, In e E -> fst e < n) -> pend (adj_of E) (seq 0 n) v = deg_of E v.
Proof.
  induction E as [|(a, b) E IH]; intros H.
  - unfold deg_of. cbn. unfold pend. induction (seq 0 n); cbn; auto.
  - change ((a, b) :: E) with ([(a, b)] ++ E). rewrite deg_of_app, <- IH by (intros e He; apply H; now right).
    assert (Ha : a < n) by (apply (H (a, b)); now left).
    assert (S : forall l, pend (adj_of ([(a, b)] ++ E)) l v = pend (adj_of [(a, b)]) l v + pend (adj_of E) l v).
    { induction l as [|u l IHl]; [reflexivity|]. rewrite !pend_cons, IHl, adj_of_app. unfold cnt.
      rewrite count_occ_app. lia. }
    rewrite S. f_equal. assert (Ia : In a (seq 0 n)) by (apply in_seq; lia). apply in_split in Ia.
    destruct Ia as (l1 & l2 & El). pose proof (seq_NoDup n 0) as N. rewrite El in *. apply NoDup_remove_2 in N.
    assert (Z : forall l, ~ In a l -> pend (adj_of [(a, b)]) l v = 0).
    { induction l as [|u l IHl]; intros Nl; [reflexivity|]. rewrite pend_cons, IHl by (intros X; apply Nl; now right).
      unfold adj_of. cbn. destruct (Nat.eqb_spec a u) as [->|]; [destruct Nl; now left|reflexivity]. }
    rewrite pend_app, pend_cons. rewrite !Z by (intros X; apply N; apply in_or_app; auto).
    unfold adj_of. cbn [filter fst]. rewrite Nat.eqb_refl. cbn [map snd]. unfold deg_of. cbn [map snd]. lia.
Qed.

Section Sort.
Variables (n : nat) (A : nat -> list nat) (adj : list (list nat)).
Hypothesis HA : arr adj n A.
Hypothesis closed : forall u v, In u (seq 0 n) -> In v (A u) -> In v (seq 0 n).

Lemma release_ok o q t deg f : arr deg n f -> Inv (seq 0 n) A o q t f ->
  exists deg' q' f', for_each t release (deg, q) = Some (deg', q') /\ arr deg' n f' /\ Inv (seq 0 n) A o q' [] f'.
Proof.
  revert q deg f. induction t as [|to t IH]; intros q deg f Hd H; cbn [for_each].
  - exists deg, q, f. auto.
  - destruct (inv_relax (seq 0 n) A o q to t f (fun v => if v =? to then f to - 1 else f v) H
      ltac:(reflexivity)) as (I & P & H'). rewrite Nat.eqb_refl in H'.
    apply in_seq in I. unfold release at 1. rewrite (arr_get _ _ _ to Hd) by lia. cbn [obind].
    destruct (Nat.leb_spec 1 (f to)); [|lia]. cbn [guard obind].
    destruct (arr_set _ _ _ to (f to - 1) Hd ltac:(lia)) as (deg' & -> & Hd'). cbn [obind].
    rewrite (arr_get _ _ _ to Hd') by lia. rewrite Nat.eqb_refl. cbn [obind]. eapply IH; eauto.
Qed.

Lemma sort_loop_ok fuel : forall deg q o f, arr deg n f -> Inv (seq 0 n) A o q [] f -> n <= fuel + length o ->
  exists o' f', sort_loop fuel adj deg q o = Some o' /\ Inv (seq 0 n) A o' [] [] f'.
Proof.
  induction fuel as [|fuel IH]; intros deg q o f Hd H Hl; destruct q as [|u q]; cbn [sort_loop].
  1, 3: eauto.
  - apply inv_length in H. rewrite seq_length in H. cbn in H. lia.
  - destruct (inv_pop _ _ closed _ _ _ _ H) as (Hu & H'). apply in_seq in Hu.
    rewrite (arr_get _ _ _ u HA) by lia. cbn [obind].
    destruct (release_ok _ _ _ _ _ Hd H') as (deg' & q' & f' & -> & Hd' & H2). cbn [obind].
    eapply IH; eauto. rewrite app_length. cbn. lia.
Qed.
End Sort.

Theorem topological_sort_ok layers : exists r, topological_sort layers = Some r /\
  match r with
  | Some o => topological (seq 0 (length layers)) (feeds layers) o
  | None => cyclic (feeds layers)
  end.
Proof.
  unfold topological_sort. destruct (link_ok layers) as (adj & deg & -> & HA & HD). cbn [obind fst snd] in *.
  set (E := edge_list (output_to_layer layers) (enumerate layers)) in *. set (n := length layers) in *.
  assert (Fe : forall u v, feeds layers u v -> u < n /\ v < n).
  { intros u v (_ & l & x & Hl & _ & l' & Hl' & _). split; apply nth_error_Some; congruence. }
  assert (Cl : forall u v, In u (seq 0 n) -> In v (adj_of E u) -> In v (seq 0 n)).
  { intros u v _ Hv. apply adj_edge in Hv. apply Fe in Hv. apply in_seq. lia. }
  assert (Hq : map fst (filter (fun e => snd e =? 0) (enumerate deg)) = filter (fun v => deg_of E v =? 0) (seq 0 n)).
  { rewrite (arr_list _ _ _ HD). generalize n. clear. induction n as [|n IH]; [reflexivity|].
    rewrite seq_S, map_app. cbn [map]. rewrite enumerate_app, !filter_app, map_app, IH. f_equal.
    rewrite map_length, seq_length. cbn. destruct (deg_of E n =? 0); reflexivity. }
  rewrite Hq. assert (I0 : Inv (seq 0 n) (adj_of E) [] (filter (fun v => deg_of E v =? 0) (seq 0 n)) [] (deg_of E)).
  { apply inv_init; auto. intros v _. symmetry. apply pend_adj_of. intros (a, b) He. cbn.
    assert (X : In b (adj_of E a)).
    { unfold adj_of. apply in_map_iff. exists (a, b). split; auto. apply filter_In. cbn. now rewrite Nat.eqb_refl. }
    apply adj_edge in X. now apply Fe in X. }
  destruct (sort_loop_ok n (adj_of E) adj HA Cl n _ _ [] _ HD I0) as (o & f & -> & I); [lia|]. cbn [obind].
  assert (Eq : forall u v, edge (seq 0 n) (adj_of E) u v <-> feeds layers u v).
  { intros u v. unfold edge, E. rewrite adj_edge. split; [tauto|]. intros H. split; auto. apply Fe in H. apply in_seq. lia. }
  destruct (Nat.eqb_spec (length o) n) as [L|L]; eexists; (split; [reflexivity|]).
  - destruct (inv_topological _ _ (seq_NoDup n 0) Cl _ _ I) as (N & P & H); [now rewrite seq_length|].
    split; auto. split; auto. intros u v Huv. apply H. now apply Eq.
  - destruct (inv_cyclic _ _ (seq_NoDup n 0) _ _ I) as (v & C); [now rewrite seq_length|]. exists v.
    revert C. generalize v at 2 4. intros w C. induction C as [x y S|x y z C1 I1 C2 I2].
    + apply t_step. now apply Eq.
    + eapply t_trans; eauto.
Qed.

(** ** topo_order *)
Definition tos_of (edges : list (nat * list nat)) (u : nat) : list nat :=
  match edges_get edges u with Some tos => tos | None => [] end.

Lemma tos_of_cons k t es u : tos_of ((k, t) :: es) u = if k =? u then t else tos_of es u.
Proof. unfold tos_of, edges_get. cbn. now destruct (k =? u). Qed.
Lemma tos_of_none es u : ~ In u (map fst es) -> tos_of es u = [].
Proof.
  induction es as [|(k, t) es IH]; intros N; [reflexivity|]. rewrite tos_of_cons.
  destruct (Nat.eqb_spec k u) as [->|_]; [destruct N; now left|]. apply IH. intros X. apply N. now right.
Qed.
Lemma tos_of_in es k t : NoDup (map fst es) -> In (k, t) es -> tos_of es k = t.
Proof.
  induction es as [|(k', t') es IH]; intros N I; [destruct I|]. inversion N as [|? ? X Y]; subst. rewrite tos_of_cons.
  destruct I as [E|I].
  - injection E as -> ->. now rewrite Nat.eqb_refl.
  - destruct (Nat.eqb_spec k' k) as [->|_]; [|auto]. destruct X. apply in_map_iff. now exists (k, t).
Qed.

Lemma pend_tos_of V es v : NoDup V -> NoDup (map fst es) -> (forall k, In k (map fst es) -> In k V) ->
  pend (tos_of es) V v = cnt (flat_map snd es) v.
Proof.
  intros NV. induction es as [|(k, t) es IH]; intros N H.
  - cbn. clear. induction V; cbn; auto.
  - inversion N as [|? ? X Y]; subst. cbn [flat_map snd]. unfold cnt. rewrite count_occ_app.
    fold (cnt t v) (cnt (flat_map snd es) v). rewrite <- IH by (auto; intros j Hj; apply H; now right).
    assert (Ik : In k V) by (apply H; now left). apply in_split in Ik. destruct Ik as (a & b & ->).
    apply NoDup_remove_2 in NV. rewrite !pend_app, !pend_cons.
    assert (Z : forall l, ~ In k l -> pend (tos_of ((k, t) :: es)) l v = pend (tos_of es) l v).
    { induction l as [|u l IHl]; intros Nl; [reflexivity|]. rewrite !pend_cons, IHl by (intros Q; apply Nl; now right).
      rewrite tos_of_cons. destruct (Nat.eqb_spec k u) as [->|]; [destruct Nl; now left|reflexivity]. }
    rewrite !Z by (intros Q; apply NV; apply in_or_app; auto).
    rewrite tos_of_cons, Nat.eqb_refl, (tos_of_none es k X). unfold cnt at 3. cbn. lia.
Qed.

Definition holds (V : list nat) (m : pmap) (f : nat -> nat) : Prop :=
  forall v, In v V -> m v = Some (f v).

Lemma init_map V : holds V (fold_left (fun m v => pset m v 0) V (fun _ => None)) (fun _ => 0).
Proof.
  enough (H : forall l m v, In v l \/ m v = Some 0 -> fold_left (fun m v => pset m v 0) l m v = Some 0)
    by (intros v Hv; apply H; auto).
  induction l as [|a l IH]; intros m v; cbn.
  - intros [[]|H]; exact H.
  - intros [[->|I]|I]; apply IH; auto; right; unfold pset.
    + now rewrite Nat.eqb_refl.
    + destruct (v =? a); auto.
Qed.

Lemma count_ok V edges : (forall k t, In (k, t) edges -> incl t V) ->
  exists m, count_edges V edges = Some m /\ holds V m (cnt (flat_map snd edges)).
Proof.
  intros H. unfold count_edges. cbv zeta.
  destruct (for_each_rule (fun done m => holds V m (cnt (flat_map snd done)))
    (fun (e : nat * list nat) m => let (_, tos) := e in
      for_each tos (fun to m => and_modify m to (fun e => Some (e + 1))) m) edges
    (fold_left (fun m v => pset m v 0) V (fun _ => None))) as (m & E & Hm); eauto.
  - apply init_map.
  - intros done (k, t) rest m E Hm. assert (It : incl t V) by (apply (H k); rewrite E; apply in_or_app; right; now left).
    destruct (for_each_rule (fun ts m => holds V m (cnt (flat_map snd done ++ ts)))
      (fun to m => and_modify m to (fun e => Some (e + 1))) t m) as (m' & E' & Hm').
    + now rewrite app_nil_r.
    + intros ts to r m1 Et Hm1. assert (Ito : In to V) by (apply It; rewrite Et; apply in_or_app; right; now left).
      unfold and_modify. rewrite (Hm1 to Ito). cbn [obind]. eexists. split; [reflexivity|]. intros v Hv. unfold pset.
      rewrite app_assoc, (cnt_app (flat_map snd done ++ ts) [to]), cnt_cons.
      change (cnt [] v) with 0. destruct (Nat.eqb_spec v to) as [->|Ne]; [f_equal; lia|].
      rewrite (Hm1 v Hv). f_equal. lia.
    + exists m'. split; auto. rewrite flat_map_app. cbn [flat_map snd]. now rewrite app_nil_r.
Qed.

Lemma initial_ok V m f W : incl W V -> holds V m f -> initial_queue W m = Some (filter (fun v => f v =? 0) W).
Proof.
  intros I H. unfold initial_queue.
  destruct (for_each_rule (fun done q => q = filter (fun v => f v =? 0) done)
    (fun from queue => let* d := m from in Some (if d =? 0 then queue ++ [from] else queue)) W []) as (q & E & ->); auto.
  intros done v rest q E ->. rewrite (H v) by (apply I; rewrite E; apply in_or_app; right; now left). cbn.
  eexists. split; [reflexivity|]. rewrite filter_app. cbn. destruct (f v =? 0); [reflexivity|now rewrite app_nil_r].
Qed.

Section Order.
Variables (V : list nat) (edges : list (nat * list nat)).
Hypothesis NV : NoDup V.
Hypothesis closed : forall u v, In u V -> In v (tos_of edges u) -> In v V.

Lemma release_edge_ok o q t m f : holds V m f -> Inv V (tos_of edges) o q t f ->
  exists m' q' f', for_each t release_edge (m, o ++ q) = Some (m', o ++ q') /\ holds V m' f' /\
    Inv V (tos_of edges) o q' [] f'.
Proof.
  revert q m f. induction t as [|to t IH]; intros q m f Hd H; cbn [for_each].
  - exists m, q, f. auto.
  - destruct (inv_relax V (tos_of edges) o q to t f (fun v => if v =? to then f to - 1 else f v) H
      ltac:(reflexivity)) as (I & P & H'). rewrite Nat.eqb_refl in H'.
    unfold release_edge at 1, and_modify at 1. rewrite (Hd to I). cbn [obind].
    destruct (Nat.leb_spec 1 (f to)); [|lia]. cbn [guard obind]. unfold pset at 1. rewrite Nat.eqb_refl. cbn [obind].
    assert (Hd' : holds V (pset m to (f to - 1)) (fun v => if v =? to then f to - 1 else f v)).
    { intros v Hv. unfold pset. destruct (Nat.eqb_spec v to) as [->|]; [reflexivity|]. auto. }
    destruct (IH _ _ _ Hd' H') as (m' & q' & f' & E & Hm' & HI). exists m', q', f'. split; auto.
    rewrite <- E. destruct (f to - 1 =? 0); [now rewrite app_assoc|reflexivity].
Qed.

Lemma order_loop_ok fuel : forall o q m f, holds V m f -> Inv V (tos_of edges) o q [] f -> length V <= fuel + length o ->
  exists o' f', order_loop fuel edges (length o) m (o ++ q) = Some o' /\ Inv V (tos_of edges) o' [] [] f'.
Proof.
  induction fuel as [|fuel IH]; intros o q m f Hd H Hl; cbn [order_loop];
    (rewrite nth_error_app2 by auto); rewrite Nat.sub_diag; destruct q as [|u q]; cbn [nth_error].
  1, 3: exists o, f; rewrite app_nil_r; auto.
  - apply inv_length in H. cbn in H. lia.
  - destruct (inv_pop _ _ closed _ _ _ _ H) as (Hu & H').
    destruct (release_edge_ok _ _ _ _ _ Hd H') as (m' & q' & f' & E & Hd' & H2).
    assert (E2 : match edges_get edges u with Some tos => for_each tos release_edge (m, o ++ u :: q) | None => Some (m, o ++ u :: q) end
      = Some (m', (o ++ [u]) ++ q')).
    { unfold tos_of in E. rewrite <- app_assoc in E. cbn in E. destruct (edges_get edges u); exact E. }
    rewrite E2. cbn [obind]. replace (length o + 1) with (length (o ++ [u])) by (rewrite app_length; reflexivity).
    eapply IH; eauto. rewrite app_length. cbn. lia.
Qed.
End Order.

(** The edge relation given by the adjacency map. *)
Definition map_edge (edges : list (nat * list nat)) (u v : nat) : Prop := exists tos, In (u, tos) edges /\ In v tos.

Theorem topo_order_ok V edges : NoDup V -> NoDup (map fst edges) ->
  (forall k, In k (map fst edges) -> In k V) -> (forall k t, In (k, t) edges -> incl t V) ->
  exists o b, topo_order_and_is_dag V edges = Some (o, b) /\ topo_order V edges = Some o /\
    (if b then topological V (map_edge edges) o else cyclic (map_edge edges)).
Proof.
  intros NV NE Hk Ht.
  assert (Eq : forall u v, edge V (tos_of edges) u v <-> map_edge edges u v).
  { intros u v. split.
    - intros (_ & I). unfold tos_of, edges_get in I. destruct (find _ edges) as [(k, t)|] eqn:F; [|destruct I].
      apply find_some in F. destruct F as (F & E). cbn in *. apply Nat.eqb_eq in E. subst. exists t. auto.
    - intros (t & I & J). split; [apply Hk, in_map_iff; now exists (u, t)|]. now rewrite (tos_of_in _ _ _ NE I). }
  assert (Cl : forall u v, In u V -> In v (tos_of edges u) -> In v V).
  { intros u v Hu Hv. assert (X : edge V (tos_of edges) u v) by (split; auto). apply Eq in X.
    destruct X as (t & I & J). eapply Ht; eauto. }
  unfold topo_order_and_is_dag, topo_order. destruct (count_ok V edges Ht) as (m & -> & Hm). cbn [obind].
  rewrite (initial_ok V m _ V (incl_refl V) Hm). cbn [obind].
  assert (I0 : Inv V (tos_of edges) [] (filter (fun v => cnt (flat_map snd edges) v =? 0) V) [] (cnt (flat_map snd edges))).
  { apply inv_init; auto. intros v _. symmetry. now apply pend_tos_of. }
  destruct (order_loop_ok V edges Cl (length V) [] _ m _ Hm I0) as (o & f & E & I); [lia|]. cbn [app length] in E.
  rewrite E. cbn [obind]. exists o, (length o =? length V). split; [reflexivity|]. split; [reflexivity|].
  destruct (Nat.eqb_spec (length o) (length V)) as [L|L].
  - destruct (inv_topological _ _ NV Cl _ _ I L) as (N & P & H). split; auto. split; auto. intros u v Huv. apply H. now apply Eq.
  - destruct (inv_cyclic _ _ NV _ _ I L) as (v & C). exists v.
    revert C. generalize v at 2 4. intros w C. induction C as [x y S|x y z C1 I1 C2 I2].
    + apply t_step. now apply Eq.
    + eapply t_trans; eauto.
Qed.

Lemma self_loop x : topological_sort [{| l_inputs := [x]; l_outputs := [x] |}] = Some (Some [0]).
Proof.
  unfold topological_sort, link_layers, output_to_layer, enumerate. cbn. unfold link_input, owner. cbn.
  rewrite String.eqb_refl. reflexivity.
Qed.
