From Coq Require Import List Bool Arith NArith Lia.
From Verif Require Import Base.Array Model.InputMapping.
Import ListNotations.
Local Open Scope list_scope.

Lemma nget_spec {A} (l : list A) i : nget l i = nth_error l (N.to_nat i).
Proof.
  unfold nget, aget. destruct (N.ltb_spec i (N.of_nat (length l))); auto. symmetry. apply nth_error_None. lia.
Qed.
Lemma nset_some {A} (l : list A) i v : (N.to_nat i < length l)%nat -> exists l', nset l i v = Some l' /\ length l' = length l /\
  forall k, nth_error l' k = if (k =? N.to_nat i)%nat then Some v else nth_error l k.
Proof.
  intros H. unfold nset. destruct (N.ltb_spec i (N.of_nat (length l))); [|lia]. now apply aset_some.
Qed.
Lemma nset_none {A} (l : list A) i v : (length l <= N.to_nat i)%nat -> nset l i v = None.
Proof. intros H. unfold nset. destruct (N.ltb_spec i (N.of_nat (length l))); auto. lia. Qed.

(** The last position sent to [q] *)
Fixpoint last_to {T} (ms : list N) (xs : list T) (q : N) : option T :=
  match ms, xs with
  | m :: ms, x :: xs => match last_to ms xs q with Some y => Some y | None => if (m =? q)%N then Some x else None end
  | _, _ => None
  end.
Definition in_bounds (n : N) (ms : list N) : Prop := forall m, In m ms -> m = EMPTY \/ (m < n)%N.
Lemma map_loop {T} ms : forall (xs : list T) out, length xs = length ms ->
  (in_bounds (N.of_nat (length out)) ms -> exists r, for_each (combine ms xs) (fun (e : N * T) out =>
      if (fst e =? EMPTY)%N then Some out else nset out (fst e) (snd e)) out = Some r /\ length r = length out /\
    forall q, (q < N.of_nat (length out))%N -> nth_error r (N.to_nat q) =
       match (if (q =? EMPTY)%N then None else last_to ms xs q) with Some x => Some x | None => nth_error out (N.to_nat q) end) /\
  (~ in_bounds (N.of_nat (length out)) ms -> for_each (combine ms xs) (fun (e : N * T) out =>
      if (fst e =? EMPTY)%N then Some out else nset out (fst e) (snd e)) out = None).
Proof.
  induction ms as [|m ms IH]; intros xs out L.
  - destruct xs; [|discriminate]. split.
    + intros _. exists out. repeat split. intros q Hq. cbn [last_to]. now destruct (q =? EMPTY)%N.
    + intros H. exfalso. apply H. intros x [].
  - destruct xs as [|x xs]; [discriminate|]. cbn [length] in L. injection L as L. cbn [combine for_each fst snd last_to].
    destruct (N.eqb_spec m EMPTY) as [E|N].
    + cbn [obind]. destruct (IH xs out L) as (H1 & H2). split.
      * intros B. destruct H1 as (r & -> & Lr & Hr); [intros y I; apply B; now right|]. exists r. repeat split; auto.
        intros q Hq. rewrite Hr by auto. destruct (N.eqb_spec q EMPTY); auto. destruct (last_to ms xs q); auto.
        destruct (N.eqb_spec m q); auto. congruence.
      * intros B. apply H2. intros B'. apply B. intros y [ <- |I]; auto.
    + destruct (N.ltb_spec m (N.of_nat (length out))) as [Hm|Hm].
      * destruct (nset_some out m x) as (out' & -> & L' & N'); [lia|]. cbn [obind]. destruct (IH xs out' L) as (H1 & H2). rewrite L' in *. split.
        -- intros B. destruct H1 as (r & -> & Lr & Hr); [intros y I; apply B; now right|]. exists r. repeat split; auto.
           intros q Hq. rewrite Hr, N' by auto. destruct (N.eqb_spec q EMPTY) as [Eq|_].
           ++ destruct (Nat.eqb_spec (N.to_nat q) (N.to_nat m)) as [E|_]; auto. apply N2Nat.inj in E. congruence.
           ++ destruct (last_to ms xs q); auto. destruct (N.eqb_spec m q) as [ -> |Nq]; [now rewrite Nat.eqb_refl|].
              destruct (Nat.eqb_spec (N.to_nat q) (N.to_nat m)) as [E|_]; auto. apply N2Nat.inj in E. congruence.
        -- intros B. apply H2. intros B'. apply B. intros y [ <- |I]; auto.
      * rewrite nset_none by lia. cbn [obind]. split; auto. intros B. destruct (B m); [now left|tauto|lia].
Qed.
Lemma map_inputs_spec {T} (d : T) m xs : length xs = length (mapping m) ->
  (in_bounds (next_size m) (mapping m) -> exists r, map_inputs d m xs = Some r /\ length r = N.to_nat (next_size m) /\
    forall q, (q < next_size m)%N -> nth_error r (N.to_nat q) = Some (match (if (q =? EMPTY)%N then None else last_to (mapping m) xs q) with Some x => x | None => d end)) /\
  (~ in_bounds (next_size m) (mapping m) -> map_inputs d m xs = None).
Proof.
  intros L. unfold map_inputs. rewrite L, Nat.eqb_refl. cbn [guard obind].
  destruct (map_loop (mapping m) xs (repeat d (N.to_nat (next_size m))) L) as (H1 & H2). rewrite repeat_length, N2Nat.id in *.
  split; auto. intros B. destruct (H1 B) as (r & E & Lr & Hr). exists r. repeat split; auto. intros q Hq. rewrite Hr by auto.
  destruct (if (q =? EMPTY)%N then None else last_to (mapping m) xs q); auto. apply nth_error_repeat. lia.
Qed.
Lemma bounds_dec n ms : in_bounds n ms \/ ~ in_bounds n ms.
Proof.
  induction ms as [|m ms [IH|IH]]; [left; intros x []| |right; intros H; apply IH; intros x I; apply H; now right].
  destruct (N.eqb_spec m EMPTY) as [E|N]; [left; intros x [ <- |I]; auto|].
  destruct (N.ltb_spec m n) as [L|L]; [left; intros x [ <- |I]; auto|]. right. intros H. destruct (H m); [now left|tauto|lia].
Qed.
Lemma map_some {T} (d : T) m xs r : map_inputs d m xs = Some r -> length xs = length (mapping m) /\ in_bounds (next_size m) (mapping m).
Proof.
  intros E. assert (L : length xs = length (mapping m)).
  { unfold map_inputs in E. destruct (Nat.eqb_spec (length xs) (length (mapping m))); auto. discriminate. }
  split; auto. destruct (bounds_dec (next_size m) (mapping m)) as [B|B]; auto. apply (map_inputs_spec d m xs L) in B. congruence.
Qed.

Definition injective (m : input_mapping) : Prop := forall i j x, nth_error (mapping m) i = Some x -> nth_error (mapping m) j = Some x -> x <> EMPTY -> i = j.
Lemma last_to_some {T} ms : forall (xs : list T) q y, last_to ms xs q = Some y -> exists i, nth_error ms i = Some q /\ nth_error xs i = Some y.
Proof.
  induction ms as [|m ms IH]; intros [|x xs] q y; cbn; try discriminate. destruct (last_to ms xs q) eqn:E.
  - intros [= ->]. destruct (IH _ _ _ E) as (i & A & B). now exists (S i).
  - destruct (N.eqb_spec m q) as [ -> |]; [|discriminate]. intros [= ->]. now exists 0%nat.
Qed.
Lemma last_to_none {T} ms : forall (xs : list T) q i, length xs = length ms -> last_to ms xs q = None -> nth_error ms i <> Some q.
Proof.
  induction ms as [|m ms IH]; intros [|x xs] q i L H; try discriminate; [destruct i; discriminate|]. cbn in L, H. destruct (last_to ms xs q) eqn:E; [discriminate|].
  destruct (N.eqb_spec m q); [discriminate|]. destruct i; cbn; [congruence|]. eapply IH; eauto.
Qed.
Definition through (b : list N) (m : N) : N := if (m =? EMPTY)%N then EMPTY else nth (N.to_nat m) b EMPTY.
Lemma compose_spec a b : (forall m, In m (mapping a) -> m = EMPTY \/ (N.to_nat m < length (mapping b))%nat) ->
  compose a b = Some {| next_size := next_size b; mapping := map (through (mapping b)) (mapping a) |}.
Proof.
  intros H. unfold compose. rewrite (omap_total _ (through (mapping b))); [reflexivity|]. intros m I. unfold through.
  destruct (N.eqb_spec m EMPTY); auto. rewrite nget_spec. apply nth_error_nth'. destruct (H m I); [tauto|auto].
Qed.
Lemma last_to_compose {T} a b (xs : list T) p q : q <> EMPTY -> p <> EMPTY -> nth_error b (N.to_nat p) = Some q ->
  (forall i j x, nth_error b i = Some x -> nth_error b j = Some x -> x <> EMPTY -> i = j) ->
  last_to (map (through b) a) xs q = last_to a xs p.
Proof.
  intros Hq Hp Ep Inj. revert xs. induction a as [|m a IH]; intros [|x xs]; cbn [map last_to]; auto. rewrite IH.
  destruct (last_to a xs p); auto. unfold through. destruct (N.eqb_spec m EMPTY) as [ -> |N].
  - destruct (N.eqb_spec EMPTY q), (N.eqb_spec EMPTY p); congruence.
  - destruct (N.eqb_spec m p) as [ -> |Np].
    + rewrite (nth_error_nth _ _ _ Ep). now rewrite N.eqb_refl.
    + destruct (N.eqb_spec (nth (N.to_nat m) b EMPTY) q) as [E|]; auto. exfalso. apply Np, N2Nat.inj.
      apply (Inj _ _ q); auto. rewrite <- E. apply nth_error_nth'. destruct (Nat.lt_ge_cases (N.to_nat m) (length b)); auto.
      rewrite nth_overflow in E by auto. congruence.
Qed.
Lemma last_to_unhit {T} a b (xs : list T) q : q <> EMPTY -> length xs = length a -> (forall p, nth_error b (N.to_nat p) <> Some q) -> last_to (map (through b) a) xs q = None.
Proof.
  intros Hq L H. destruct (last_to (map (through b) a) xs q) as [y|] eqn:E; auto. exfalso. apply last_to_some in E as (i & E & _).
  rewrite nth_error_map in E. destruct (nth_error a i) as [m|]; [|discriminate]. injection E as E. unfold through in E.
  destruct (N.eqb_spec m EMPTY); [congruence|]. apply (H m). rewrite <- E. apply nth_error_nth'.
  destruct (Nat.lt_ge_cases (N.to_nat m) (length b)); auto. rewrite nth_overflow in E by auto. congruence.
Qed.
Lemma compose_maps {T} (d : T) a b xs mid out : injective b -> map_inputs d a xs = Some mid -> map_inputs d b mid = Some out ->
  exists c, compose a b = Some c /\ map_inputs d c xs = Some out.
Proof.
  intros Inj Ea Eb. destruct (map_some _ _ _ _ Ea) as (La & Ba). destruct (map_some _ _ _ _ Eb) as (Lb & Bb).
  destruct (proj1 (map_inputs_spec d a xs La) Ba) as (mid' & E1 & Lm & Hm). rewrite Ea in E1. injection E1 as <-.
  destruct (proj1 (map_inputs_spec d b mid Lb) Bb) as (out' & E2 & Lo & Ho). rewrite Eb in E2. injection E2 as <-.
  exists {| next_size := next_size b; mapping := map (through (mapping b)) (mapping a) |}.
  split. { apply compose_spec. intros m I. destruct (Ba m I); auto. right. lia. }
  set (c := {| next_size := next_size b; mapping := map (through (mapping b)) (mapping a) |}).
  assert (Lc : length xs = length (mapping c)) by (cbn; now rewrite map_length).
  assert (Bc : in_bounds (next_size c) (mapping c)).
  { intros m I. cbn in I. apply in_map_iff in I as (x & <- & I). unfold through. destruct (N.eqb_spec x EMPTY); auto.
    apply Bb. apply nth_In. destruct (Ba x I); [tauto|lia]. }
  destruct (proj1 (map_inputs_spec d c xs Lc) Bc) as (r & -> & Lr & Hr). f_equal. cbn [next_size c] in *.
  apply nth_error_ext'. intros i. destruct (Nat.lt_ge_cases i (N.to_nat (next_size b))) as [Hi|Hi].
  2:{ rewrite (proj2 (nth_error_None r i)), (proj2 (nth_error_None out i)) by lia. reflexivity. }
  assert (Ei : i = N.to_nat (N.of_nat i)) by lia. rewrite Ei, Hr, Ho by lia. f_equal.
  destruct (N.eqb_spec (N.of_nat i) EMPTY) as [|Ne]; auto. set (q := N.of_nat i) in *.
  change (mapping c) with (map (through (mapping b)) (mapping a)).
  destruct (last_to (mapping b) mid q) as [y|] eqn:El.
  - apply last_to_some in El as (p & Ep & Ey). assert (Hp : (p < length mid)%nat) by (apply nth_error_Some; congruence).
    assert (Ep' : p = N.to_nat (N.of_nat p)) by lia. rewrite Ep' in Ep, Ey. rewrite Hm in Ey by lia. injection Ey as <-.
    destruct (N.eqb_spec (N.of_nat p) EMPTY) as [E0|E0].
    + (* the EMPTYth intermediate value is never written *)
      assert (Z : last_to (map (through (mapping b)) (mapping a)) xs q = None).
      { destruct (last_to _ xs q) as [y|] eqn:E; auto. exfalso. apply last_to_some in E as (k & E & _). rewrite nth_error_map in E.
        destruct (nth_error (mapping a) k) as [m|] eqn:Ek; [|discriminate]. injection E as E. unfold through in E.
        destruct (N.eqb_spec m EMPTY); [congruence|]. assert (Hm' : (N.to_nat m < length (mapping b))%nat).
        { destruct (Ba m); [eapply nth_error_In; eassumption|tauto|lia]. }
        assert (N.to_nat m = N.to_nat (N.of_nat p)) as Q. { apply (Inj _ _ q); auto. rewrite <- E. now apply nth_error_nth'. }
        apply N2Nat.inj in Q. congruence. }
      now rewrite Z.
    + now rewrite (last_to_compose (mapping a) (mapping b) xs (N.of_nat p) q).
  - rewrite last_to_unhit; auto. intros p. apply (last_to_none _ _ _ _ (Lb) El).
Qed.

(** compose fails only when the sizes do not match *)
Lemma compose_total a b : in_bounds (next_size a) (mapping a) -> N.to_nat (next_size a) = length (mapping b) -> exists c, compose a b = Some c.
Proof. intros H L. eexists. apply compose_spec. intros m I. destruct (H m I); auto. right. lia. Qed.

(** ** In place *)
Lemma omap_inv {A B} (f : A -> option B) l r : omap f l = Some r -> forall i, nth_error r i = match nth_error l i with Some x => f x | None => None end.
Proof.
  revert r. induction l as [|a l IH]; intros r H i; cbn in H.
  - injection H as <-. now destruct i.
  - destruct (f a) eqn:E; [|discriminate]. cbn in H. destruct (omap f l); [|discriminate]. cbn in H. injection H as <-. destruct i; cbn; auto.
Qed.
Lemma in_place_loop (b : list N) post : forall pre,
  for_each (seq (length pre) (length post)) (fun i ms =>
      let* m := aget ms i in
      if (m =? EMPTY)%N then Some ms else let* x := nget b m in aset ms i x) (pre ++ post) =
  let* r := omap (fun m => if (m =? EMPTY)%N then Some EMPTY else nget b m) post in Some (pre ++ r).
Proof.
  induction post as [|m post IH]; intros pre; cbn [length seq for_each omap obind]; auto.
  unfold aget at 1. rewrite nth_error_app2, Nat.sub_diag by auto. cbn [nth_error obind].
  assert (S : forall x, aset (pre ++ m :: post) (length pre) x = Some (pre ++ x :: post)).
  { intros x. clear. induction pre; cbn; auto. now rewrite IHpre. }
  specialize (fun x => IH (pre ++ [x])). 
  assert (IH' : forall x, for_each (seq (Datatypes.S (length pre)) (length post)) (fun i ms =>
      let* m := aget ms i in
      if (m =? EMPTY)%N then Some ms else let* x := nget b m in aset ms i x) (pre ++ x :: post) =
      let* r := omap (fun m => if (m =? EMPTY)%N then Some EMPTY else nget b m) post in Some (pre ++ x :: r)).
  { intros x. specialize (IH x). rewrite app_length, Nat.add_1_r, <- !app_assoc in IH. cbn [app] in IH. rewrite IH.
    destruct (omap _ post); cbn [obind]; auto. now rewrite <- app_assoc. }
  destruct (N.eqb_spec m EMPTY) as [ -> |N]; cbn [obind].
  - rewrite IH'. destruct (omap _ post); reflexivity.
  - destruct (nget b m) as [x|]; cbn [obind]; auto. rewrite S. cbn [obind]. rewrite IH'. destruct (omap _ post); reflexivity.
Qed.
Lemma in_place_same a b : compose_in_place a b = compose a b.
Proof.
  unfold compose_in_place, compose. pose proof (in_place_loop (mapping b) (mapping a) []) as H. cbn [length app] in H. rewrite H.
  destruct (omap _ (mapping a)); reflexivity.
Qed.

(** ** Validity *)
Lemma scan_used_spec n ms : forall used, length used = N.to_nat n ->
  (forall r, scan_used n ms used = Some r ->
     length r = N.to_nat n /\ in_bounds n ms /\ (forall i j x, nth_error ms i = Some x -> nth_error ms j = Some x -> x <> EMPTY -> i = j) /\
     (forall m, In m ms -> m <> EMPTY -> nth_error used (N.to_nat m) = Some false) /\
     forall k, nth_error r k = Some true <-> nth_error used k = Some true \/ exists m, In m ms /\ m <> EMPTY /\ N.to_nat m = k) /\
  (in_bounds n ms -> (forall i j x, nth_error ms i = Some x -> nth_error ms j = Some x -> x <> EMPTY -> i = j) ->
     (forall m, In m ms -> m <> EMPTY -> nth_error used (N.to_nat m) = Some false) -> exists r, scan_used n ms used = Some r).
Proof.
  induction ms as [|m ms IH]; intros used L.
  - split.
    + intros r [= <-]. split; auto. split; [intros x []|]. split; [intros [|i] j x; discriminate|]. split; [intros x []|].
      intros k. split; auto. intros [H|(m & [] & _)]; auto.
    + intros _ _ _. cbn. eauto.
  - cbn [scan_used]. destruct (N.eqb_spec m EMPTY) as [E|NE].
    + destruct (IH used L) as (H1 & H2). split.
      * intros r Er. destruct (H1 r Er) as (A & B & C & D & F). split; auto. split; [intros x [ <- |I]; auto|]. split.
        { intros [|i] [|j] x; cbn [nth_error]; auto; intros P Q R; try congruence. f_equal. exact (C i j x P Q R). }
        split; [intros x [ <- |I]; auto; congruence|]. intros k. rewrite F. split.
        -- intros [H|(x & I & Q)]; auto. right. exists x. split; auto. now right.
        -- intros [H|(x & [ <- |I] & Q)]; auto; [tauto|]. right. eauto.
      * intros B C D. apply H2; [intros x I; apply B; now right| |intros x I; apply D; now right].
        intros i j x P Q R. specialize (C (S i) (S j) x P Q R). lia.
    + destruct (N.leb_spec n m) as [Hn|Hn].
      { split; [discriminate|]. intros B. destruct (B m); [now left|tauto|lia]. }
      rewrite nget_spec. assert (Hm : (N.to_nat m < length used)%nat) by lia.
      destruct (nset_some used m true Hm) as (u & Eu & Lu & Nu). rewrite Eu.
      destruct (nth_error used (N.to_nat m)) as [[|]|] eqn:Eg.
      * split; [discriminate|]. intros _ _ D. rewrite D in Eg; [discriminate|now left|auto].
      * destruct (IH u) as (H1 & H2); [lia|]. split.
        -- intros r Er. destruct (H1 r Er) as (A & B & C & D & F). split; auto. split; [intros x [ <- |I]; auto|].
           assert (NI : ~ In m ms). { intros I. specialize (D m I NE). rewrite Nu, Nat.eqb_refl in D. discriminate. }
           split.
           { intros [|i] [|j] x; cbn [nth_error]; auto; intros P Q R.
             - injection P as ->. exfalso. apply NI. eapply nth_error_In; eassumption.
             - injection Q as ->. exfalso. apply NI. eapply nth_error_In; eassumption.
             - f_equal. exact (C i j x P Q R). }
           split.
           { intros x [ <- |I] Nx; auto. specialize (D x I Nx). rewrite Nu in D. destruct (Nat.eqb_spec (N.to_nat x) (N.to_nat m)); [discriminate|auto]. }
           intros k. rewrite F, Nu. split.
           ++ intros [H|(x & I & Q)]; [|right; exists x; split; auto; now right].
              destruct (Nat.eqb_spec k (N.to_nat m)) as [E0|E0]; [|now left]. right. exists m. split; [now left|auto].
           ++ intros [H|(x & [ <- |I] & Nx & Q)].
              ** left. destruct (k =? N.to_nat m)%nat; auto.
              ** left. now rewrite <- Q, Nat.eqb_refl.
              ** right. eauto.
        -- intros B C D. apply H2; [intros x I; apply B; now right| |].
           { intros i j x P Q R. specialize (C (S i) (S j) x P Q R). lia. }
           intros x I Nx. rewrite Nu. destruct (Nat.eqb_spec (N.to_nat x) (N.to_nat m)) as [Q|]; [|apply D; auto; now right].
           apply N2Nat.inj in Q. subst x. apply In_nth_error in I as (i & Ei). specialize (C 0%nat (S i) m eq_refl Ei NE). discriminate.
      * apply nth_error_None in Eg. lia.
Qed.
Definition surjective (m : input_mapping) : Prop := forall q, (q < next_size m)%N -> In q (mapping m) /\ q <> EMPTY.
Lemma validate_iff m : validate m = true <-> in_bounds (next_size m) (mapping m) /\ injective m /\ surjective m.
Proof.
  unfold validate. set (u0 := repeat false (N.to_nat (next_size m))).
  assert (L0 : length u0 = N.to_nat (next_size m)) by apply repeat_length.
  assert (F0 : forall k, nth_error u0 k <> Some true).
  { intros k E. apply nth_error_In, repeat_spec in E. discriminate. }
  destruct (scan_used_spec (next_size m) (mapping m) u0 L0) as (H1 & H2). split.
  - destruct (scan_used _ _ u0) as [r|]; [|discriminate]. destruct (H1 r eq_refl) as (A & B & C & D & F). intros Hall.
    split; auto. split; auto. intros q Hq. destruct (nth_error r (N.to_nat q)) as [b|] eqn:Eq; [|apply nth_error_None in Eq; lia].
    rewrite forallb_forall in Hall. pose proof (Hall b (nth_error_In _ _ Eq)) as Hb. rewrite Hb in Eq.
    apply F in Eq as [Eq|(x & I & Nx & Q)]; [now apply F0 in Eq|]. apply N2Nat.inj in Q. subst x. auto.
  - intros (B & C & D). destruct H2 as (r & Er); auto.
    { intros x I Nx. unfold u0. apply nth_error_repeat. destruct (B x I); [tauto|lia]. }
    rewrite Er. destruct (H1 r Er) as (A & _ & _ & _ & F). apply forallb_forall. intros b I. apply In_nth_error in I as (k & Ek).
    assert (Hk : (k < length r)%nat) by (apply nth_error_Some; congruence).
    destruct (D (N.of_nat k)) as (I & Nk); [lia|]. enough (nth_error r k = Some true) by congruence. apply F. right. exists (N.of_nat k). repeat split; auto. lia.
Qed.
Lemma compose_valid a b c : validate a = true -> validate b = true -> N.to_nat (next_size a) = length (mapping b) -> compose a b = Some c -> validate c = true.
Proof.
  rewrite !validate_iff. intros (Ba & Ia & Sa) (Bb & Ib & Sb) L E.
  rewrite compose_spec in E by (intros m I; destruct (Ba m I); auto; right; lia). injection E as <-. split; [|split].
  - intros m I. cbn in I. apply in_map_iff in I as (x & <- & I). unfold through. destruct (N.eqb_spec x EMPTY); auto.
    apply Bb. apply nth_In. destruct (Ba x I); [tauto|lia].
  - intros i j x Hi Hj Nx. cbn [mapping] in *. rewrite nth_error_map in Hi, Hj.
    destruct (nth_error (mapping a) i) as [p|] eqn:Ei; [|discriminate]. destruct (nth_error (mapping a) j) as [q|] eqn:Ej; [|discriminate].
    injection Hi as Hi. injection Hj as Hj. unfold through in *. destruct (N.eqb_spec p EMPTY); [congruence|]. destruct (N.eqb_spec q EMPTY); [congruence|].
    assert (Hp : (N.to_nat p < length (mapping b))%nat) by (destruct (Ba p); [eapply nth_error_In; eassumption|tauto|lia]).
    assert (Hq : (N.to_nat q < length (mapping b))%nat) by (destruct (Ba q); [eapply nth_error_In; eassumption|tauto|lia]).
    assert (N.to_nat p = N.to_nat q) as Q. { apply (Ib _ _ x); auto; [rewrite <- Hi|rewrite <- Hj]; now apply nth_error_nth'. }
    apply N2Nat.inj in Q. subst q. now apply (Ia _ _ p).
  - intros q Hq. cbn [next_size mapping] in *. destruct (Sb q Hq) as (I & Nq). split; auto. apply In_nth_error in I as (p & Ep).
    assert (Hp : (p < length (mapping b))%nat) by (apply nth_error_Some; congruence).
    destruct (Sa (N.of_nat p)) as (I & Np); [lia|]. apply in_map_iff. exists (N.of_nat p). split; auto. unfold through.
    destruct (N.eqb_spec (N.of_nat p) EMPTY); [tauto|]. rewrite Nat2N.id. now apply nth_error_nth.
Qed.

(** ** Meaning *)
Lemma map_means {T} (d : T) m xs r : injective m -> map_inputs d m xs = Some r -> length r = N.to_nat (next_size m) /\
  (forall i q x, nth_error (mapping m) i = Some q -> q <> EMPTY -> nth_error xs i = Some x -> nth_error r (N.to_nat q) = Some x) /\
  (forall q, (q < next_size m)%N -> q = EMPTY \/ ~ In q (mapping m) -> nth_error r (N.to_nat q) = Some d).
Proof.
  intros Inj E. destruct (map_some _ _ _ _ E) as (L & B). destruct (proj1 (map_inputs_spec d m xs L) B) as (r' & E' & Lr & H).
  rewrite E in E'. injection E' as <-. split; auto. split.
  - intros i q x Hi Nq Hx. assert (Hq : (q < next_size m)%N) by (destruct (B q); auto; [eapply nth_error_In; eauto|tauto]).
    rewrite (H q Hq). destruct (N.eqb_spec q EMPTY); [tauto|]. destruct (last_to (mapping m) xs q) as [y|] eqn:Ey.
    + apply last_to_some in Ey as (j & Hj & Hy). assert (i = j) by (eapply Inj; eauto). subst. congruence.
    + exfalso. eapply (last_to_none _ _ _ i L Ey); eauto.
  - intros q Hq C. rewrite (H q Hq). destruct (N.eqb_spec q EMPTY); auto. destruct (last_to (mapping m) xs q) as [y|] eqn:Ey; auto.
    apply last_to_some in Ey as (j & Hj & _). destruct C as [C|C]; [tauto|]. exfalso. apply C. eapply nth_error_In; eauto.
Qed.
Lemma identity_valid n : (n <= EMPTY)%N -> validate (new_identity n) = true.
Proof.
  intros Hn. apply validate_iff. unfold new_identity. split; [|split]; cbn [next_size mapping].
  - intros m I. apply in_map_iff in I as (k & <- & I). apply in_seq in I. right. lia.
  - intros i j x Hi Hj _. cbn [mapping] in *. rewrite nth_error_map in Hi, Hj.
    destruct (Nat.lt_ge_cases i (N.to_nat n)) as [Li|Li]; [|rewrite (proj2 (nth_error_None (seq 0 (N.to_nat n)) i)) in Hi by (rewrite seq_length; auto); discriminate].
    destruct (Nat.lt_ge_cases j (N.to_nat n)) as [Lj|Lj]; [|rewrite (proj2 (nth_error_None (seq 0 (N.to_nat n)) j)) in Hj by (rewrite seq_length; auto); discriminate].
    rewrite (nth_error_nth' _ 0) in Hi by (rewrite seq_length; auto). rewrite (nth_error_nth' _ 0) in Hj by (rewrite seq_length; auto). rewrite seq_nth in Hi by auto. rewrite seq_nth in Hj by auto. cbn in Hi, Hj. injection Hi as <-. injection Hj as Hj. lia.
  - intros q Hq. cbn [next_size mapping] in *. split; [|lia]. apply in_map_iff. exists (N.to_nat q). split; [apply N2Nat.id|]. apply in_seq. lia.
Qed.
Lemma identity_keeps {T} (d : T) n xs : (n <= EMPTY)%N -> length xs = N.to_nat n -> map_inputs d (new_identity n) xs = Some xs.
Proof.
  intros Hn L. pose proof (identity_valid n Hn) as V. apply validate_iff in V as (B & I & _).
  assert (L' : length xs = length (mapping (new_identity n))) by (cbn; rewrite map_length, seq_length; auto).
  destruct (proj1 (map_inputs_spec d (new_identity n) xs L') B) as (r & E & _). rewrite E.
  destruct (map_means d _ xs r I E) as (Lr & H & _). f_equal. cbn [next_size new_identity] in Lr. apply nth_error_ext'. intros i.
  destruct (Nat.lt_ge_cases i (N.to_nat n)) as [Li|Li]; [|rewrite !(proj2 (nth_error_None _ _)) by lia; auto].
    destruct (nth_error xs i) as [x|] eqn:Ex; [|apply nth_error_None in Ex; lia].
    rewrite <- (Nat2N.id i). apply (H i); auto; [|lia]. cbn [mapping new_identity]. rewrite nth_error_map, (nth_error_nth' _ 0) by (rewrite seq_length; auto).
    now rewrite seq_nth by auto.
Qed.
