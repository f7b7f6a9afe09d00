From Coq Require FinFun.
From Coq Require Import ZArith List Bool Znumtheory Lia.
From Verif Require Import Spec.Numbers Spec.Matrix Model.Builder Model.Freivalds Proofs.Builder.
Import ListNotations.
Local Open Scope Z_scope.

(** Integer dot product. *)
Fixpoint zdot (a b : list Z) : Z :=
  match a, b with x :: r, y :: s => x * y + zdot r s | _, _ => 0 end.

Lemma dot_loop p l : forall acc,
  fold_left (fun acc ab => add p acc (mul p (fst ab) (snd ab))) l (acc mod p) =
  (acc + zsum (map (fun ab => fst ab * snd ab) l)) mod p.
Proof.
  induction l as [|[a b] l IH]; intros acc; cbn [fold_left map zsum fold_right fst snd].
  - now rewrite Z.add_0_r.
  - unfold add, mul. rewrite <- Zplus_mod. fold (mul p). rewrite IH. f_equal. unfold zsum. ring.
Qed.

Lemma zdot_sum a b : zdot a b = zsum (map (fun ab => fst ab * snd ab) (combine a b)).
Proof. revert b. induction a as [|x a IH]; intros [|y b]; cbn; auto. rewrite IH. reflexivity. Qed.

Lemma dot_zdot p a b : dot p a b = zdot a b mod p.
Proof. unfold dot, const. rewrite dot_loop, zdot_sum. reflexivity. Qed.

(** [row_mul n r B] = r * B as integers. *)
Fixpoint row_mul (n : nat) (r : list Z) (B : list (list Z)) : list Z :=
  match r, B with
  | a :: r', b :: B' => map (fun uv => a * fst uv + snd uv) (combine b (row_mul n r' B'))
  | _, _ => repeat 0 n
  end.

Lemma row_mul_len n r B : (forall b, In b B -> length b = n) -> length (row_mul n r B) = n.
Proof.
  revert B. induction r as [|a r IH]; intros [|b B] H; cbn; try apply repeat_length.
  rewrite map_length, combine_length, IH by (intros; apply H; right; auto).
  rewrite (H b) by (left; auto). lia.
Qed.

Lemma zdot_repeat0 n x : zdot (repeat 0 n) x = 0.
Proof. revert x. induction n; intros [|a x]; cbn; auto. Qed.

Lemma zdot_comb a b t x : length b = length t ->
  zdot (map (fun uv => a * fst uv + snd uv) (combine b t)) x = a * zdot b x + zdot t x.
Proof.
  revert t x. induction b as [|u b IH]; intros [|v t] x H; try discriminate; cbn.
  - lia.
  - destruct x as [|y x]; cbn; [lia|]. rewrite IH by (cbn in H; lia). ring.
Qed.

Lemma zdot_row_mul n r B x : (forall b, In b B -> length b = n) ->
  zdot (row_mul n r B) x = zdot r (map (fun b => zdot b x) B).
Proof.
  revert B. induction r as [|a r IH]; intros [|b B] H; cbn [row_mul map zdot]; try apply zdot_repeat0.
  rewrite zdot_comb.
  - rewrite IH by (intros; apply H; right; auto). reflexivity.
  - rewrite row_mul_len by (intros; apply H; right; auto). apply H. left. auto.
Qed.

Lemma nth_row_mul n r B j : (forall b, In b B -> length b = n) -> length r = length B -> (j < n)%nat ->
  nth j (row_mul n r B) 0 = zsum (map (fun k => nth k r 0 * entry B k j) (seq 0 (length B))).
Proof.
  revert B. induction r as [|a r IH]; intros [|b B] H L Hj; try discriminate; cbn [row_mul length seq map zsum fold_right].
  - clear. revert j. induction n; intros [|j]; cbn; auto.
  - assert (Lb : length b = n) by (apply H; left; auto).
    assert (Lr : length (row_mul n r B) = n) by (apply row_mul_len; intros; apply H; right; auto).
    rewrite (nth_indep _ 0 ((fun uv => a * fst uv + snd uv) (0, 0)))
      by (rewrite map_length, combine_length; lia).
    rewrite (map_nth (fun uv => a * fst uv + snd uv)), combine_nth by lia. cbn [fst snd nth].
    rewrite IH by (try (intros; apply H; right; auto); cbn in L; lia).
    unfold entry at 2. cbn [nth]. f_equal. unfold zsum. f_equal.
    rewrite <- seq_shift, map_map. reflexivity.
Qed.

Lemma zdot_mod_r p r x y : map (fun z => z mod p) x = map (fun z => z mod p) y -> zdot r x mod p = zdot r y mod p.
Proof.
  revert x y. induction r as [|a r IH]; intros [|u x] [|v y] E; try discriminate; cbn; auto.
  cbn in E. injection E as E1 E2. rewrite Zplus_mod, (IH x y E2), <- Zplus_mod.
  rewrite Zplus_mod, Zmult_mod, E1, <- Zmult_mod, <- Zplus_mod. reflexivity.
Qed.

(** One entry of the check. *)
Lemma check_entry p n ra B rc x : 0 < p -> (forall b, In b B -> length b = n) ->
  dot p ra (mat_vec p B x) = dot p rc x <->
  (zdot (row_mul n ra B) x - zdot rc x) mod p = 0.
Proof.
  intros Hp H. rewrite !dot_zdot. unfold mat_vec.
  rewrite (zdot_mod_r p ra _ (map (fun b => zdot b x) B)).
  2:{ rewrite !map_map. apply map_ext. intros b. rewrite dot_zdot. apply Zmod_mod. }
  rewrite <- zdot_row_mul with (n := n) by auto.
  generalize (zdot (row_mul n ra B) x) (zdot rc x). intros u v. split; intros E.
  - rewrite Zminus_mod, E, Z.sub_diag. apply Zmod_0_l.
  - assert (u = (u - v) + v) by ring. rewrite H0, Zplus_mod, E, Z.add_0_l, Zmod_mod. reflexivity.
Qed.

Lemma zdot_sub a b x : length a = length b ->
  zdot a x - zdot b x = zdot (map (fun uv => fst uv - snd uv) (combine a b)) x.
Proof.
  revert b x. induction a as [|u a IH]; intros [|v b] x L; try discriminate; cbn; [lia|].
  destruct x as [|y x]; [reflexivity|]. cbn. rewrite <- IH by (cbn in L; lia). ring.
Qed.

(** ** Counting solutions *)
Lemma tuples_count X (elems : list X) n : Z.of_nat (length (tuples elems n)) = Z.of_nat (length elems) ^ Z.of_nat n.
Proof.
  induction n as [|n IH]; [reflexivity|]. cbn [tuples]. rewrite Nat2Z.inj_succ, Z.pow_succ_r, <- IH by lia. clear IH.
  induction (tuples elems n) as [|v l IHl]; cbn [flat_map length]; [lia|].
  rewrite app_length, map_length, Nat2Z.inj_add, IHl, Nat2Z.inj_succ. ring.
Qed.

Lemma tuples_in X (elems : list X) n v : In v (tuples elems n) <-> length v = n /\ forall a, In a v -> In a elems.
Proof.
  revert v. induction n as [|n IH]; intros v; cbn [tuples].
  - split.
    + intros [<-|[]]. split; auto. intros a [].
    + intros (L & _). destruct v; [left; auto|discriminate].
  - rewrite in_flat_map. split.
    + intros (w & Hw & Hv). apply IH in Hw as (L & A). apply in_map_iff in Hv as (a & <- & Ha).
      cbn. split; [lia|]. intros b [<-|Hb]; auto.
    + intros (L & A). destruct v as [|a v]; [discriminate|]. exists v. split.
      * apply IH. cbn in L. split; [lia|]. intros; apply A; right; auto.
      * apply (in_map (fun b => b :: v)). apply A. left; auto.
Qed.

Lemma filter_flat_map X Y (f : Y -> bool) (g : X -> list Y) l :
  filter f (flat_map g l) = flat_map (fun v => filter f (g v)) l.
Proof. induction l; cbn; auto. rewrite filter_app, IHl. reflexivity. Qed.

Lemma flat_map_len_le X Y (g : X -> list Y) l b : (forall v, In v l -> (length (g v) <= b)%nat) ->
  (length (flat_map g l) <= b * length l)%nat.
Proof.
  induction l as [|v l IH]; cbn; intros H; [lia|]. rewrite app_length.
  pose proof (H v (or_introl eq_refl)). specialize (IH (fun w Hw => H w (or_intror Hw))). lia.
Qed.

Section Count.
Variable p : Z.
Hypothesis Hprime : prime p.

Definition sols (d : list Z) (t : Z) (x : list Z) : bool := ((zdot d x + t) mod p =? 0).

Lemma residues_len : Z.of_nat (length (residues p)) = p.
Proof. pose proof (prime_ge_2 _ Hprime). unfold residues. rewrite map_length, seq_length. lia. Qed.
Lemma residues_in a : In a (residues p) <-> 0 <= a < p.
Proof.
  pose proof (prime_ge_2 _ Hprime). unfold residues. rewrite in_map_iff. split.
  - intros (i & <- & Hi). apply in_seq in Hi. lia.
  - intros Ha. exists (Z.to_nat a). rewrite in_seq. lia.
Qed.
Lemma residues_nodup : NoDup (residues p).
Proof. unfold residues. apply FinFun.Injective_map_NoDup; [intros a b; lia|apply seq_NoDup]. Qed.

(** At most one residue solves a*d0 + t = 0 when d0 is not 0 modulo p. *)
Lemma one_sol d0 t : d0 mod p <> 0 ->
  (length (filter (fun a => ((a * d0 + t) mod p =? 0)%Z) (residues p)) <= 1)%nat.
Proof.
  intros Hd. pose proof (prime_ge_2 _ Hprime).
  assert (U : forall a b, In a (residues p) -> In b (residues p) ->
     (a * d0 + t) mod p = 0 -> (b * d0 + t) mod p = 0 -> a = b).
  { intros a b Ha Hb Ea Eb. apply residues_in in Ha, Hb.
    assert (E : ((a - b) * d0) mod p = 0).
    { replace ((a - b) * d0) with ((a * d0 + t) - (b * d0 + t)) by ring.
      rewrite Zminus_mod, Ea, Eb. apply Zmod_0_l. }
    apply Z.mod_divide in E; [|lia]. apply prime_mult in E; auto. destruct E as [(k & Hk)|E].
    - assert (k = 0) by nia. lia.
    - exfalso. apply Hd. apply Z.mod_divide; auto; lia. }
  pose proof (NoDup_filter (fun a => (a * d0 + t) mod p =? 0) residues_nodup) as N.
  destruct (filter (fun a => (a * d0 + t) mod p =? 0) (residues p)) as [|a [|b l]] eqn:E; cbn; try lia.
  exfalso. assert (Ha : In a (a :: b :: l)) by (left; auto). assert (Hb : In b (a :: b :: l)) by (right; left; auto).
  rewrite <- E in Ha, Hb. apply filter_In in Ha as (Ha & Ea). apply filter_In in Hb as (Hb & Eb).
  apply Z.eqb_eq in Ea, Eb. assert (a = b) by (apply U; auto). subst. inversion N; subst. apply H2. left; auto.
Qed.

Lemma filter_map_cons (f : list Z -> bool) v l :
  length (filter f (map (fun a => a :: v) l)) = length (filter (fun a => f (a :: v)) l).
Proof. induction l as [|a l IH]; cbn; auto. destruct (f (a :: v)); cbn; auto. Qed.

Lemma sols_count d : forall t, (exists k, (k < length d)%nat /\ nth k d 0 mod p <> 0) ->
  Z.of_nat (length (filter (sols d t) (tuples (residues p) (length d)))) * p <= p ^ Z.of_nat (length d).
Proof.
  pose proof (prime_ge_2 _ Hprime) as H2. pose proof residues_len as RL.
  induction d as [|d0 d IH]; intros t (k & Hk & Hn); [cbn in Hk; lia|].
  cbn [length tuples]. rewrite filter_flat_map, Nat2Z.inj_succ, Z.pow_succ_r by lia.
  destruct (Z.eq_dec (d0 mod p) 0) as [E0|E0].
  - (* the first coordinate is irrelevant *)
    destruct k as [|k]; [cbn in Hn; contradiction|]. cbn in Hk, Hn.
    specialize (IH t (ex_intro _ k (conj (proj2 (Nat.succ_lt_mono _ _) Hk) Hn))).
    assert (Q : Z.of_nat (length (flat_map (fun v => filter (sols (d0 :: d) t) (map (fun a => a :: v) (residues p)))
        (tuples (residues p) (length d)))) =
        p * Z.of_nat (length (filter (sols d t) (tuples (residues p) (length d))))).
    { clear IH. induction (tuples (residues p) (length d)) as [|v l IHl]; cbn [flat_map filter length]; [lia|].
      rewrite app_length, Nat2Z.inj_add, IHl, filter_map_cons.
      assert (Ef : forall a, sols (d0 :: d) t (a :: v) = sols d t v).
      { intros a. unfold sols. cbn [zdot]. f_equal.
        replace (d0 * a + zdot d v + t) with (d0 * a + (zdot d v + t)) by ring.
        rewrite Zplus_mod, Zmult_mod, E0, Z.mul_0_l, Zmod_0_l, Z.add_0_l, Zmod_mod. reflexivity. }
      rewrite (filter_ext _ (fun _ => sols d t v)) by auto.
      destruct (sols d t v).
      - assert (Et : filter (fun _ : Z => true) (residues p) = residues p) by (clear; induction (residues p); cbn; congruence).
        rewrite Et, RL. cbn [length]. lia.
      - assert (Et : filter (fun _ : Z => false) (residues p) = []) by (clear; induction (residues p); cbn; congruence).
        rewrite Et. cbn [length]. lia. }
    rewrite Q. nia.
  - assert (Q : (length (flat_map (fun v => filter (sols (d0 :: d) t) (map (fun a => a :: v) (residues p)))
        (tuples (residues p) (length d))) <= 1 * length (tuples (residues p) (length d)))%nat).
    { apply flat_map_len_le. intros v _. rewrite filter_map_cons.
      rewrite (filter_ext _ (fun a => (a * d0 + (zdot d v + t)) mod p =? 0)).
      - apply one_sol; auto.
      - intros a. unfold sols. cbn [zdot]. f_equal. f_equal. ring. }
    pose proof (tuples_count Z (residues p) (length d)) as TC. rewrite RL in TC. nia.
Qed.

(** ** The gadget *)
Variables (l m n : nat) (A B C : list (list Z)).
Hypothesis HA : is_matrix p l m A.
Hypothesis HB : is_matrix p m n B.
Hypothesis HC : is_matrix p l n C.
Variable T : tableid -> list Z -> Prop.

Definition mk r c d := {| m_rows := r; m_cols := c; m_data := d |}.

Lemma rep_acc x : accepts p T (freivalds_rep p (mk l m A) (mk m n B) (mk l n C) x) tt <->
  forall i, (i < l)%nat -> (zdot (row_mul n (nth i A []) B) x - zdot (nth i C []) x) mod p = 0.
Proof.
  pose proof (prime_ge_2 _ Hprime) as H2. destruct HA as (LA & _). destruct HC as (LC & _). destruct HB as (LB & FB).
  assert (NB : forall b, In b B -> length b = n) by (intros b Hb; apply FB; auto).
  unfold freivalds_rep. cbn [m_data mk]. rewrite accepts_forM, Forall_forall. split.
  - intros H i Hi. apply check_entry; auto; [lia|].
    specialize (H (dot p (nth i A []) (mat_vec p B x), dot p (nth i C []) x)).
    apply accepts_assert_eq in H; auto.
    assert (E : nth i (combine (mat_vec p A (mat_vec p B x)) (mat_vec p C x)) (dot p [] (mat_vec p B x), dot p [] x) =
       (dot p (nth i A []) (mat_vec p B x), dot p (nth i C []) x)).
    { unfold mat_vec at 1 3. rewrite combine_nth by (rewrite !map_length; lia).
      rewrite (map_nth (fun row => dot p row (mat_vec p B x))), (map_nth (fun row => dot p row x)). reflexivity. }
    rewrite <- E. apply nth_In. unfold mat_vec at 1 3. rewrite combine_length, !map_length. lia.
  - intros H uw Hin. apply accepts_assert_eq.
    apply (In_nth _ _ (dot p [] (mat_vec p B x), dot p [] x)) in Hin as (i & Hi & <-).
    unfold mat_vec at 1 3 in Hi. rewrite combine_length, !map_length in Hi.
    unfold mat_vec at 1 3. unfold mat_vec at 3 5. rewrite combine_nth by (rewrite !map_length; lia).
    rewrite (map_nth (fun row => dot p row (mat_vec p B x))), (map_nth (fun row => dot p row x)). cbn [fst snd].
    apply check_entry with (n := n); auto; [lia|]. apply H. lia.
Qed.

Lemma freivalds_acc xs : xs <> [] ->
  accepts p T (freivalds p (mk l m A) (mk m n B) (mk l n C) xs) tt <->
  forall x, In x xs -> forall i, (i < l)%nat -> (zdot (row_mul n (nth i A []) B) x - zdot (nth i C []) x) mod p = 0.
Proof.
  intros Hx. unfold freivalds. cbn [m_rows m_cols mk]. rewrite !Nat.eqb_refl. cbn [negb orb].
  destruct (Nat.eqb_spec (length xs) 0) as [E|_]; [destruct xs; [contradiction|discriminate]|].
  rewrite accepts_forM, Forall_forall. split; intros H x Hi; apply rep_acc; auto.
Qed.

Lemma entry_row_mul i j : (i < l)%nat -> (j < n)%nat ->
  nth j (row_mul n (nth i A []) B) 0 = zsum (map (fun k => entry A i k * entry B k j) (seq 0 m)).
Proof.
  intros Hi Hj. destruct HA as (LA & FA). destruct HB as (LB & FB).
  rewrite nth_row_mul; auto.
  - rewrite LB. reflexivity.
  - intros b Hb. apply FB; auto.
  - rewrite LB. apply FA. apply nth_In. lia.
Qed.

(** Completeness: the true product is accepted for all vectors. *)
Theorem freivalds_complete xs : is_product p l m n A B C -> xs <> [] ->
  (forall x, In x xs -> length x = n) ->
  accepts p T (freivalds p (mk l m A) (mk m n B) (mk l n C) xs) tt.
Proof.
  intros HP Hx Hl. pose proof (prime_ge_2 _ Hprime) as H2. apply freivalds_acc; auto. intros x Hin i Hi.
  destruct HC as (LC & FC). destruct HB as (LB & FB).
  assert (L1 : length (row_mul n (nth i A []) B) = n) by (apply row_mul_len; intros b Hb; apply FB; auto).
  assert (L2 : length (nth i C []) = n) by (apply FC, nth_In; lia).
  assert (E : map (fun z => z mod p) (row_mul n (nth i A []) B) = map (fun z => z mod p) (nth i C [])).
  { apply nth_ext with (d := 0 mod p) (d' := 0 mod p); [rewrite !map_length; lia|].
    intros j Hj. rewrite map_length, L1 in Hj. rewrite !(map_nth (fun z => z mod p)).
    rewrite entry_row_mul by auto. rewrite <- (HP i j Hi Hj). unfold entry.
    symmetry. apply Z.mod_small. apply (proj2 (FC _ (nth_In C [] (eq_ind_r (fun k => (i < k)%nat) Hi LC)))), nth_In. lia. }
  assert (G : forall a b x, map (fun z => z mod p) a = map (fun z => z mod p) b -> zdot a x mod p = zdot b x mod p).
  { clear. induction a as [|u a IH]; intros [|v b] [|y x] E; try discriminate; cbn; auto.
    cbn in E. injection E as E1 E2. rewrite Zplus_mod, (IH b x E2), Zmult_mod, E1, <- Zmult_mod, <- Zplus_mod. reflexivity. }
  rewrite Zminus_mod, (G _ _ x E), Z.sub_diag. apply Zmod_0_l.
Qed.

(** Soundness of one repetition: at most a 1/p fraction of the vectors pass. *)
Definition passes (x : list Z) : bool :=
  forallb (fun i => (zdot (row_mul n (nth i A []) B) x - zdot (nth i C []) x) mod p =? 0) (seq 0 l).

Lemma passes_iff x : passes x = true <-> accepts p T (freivalds_rep p (mk l m A) (mk m n B) (mk l n C) x) tt.
Proof.
  rewrite rep_acc. unfold passes. rewrite forallb_forall. split.
  - intros H i Hi. apply Z.eqb_eq, H, in_seq. lia.
  - intros H i Hi. apply in_seq in Hi. apply Z.eqb_eq, H. lia.
Qed.

Lemma passes_count : (exists i j, (i < l)%nat /\ (j < n)%nat /\
    entry C i j <> zsum (map (fun k => entry A i k * entry B k j) (seq 0 m)) mod p) ->
  Z.of_nat (length (filter passes (tuples (residues p) n))) * p <= p ^ Z.of_nat n.
Proof.
  intros (i & j & Hi & Hj & Hne). pose proof (prime_ge_2 _ Hprime) as H2.
  destruct HC as (LC & FC). destruct HB as (LB & FB).
  assert (L1 : length (row_mul n (nth i A []) B) = n) by (apply row_mul_len; intros b Hb; apply FB; auto).
  assert (IC : In (nth i C []) C) by (apply nth_In; lia).
  assert (L2 : length (nth i C []) = n) by (apply FC; auto).
  set (d := map (fun uv => fst uv - snd uv) (combine (row_mul n (nth i A []) B) (nth i C []))).
  assert (Ld : length d = n) by (unfold d; rewrite map_length, combine_length; lia).
  assert (Hd : nth j d 0 = nth j (row_mul n (nth i A []) B) 0 - nth j (nth i C []) 0).
  { unfold d. rewrite (nth_indep _ 0 ((fun uv => fst uv - snd uv) (0, 0))) by (rewrite map_length, combine_length; lia).
    rewrite (map_nth (fun uv => fst uv - snd uv)), combine_nth by lia. reflexivity. }
  assert (S : Z.of_nat (length (filter (sols d 0) (tuples (residues p) n))) * p <= p ^ Z.of_nat n).
  { rewrite <- Ld. apply sols_count. exists j. split; [lia|]. rewrite Hd, entry_row_mul by auto.
    intros E. apply Hne. unfold entry at 1. set (w := zsum _) in *.
    assert (R : 0 <= nth j (nth i C []) 0 < p) by (apply FC with (nth i C []); auto; apply nth_In; lia).
    rewrite <- (Z.mod_small _ _ R).
    assert (w = (w - nth j (nth i C []) 0) + nth j (nth i C []) 0) by ring. rewrite H.
    rewrite (Zplus_mod (w - _)), E, Z.add_0_l, Zmod_mod. reflexivity. }
  assert (Le : (length (filter passes (tuples (residues p) n)) <= length (filter (sols d 0) (tuples (residues p) n)))%nat).
  { assert (I : forall x, passes x = true -> sols d 0 x = true).
    { intros x Hx. unfold sols. apply Z.eqb_eq. rewrite Z.add_0_r. unfold d. rewrite <- zdot_sub by lia.
      unfold passes in Hx. rewrite forallb_forall in Hx. apply Z.eqb_eq, Hx, in_seq. lia. }
    clear - I. induction (tuples (residues p) n) as [|x L IHL]; cbn; auto.
    destruct (passes x) eqn:E1, (sols d 0 x) eqn:E2; cbn; try lia. rewrite (I x E1) in E2. discriminate. }
  nia.
Qed.

(** Several repetitions. *)
Lemma filter_forallb_count (f : list Z -> bool) (U : list (list Z)) k :
  length (filter (forallb f) (tuples U k)) = (length (filter f U) ^ k)%nat.
Proof.
  induction k as [|k IH]; [reflexivity|]. cbn [tuples]. rewrite filter_flat_map.
  assert (Q : forall L, length (flat_map (fun v => filter (forallb f) (map (fun a => a :: v) U)) L) =
      (length (filter f U) * length (filter (forallb f) L))%nat).
  { induction L as [|v L IHL]; cbn [flat_map filter length]; [lia|]. rewrite app_length, IHL.
    assert (E : length (filter (forallb f) (map (fun a => a :: v) U)) =
       if forallb f v then length (filter f U) else 0%nat).
    { clear. induction U as [|a U IHU]; cbn [map filter forallb]; [destruct (forallb f v); auto|].
      cbn [forallb]. destruct (f a), (forallb f v) eqn:E; cbn; lia. }
    rewrite E. destruct (forallb f v); cbn [length]; lia. }
  rewrite Q, IH. cbn. lia.
Qed.

Theorem freivalds_sound k : (0 < k)%nat -> ~ is_product p l m n A B C ->
  exists bad : list (list Z) -> bool,
    (forall xs, length xs = k -> (bad xs = true <-> accepts p T (freivalds p (mk l m A) (mk m n B) (mk l n C) xs) tt)) /\
    Z.of_nat (length (filter bad (tuples (tuples (residues p) n) k))) * p ^ Z.of_nat k <= (p ^ Z.of_nat n) ^ Z.of_nat k.
Proof.
  intros Hk Hne. pose proof (prime_ge_2 _ Hprime) as H2. exists (forallb passes). split.
  - intros xs Hl. rewrite freivalds_acc by (destruct xs; [cbn in Hl; lia|discriminate]).
    rewrite forallb_forall. split; intros H x Hx; specialize (H x Hx).
    + apply rep_acc, passes_iff. auto.
    + apply passes_iff, rep_acc. auto.
  - rewrite filter_forallb_count, Nat2Z.inj_pow, <- Z.pow_mul_l.
    apply Z.pow_le_mono_l. split; [apply Z.mul_nonneg_nonneg; lia|]. apply passes_count.
    (* find a wrong entry *)
    destruct (forallb (fun i => forallb (fun j => entry C i j =? zsum (map (fun k => entry A i k * entry B k j) (seq 0 m)) mod p)
        (seq 0 n)) (seq 0 l)) eqn:E.
    + exfalso. apply Hne. intros i j Hi Hj. rewrite forallb_forall in E.
      assert (Hi' : In i (seq 0 l)) by (apply in_seq; lia). specialize (E i Hi'). rewrite forallb_forall in E.
      apply Z.eqb_eq, E, in_seq. lia.
    + assert (X : forall (f : nat -> bool) L, forallb f L = false -> exists x, In x L /\ f x = false).
      { clear. induction L as [|x L IH]; cbn; [discriminate|]. intros H. destruct (f x) eqn:E; [|eauto].
        cbn in H. destruct (IH H) as (y & Hy & E'). eauto. }
      apply X in E as (i & Hi & E). apply X in E as (j & Hj & E). apply in_seq in Hi, Hj. apply Z.eqb_neq in E.
      exists i, j. repeat split; auto; lia.
Qed.
End Count.

(** The fully constrained product. *)
Lemma matmul_spec p l m n A B T M : 0 < p -> is_matrix p l m A -> is_matrix p m n B ->
  accepts p T (matrix_multiplication p (mk l m A) (mk m n B)) M <->
  exists C, M = mk l n C /\ is_matrix p l n C /\ is_product p l m n A B C.
Proof.
  intros Hp (LA & FA) (LB & FB). unfold matrix_multiplication. cbn [m_rows m_cols m_data mk].
  rewrite Nat.eqb_refl. cbn [negb]. rewrite accepts_ret.
  set (D := map (fun row => map (fun j => dot p row (column B j)) (seq 0 n)) A).
  assert (ED : forall i j, (i < l)%nat -> (j < n)%nat ->
     entry D i j = zsum (map (fun k => entry A i k * entry B k j) (seq 0 m)) mod p).
  { intros i j Hi Hj. unfold entry at 1, D.
    rewrite (nth_indep _ [] ((fun row => map (fun j => dot p row (column B j)) (seq 0 n)) [])) by (rewrite map_length; lia).
    rewrite (map_nth (fun row => map (fun j => dot p row (column B j)) (seq 0 n))).
    rewrite (nth_indep _ 0 (dot p (nth i A []) (column B 0%nat))) by (rewrite map_length, seq_length; lia).
    rewrite (map_nth (fun j => dot p (nth i A []) (column B j))), seq_nth by lia. cbn [Nat.add].
    rewrite dot_zdot. f_equal.
    assert (LR : length (nth i A []) = m) by (apply FA, nth_In; lia).
    unfold entry. clear - LR LB. unfold column.
    revert m LR LB. revert B. induction (nth i A []) as [|a r IH]; intros [|b B] m LR LB; cbn in LR, LB; subst; try discriminate; auto.
    cbn [zdot map seq zsum fold_right nth]. f_equal. rewrite (IH B (length r)) by (cbn in LB; congruence).
    unfold zsum. f_equal. rewrite <- seq_shift, map_map. reflexivity. }
  assert (MD : is_matrix p l n D).
  { split; [unfold D; rewrite map_length; auto|]. intros row Hr. unfold D in Hr. apply in_map_iff in Hr as (r & <- & _).
    split; [rewrite map_length, seq_length; auto|]. intros v Hv. apply in_map_iff in Hv as (j & <- & _).
    rewrite dot_zdot. apply Z.mod_pos_bound; auto. }
  split.
  - intros <-. exists D. auto.
  - intros (C & -> & (LC & FC) & HPr). unfold mk. f_equal. destruct MD as (LD & FD).
    apply nth_ext with (d := []) (d' := []); [lia|]. intros i Hi. rewrite LD in Hi.
    assert (L1 : length (nth i D []) = n) by (apply FD, nth_In; lia).
    assert (L2 : length (nth i C []) = n) by (apply FC, nth_In; lia).
    apply nth_ext with (d := 0) (d' := 0); [lia|]. intros j Hj. rewrite L1 in Hj.
    pose proof (ED i j Hi Hj) as E1. pose proof (HPr i j Hi Hj) as E2. unfold entry at 1 in E1. unfold entry at 1 in E2. congruence.
Qed.

Theorem freivalds_shapes p T A B C xs :
  accepts p T (freivalds p A B C xs) tt ->
  m_cols A = m_rows B /\ m_rows A = m_rows C /\ m_cols B = m_cols C /\ xs <> [].
Proof.
  unfold freivalds.
  destruct (Nat.eqb_spec (m_cols A) (m_rows B)) as [E1|]; cbn [negb]; [|now cbn].
  destruct (Nat.eqb_spec (m_rows A) (m_rows C)) as [E2|]; cbn [negb orb]; [|now cbn].
  destruct (Nat.eqb_spec (m_cols B) (m_cols C)) as [E3|]; cbn [negb orb]; [|now cbn].
  destruct (Nat.eqb_spec (length xs) 0) as [E4|N4]; [now cbn|].
  intros _. repeat split; auto. intros ->. now apply N4.
Qed.

Theorem matmul_shapes p T A B M :
  accepts p T (matrix_multiplication p A B) M -> m_cols A = m_rows B.
Proof.
  unfold matrix_multiplication. destruct (Nat.eqb_spec (m_cols A) (m_rows B)); cbn [negb]; [auto|now cbn].
Qed.
