(** Flattening a layered circuit keeps its function *)
From Coq Require Import List Bool Arith NArith Lia Permutation Field.
From Verif Require Import Base.Array Base.Field Model.Layered Proofs.Layered.
From Verif.Model Require Witness.
Import ListNotations.
Local Open Scope list_scope.

(** ** Lists *)
Lemma flat_map_app' {A B} (f : A -> list B) l m : flat_map f (l ++ m) = flat_map f l ++ flat_map f m.
Proof. induction l; cbn; auto. now rewrite IHl, app_assoc. Qed.
Lemma perm_flat_map_app {A B} (f g : A -> list B) l : Permutation (flat_map (fun a => f a ++ g a) l) (flat_map f l ++ flat_map g l).
Proof.
  induction l as [|a l IH]; cbn; auto. rewrite IH, <- !app_assoc. apply Permutation_app_head.
  rewrite !app_assoc. apply Permutation_app_tail, Permutation_app_comm.
Qed.
Lemma perm_flat_map_swap {A B C} (f : A -> B -> list C) la lb :
  Permutation (flat_map (fun a => flat_map (f a) lb) la) (flat_map (fun b => flat_map (fun a => f a b) la) lb).
Proof.
  induction la as [|a la IH]; cbn.
  - induction lb; cbn; auto.
  - rewrite IH. symmetry. apply (perm_flat_map_app (f a) (fun b => flat_map (fun a => f a b) la)).
Qed.
Lemma perm_flat_map_ext {A B} (f g : A -> list B) l : (forall a, In a l -> Permutation (f a) (g a)) -> Permutation (flat_map f l) (flat_map g l).
Proof. induction l; cbn; intros H; auto. rewrite H by now left. rewrite IHl; auto. Qed.
Lemma perm_flat_map {A B} (f : A -> list B) l m : Permutation l m -> Permutation (flat_map f l) (flat_map f m).
Proof.
  induction 1; cbn; auto.
  - now apply Permutation_app_head.
  - rewrite !app_assoc. apply Permutation_app_tail, Permutation_app_comm.
  - etransitivity; eassumption.
Qed.
Lemma flat_map_map {A B C} (f : B -> list C) (g : A -> B) l : flat_map f (map g l) = flat_map (fun a => f (g a)) l.
Proof. induction l; cbn; congruence. Qed.
Lemma map_flat_map' {A B C} (f : B -> C) (g : A -> list B) l : map f (flat_map g l) = flat_map (fun a => map f (g a)) l.
Proof. induction l; cbn; auto. now rewrite map_app, IHl. Qed.
Lemma flat_map_flat_map {A B C} (f : B -> list C) (g : A -> list B) l : flat_map f (flat_map g l) = flat_map (fun a => flat_map f (g a)) l.
Proof. induction l; cbn; auto. now rewrite flat_map_app', IHl. Qed.
Lemma flat_map_ext' {A B} (f g : A -> list B) l : (forall a, In a l -> f a = g a) -> flat_map f l = flat_map g l.
Proof. induction l; cbn; intros H; auto. rewrite H by now left. rewrite IHl; auto. Qed.

Lemma skipn_skipn1 {T} (l : list T) i : skipn 1 (skipn i l) = skipn (1 + i) l.
Proof. revert l. induction i as [|i IH]; intros [|x l]; try reflexivity. exact (IH l). Qed.

Notation place := (nat * (nat * nat))%type.
Definition shift (a : nat * nat) (p : place) : place := (fst p, (fst a + fst (snd p), snd a + snd (snd p))).
Lemma shift_shift a b p : shift a (shift b p) = shift (fst a + fst b, snd a + snd b) p.
Proof. destruct a, b, p as (id & i & o). unfold shift. cbn. now rewrite !Nat.add_assoc. Qed.
Lemma shift_0 p : shift (0, 0) p = p.
Proof. now destruct p as (id & i & o). Qed.

(** All uses of segments below a segment, with the offsets of their inputs and outputs *)
Section Places.
Variable children : nat -> list (nat * list (nat * nat)).
Fixpoint places (fuel id : nat) : list place :=
  match fuel with
  | O => []
  | S fuel => (id, (0, 0)) :: flat_map (fun c => flat_map (fun a => map (shift a) (places fuel (fst c))) (snd c)) (children id)
  end.
End Places.

(** ** Leaves of the flattened circuit *)
Definition expand (lv : leaves) : list place := flat_map (fun leaf => map (pair (fst leaf)) (snd leaf)) lv.
Lemma expand_push m id als : Permutation (expand (push_entry m id als)) (expand m ++ map (pair id) als).
Proof.
  unfold expand. induction m as [|(k, l) m IH]; cbn; [now rewrite app_nil_r|].
  destruct (Nat.eqb_spec k id) as [ -> |N]; cbn.
  - rewrite map_app, <- !app_assoc. apply Permutation_app_head, Permutation_app_comm.
  - rewrite IH, app_assoc. reflexivity.
Qed.
Lemma expand_fold (f : nat * list (nat * nat) -> list (nat * nat)) lv : forall ret,
  Permutation (expand (fold_left (fun ret leaf => push_entry ret (fst leaf) (f leaf)) lv ret))
    (expand ret ++ flat_map (fun leaf => map (pair (fst leaf)) (f leaf)) lv).
Proof.
  induction lv as [|leaf lv IH]; intros ret; cbn; [now rewrite app_nil_r|]. rewrite IH, expand_push, <- app_assoc. reflexivity.
Qed.
Lemma move_leaves cas lv :
  Permutation (flat_map (fun leaf : nat * list (nat * nat) => map (pair (fst leaf))
      (flat_map (fun ca => map (fun la => (fst ca + fst la, snd ca + snd la)) (snd leaf)) cas)) lv)
    (flat_map (fun a => map (shift a) (expand lv)) cas).
Proof.
  rewrite (flat_map_ext' _ (fun leaf => flat_map (fun ca => map (fun la => (fst leaf, (fst ca + fst la, snd ca + snd la))) (snd leaf)) cas)).
  2:{ intros leaf _. rewrite map_flat_map'. apply flat_map_ext'. intros ca _. now rewrite map_map. }
  rewrite (perm_flat_map_swap (fun (leaf : nat * list (nat * nat)) ca => map (fun la => (fst leaf, (fst ca + fst la, snd ca + snd la))) (snd leaf)) lv cas).
  rewrite (flat_map_ext' _ (fun a => map (shift a) (expand lv))); auto.
  intros a _. unfold expand. rewrite map_flat_map'. apply flat_map_ext'. intros leaf _. rewrite map_map. reflexivity.
Qed.

Section Scan.
Variable K : field.
Variable order : list nat -> leaves -> leaves.
Hypothesis order_perm : forall site l, Permutation (order site l) l.
Definition pchildren (segs : list (psegment K)) (id : nat) : list (nat * list (nat * nat)) :=
  match nth_error segs id with Some s => ps_children K s | None => [] end.
Definition has_gates (segs : list (psegment K)) (p : place) : bool :=
  match nth_error segs (fst p) with Some s => contain_gates K s | None => false end.
Lemma has_gates_shift segs a p : has_gates segs (shift a p) = has_gates segs p.
Proof. reflexivity. Qed.
Lemma filter_map_shift segs a l : filter (has_gates segs) (map (shift a) l) = map (shift a) (filter (has_gates segs) l).
Proof. induction l as [|p l IH]; cbn; auto. rewrite has_gates_shift, IH. now destruct (has_gates segs p). Qed.
Lemma filter_flat_map {A B} (f : B -> bool) (g : A -> list B) l : filter f (flat_map g l) = flat_map (fun a => filter f (g a)) l.
Proof. induction l; cbn; auto. now rewrite filter_app, IHl. Qed.
Definition bounded {V} (n : nat) (lv : list (nat * V)) : Prop := forall leaf, In leaf lv -> fst leaf < n.
Lemma bounded_push n m id als : bounded n m -> id < n -> bounded n (push_entry m id als).
Proof.
  intros H Hid. induction m as [|(k, l) m IH]; cbn.
  - intros leaf [ <- |[]]. exact Hid.
  - assert (Hk : k < n) by (apply (H (k, l)); now left). destruct (k =? id); intros leaf [ <- |I]; cbn; auto.
    + apply H. now right.
    + apply IH; auto. intros x Ix. apply H. now right.
Qed.
Lemma bounded_fold n f lv : bounded n lv -> forall ret, bounded n ret ->
  bounded n (fold_left (fun ret (leaf : nat * list (nat * nat)) => push_entry ret (fst leaf) (f leaf)) lv ret).
Proof.
  induction lv as [|leaf lv IH]; intros H ret HR; cbn; auto. apply IH; [intros x I; apply H; now right|].
  apply bounded_push; auto. apply H. now left.
Qed.
Lemma scan_places segs : (forall i s ch, nth_error segs i = Some s -> In ch (ps_children K s) -> fst ch < i) ->
  forall fuel i s site, i < fuel -> nth_error segs i = Some s ->
  exists lv, scan_leaf_segments K order fuel segs site s i = Some lv /\
    bounded (length segs) lv /\
    Permutation (expand lv) (filter (has_gates segs) (places (pchildren segs) fuel i)).
Proof.
  intros HS. induction fuel as [|fuel IH]; intros i s site Hi Es; [lia|]. cbn [scan_leaf_segments places].
  set (ret0 := if contain_gates K s then [(i, [(0, 0)])] else []).
  assert (Hil : i < length segs) by (apply nth_error_Some; congruence).
  destruct (for_each_rule (fun done ret => bounded (length segs) ret /\ Permutation (expand ret)
      (expand ret0 ++ filter (has_gates segs) (flat_map (fun c => flat_map (fun a => map (shift a) (places (pchildren segs) fuel (fst c))) (snd c)) (map snd done))))
    (fun (e : nat * (nat * list (nat * nat))) ret =>
      let (n, ch) := e in
      let (child_id, child_allocs) := ch in
      let* child := aget segs child_id in
      let* lv := scan_leaf_segments K order fuel segs (n :: site) child child_id in
      Some (fold_left (fun ret (leaf : nat * list (nat * nat)) =>
          push_entry ret (fst leaf)
            (flat_map (fun ca => map (fun la => (fst ca + fst la, snd ca + snd la)) (snd leaf)) child_allocs))
        (order (n :: site) lv) ret)) (combine (seq 0 (length (ps_children K s))) (ps_children K s)) ret0) as (lv & E & BD & P).
  - cbn. rewrite app_nil_r. split; auto. subst ret0. destruct (contain_gates K s); intros leaf I; [|destruct I]. destruct I as [ <- |[]]. exact Hil.
  - intros done (n & cid & cas) rest ret El (HB & HP).
    assert (Ic : In (cid, cas) (ps_children K s)).
    { apply (in_combine_r (seq 0 (length (ps_children K s))) _ n). rewrite El, in_app_iff. right. now left. }
    pose proof (HS _ _ _ Es Ic) as Hc. cbn [fst] in Hc.
    assert (exists child, nth_error segs cid = Some child) as (child & Ech).
    { destruct (nth_error segs cid) eqn:E; eauto. apply nth_error_None in E.
      assert (i < length segs) by (apply nth_error_Some; congruence). lia. }
    unfold aget. rewrite Ech. cbn [obind]. destruct (IH cid child (n :: site)) as (lv & -> & HBL & HL); [lia|auto|]. cbn [obind].
    eexists. split; [reflexivity|]. split.
    { apply (bounded_fold _ (fun leaf => flat_map (fun ca => map (fun la => (fst ca + fst la, snd ca + snd la)) (snd leaf)) cas)); auto.
      intros x I. apply HBL. exact (Permutation_in _ (order_perm _ _) I). }
    rewrite expand_fold, HP, <- app_assoc. apply Permutation_app_head.
    rewrite map_app, flat_map_app', filter_app. apply Permutation_app_head. cbn [map flat_map snd fst]. rewrite app_nil_r.
    rewrite (perm_flat_map _ _ _ (order_perm _ lv)), move_leaves, filter_flat_map. apply perm_flat_map_ext. intros a _.
    rewrite HL, filter_map_shift. reflexivity.
  - exists lv. split; auto. split; auto. rewrite P. clear E P BD lv.
    replace (map snd (combine (seq 0 (length (ps_children K s))) (ps_children K s))) with (ps_children K s).
    2:{ generalize 0. induction (ps_children K s); intros n; cbn; auto. f_equal. auto. }
    cbn [filter]. replace (pchildren segs i) with (ps_children K s) by (unfold pchildren; now rewrite Es).
    replace (has_gates segs (i, (0, 0))) with (contain_gates K s) by (unfold has_gates; cbn [fst]; now rewrite Es). subst ret0.
    destruct (contain_gates K s); cbn; auto.
Qed.
End Scan.

(** ** Loops that add to an output vector *)
Section Adders.
Variable K : field.
Add Field Kf : (fth K).
Definition adder (len : nat) (F : list K -> option (list K)) (w : nat -> K) : Prop :=
  forall nxt, length nxt = len -> exists r, F nxt = Some r /\ arr r len (fun k => nth k nxt f0 + w k)%K.
Lemma adder_ext len F G w v : adder len F w -> (forall n, length n = len -> F n = G n) -> (forall k, k < len -> w k = v k) -> adder len G v.
Proof.
  intros H E W nxt L. destruct (H nxt L) as (r & Er & A). exists r. rewrite <- E by auto. split; auto.
  eapply arr_ext; [exact A|]. intros k Hk. cbn beta. now rewrite W.
Qed.
Lemma adder_bump len o v : o < len -> adder len (fun n => bump K n o v) (fun k => if k =? o then v else f0)%K.
Proof.
  intros H nxt L. unfold bump, aget. rewrite (nth_error_nth' nxt f0) by lia. cbn [obind].
  pose proof (arr_self nxt f0) as A. rewrite L in A. destruct (arr_set nxt len _ o (nth o nxt f0 + v)%K A H) as (r & -> & Ar).
  exists r. split; auto. eapply arr_ext; [exact Ar|]. intros k Hk. cbn beta. destruct (Nat.eqb_spec k o) as [ -> |N]; [reflexivity|ring].
Qed.
Lemma adder_bind len F G w v : adder len F w -> adder len G v -> adder len (fun n => obind (F n) G) (fun k => w k + v k)%K.
Proof.
  intros HF HG nxt L. destruct (HF nxt L) as (r & -> & A). cbn [obind]. destruct (HG r) as (q & -> & B); [apply A|].
  exists q. split; auto. eapply arr_ext; [exact B|]. intros k Hk. cbn beta. rewrite (nth_error_nth _ _ f0 (proj2 A k Hk)). ring.
Qed.
Lemma adder_for_each {X} len (F : X -> list K -> option (list K)) w xs :
  (forall x, In x xs -> adder len (F x) (w x)) -> adder len (for_each xs F) (fun k => fsum (map (fun x => w x k) xs)).
Proof.
  induction xs as [|x xs IH]; intros H.
  - intros nxt L. exists nxt. split; auto. pose proof (arr_self nxt f0) as A. rewrite L in A. eapply arr_ext; [exact A|].
    intros k Hk. cbn. ring.
  - cbn [for_each map fsum]. apply (adder_bind len (F x) (for_each xs F) (w x)); [apply H; now left|]. apply IH. intros y I. apply H. now right.
Qed.
(** a loop over a part of the vector *)
Lemma adder_slice len a n F w : a + n <= len -> adder n F w ->
  adder len (fun nxt => let* out := slice nxt a (a + n) in let* out := F out in Some (splice nxt a out))
    (fun k => if (a <=? k) && (k <? a + n) then w (k - a) else f0).
Proof.
  intros H HF nxt L. rewrite slice_ok by lia. cbn [obind].
  destruct (HF (firstn (a + n - a) (skipn a nxt))) as (r & -> & A); [rewrite firstn_length, skipn_length; lia|].
  cbn [obind]. eexists. split; [reflexivity|]. pose proof (proj1 A) as Lr. pose proof (arr_self (splice nxt a r) f0) as S.
  rewrite splice_length, L in S by lia. eapply arr_ext; [exact S|]. intros k Hk. cbn beta. rewrite nth_splice by lia. rewrite Lr.
  destruct (Nat.leb_spec a k), (Nat.ltb_spec k (a + n)); cbn [andb]; try ring.
  rewrite (nth_error_nth _ _ f0 (proj2 A (k - a) ltac:(lia))). rewrite nth_slice by lia. replace (a + (k - a)) with k by lia. reflexivity.
Qed.
Lemma adder_eval len F w : adder len F w -> F (repeat f0 len) = Some (map w (seq 0 len)).
Proof.
  intros H. destruct (H (repeat f0 len)) as (r & E & A); [apply repeat_length|]. rewrite E. f_equal. apply arr_list.
  eapply arr_ext; [exact A|]. intros k Hk. cbn beta. rewrite (nth_error_nth (repeat f0 len) k f0 (x:=f0)); [ring|]. apply nth_error_repeat. auto.
Qed.
Lemma fsum_flat_map {A B} (f : B -> K) (g : A -> list B) l : fsum (map f (flat_map g l)) = fsum (map (fun a => fsum (map f (g a))) l).
Proof. induction l; cbn; auto. rewrite map_app, fsum_app, IHl. reflexivity. Qed.
End Adders.

Section Flat.
Variable K : field.
Add Field Kf2 : (fth K).
Local Notation seg := (segment K).
Variables (rnd : K) (custom : nat -> list K -> option (list K)).
Variable order : list nat -> leaves -> leaves.
Hypothesis order_perm : forall site l, Permutation (order site l) l.

(** The function of a gate of the prover with one input *)
Definition uni (t : nat) (x : K) : option K :=
  if (N.of_nat t =? 12345)%N then let x2 := (x * x)%K in let x4 := (x2 * x2)%K in Some (x4 * x)%K
  else if (N.of_nat t =? 12346)%N then Some x else None.
Definition constant (k : coef K) : Prop := exists c, k = Constant c.
Definition known (n : nat) (k : coef K) : Prop := (exists c, k = Constant c) \/ exists id, k = PublicInput id /\ id < n.
(** Circuits of one input per segment, with custom gates of one input *)
Definition single (s : seg) : Prop := length (s_inputs s) = 1 /\ forall u, In u (s_customs s) -> exists p, u_in u = [p].
(** What flattening supports *)
Definition plain (n : nat) (s : seg) : Prop :=
  length (s_inputs s) = 1 /\
  (forall m, In m (s_muls s) -> constant (m_coef m)) /\ (forall a, In a (s_adds s) -> constant (a_coef a)) /\
  (forall k, In k (s_consts s) -> known n (k_coef k)) /\
  (forall u, In u (s_customs s) -> constant (u_coef u) /\ exists p, u_in u = [p] /\ forall x, exists y, uni (u_type u) x = Some y /\ custom (u_type u) [x] = Some [y]).

Lemma plain_single n s : plain n s -> single s.
Proof. intros (A & _ & _ & _ & B). split; auto. intros u I. destruct (B u I) as (_ & p & E & _). eauto. Qed.
Variable pub : list K.
Definition cval (k : coef K) : K := match k with Constant c => c | Random => rnd | PublicInput id => nth id pub f0 end.
Definition uval (t : nat) (x : K) : K := match uni t x with Some y => y | None => f0 end.
Definition at_ (o k : nat) (v : K) : K := if k =? o then v else f0.
Definition src (u : gate_custom K) : nat := snd (nth 0 (u_in u) (0, 0)).
(** What the gates of one segment add to output [k] when its inputs start at [io] and its outputs at [oo] *)
Definition own (s : seg) (row : list K) (io oo k : nat) : K :=
  (fsum (map (fun m => at_ (oo + m_out m) k (nth (io + snd (m_in0 m)) row f0 * nth (io + snd (m_in1 m)) row f0 * cval (m_coef m)))%K (s_muls s)) +
  (fsum (map (fun a => at_ (oo + a_out a) k (nth (io + snd (a_in a)) row f0 * cval (a_coef a)))%K (s_adds s)) +
  (fsum (map (fun g => at_ (oo + k_out g) k (cval (k_coef g))) (s_consts s)) +
   fsum (map (fun u => at_ (oo + u_out u) k (uval (u_type u) (nth (io + src u) row f0) * cval (u_coef u)))%K (s_customs s)))))%K.
Definition own_at (segs : list seg) (row : list K) (k : nat) (p : place) : K :=
  match nth_error segs (fst p) with Some s => own s row (fst (snd p)) (snd (snd p)) k | None => f0 end.
Definition schildren (segs : list seg) (id : nat) : list (nat * list (nat * nat)) :=
  match nth_error segs id with
  | Some s => map (fun ch => (fst ch, map (fun a => (nth 0 (al_in a) 0, al_out a)) (snd ch))) (s_children s)
  | None => [] end.

Section Segs.
Variable segs : list seg.
Hypothesis HS : forall i s, nth_error segs i = Some s -> seg_ok K segs i s.
Hypothesis HQ : forall s, In s segs -> single s.
Hypothesis HP : forall s, In s segs -> plain (length pub) s.
Lemma single_at i s : nth_error segs i = Some s -> single s.
Proof. intros E. apply HQ. eapply nth_error_In. eassumption. Qed.
Lemma plain_at i s : nth_error segs i = Some s -> plain (length pub) s.
Proof. intros E. apply HP. eapply nth_error_In. eassumption. Qed.
Lemma one_input s : single s -> exists n, s_inputs s = [n].
Proof. intros (H & _). destruct (s_inputs s) as [|n [|? ?]]; try discriminate. eauto. Qed.

Lemma places_fit : forall fuel i s p, nth_error segs i = Some s -> In p (places (schildren segs) fuel i) ->
  exists s', nth_error segs (fst p) = Some s' /\ fst (snd p) + nth 0 (s_inputs s') 0 <= nth 0 (s_inputs s) 0 /\ snd (snd p) + s_outputs s' <= s_outputs s.
Proof.
  induction fuel as [|fuel IH]; intros i s p Es I; [destruct I|]. cbn [places] in I. destruct I as [ <- |I]; [exists s; cbn; auto|].
  apply in_flat_map in I as (c & Ic & I). apply in_flat_map in I as (a & Ia & I). apply in_map_iff in I as (q & <- & Iq).
  unfold schildren in Ic. rewrite Es in Ic. apply in_map_iff in Ic as (ch & <- & Ich). cbn [fst snd] in *.
  apply in_map_iff in Ia as (al & <- & Ial).
  destruct (HS i s Es) as (_ & _ & _ & _ & _ & _ & _ & HCh). destruct (HCh ch Ich) as (_ & sub & Esub & _ & HAl).
  destruct (HAl al Ial) as (LA & HA & HO). destruct (IH _ _ _ Esub Iq) as (s' & E' & B1 & B2). exists s'. split; auto. cbn [shift fst snd].
  destruct (one_input s (single_at _ _ Es)) as (n & En). destruct (one_input sub (single_at _ _ Esub)) as (n' & En').
  rewrite En, En' in *. destruct (al_in al) as [|x [|? ?]]; try discriminate. cbn [nth] in *.
  specialize (HA 0 x n' n eq_refl eq_refl eq_refl). lia.
Qed.
Lemma at_0 o k v : k <> o -> at_ o k v = f0.
Proof. unfold at_. destruct (Nat.eqb_spec k o); [tauto|auto]. Qed.
Lemma own_range i s row io oo k : nth_error segs i = Some s -> k < oo \/ oo + s_outputs s <= k -> own s row io oo k = f0.
Proof.
  intros Es Hk. destruct (HS i s Es) as (_ & _ & _ & HM & HA & HC & HU & _). unfold own.
  rewrite !fsum_map_0; [ring| | | |].
  - intros u I. apply at_0. destruct (HU u I). lia.
  - intros u I. apply at_0. pose proof (HC u I). lia.
  - intros u I. apply at_0. destruct (HA u I) as (_ & ?). lia.
  - intros u I. apply at_0. destruct (HM u I) as (_ & _ & ?). lia.
Qed.
Lemma sum_range fuel i s row io oo k : nth_error segs i = Some s -> k < oo \/ oo + s_outputs s <= k ->
  fsum (map (fun p => own_at segs row k (shift (io, oo) p)) (places (schildren segs) fuel i)) = f0.
Proof.
  intros Es Hk. apply fsum_map_0. intros p I. destruct (places_fit _ _ _ _ Es I) as (s' & E' & B1 & B2).
  unfold own_at. cbn [shift fst snd]. rewrite E'. apply (own_range _ _ _ _ _ _ E'). lia.
Qed.

Lemma at_rel oo o k v : at_ (oo + o) (oo + k) v = at_ o k v.
Proof. unfold at_. destruct (Nat.eqb_spec k o), (Nat.eqb_spec (oo + k) (oo + o)); auto; lia. Qed.
Lemma own_rel s row io oo k : own s row io oo (oo + k) =
  (fsum (map (fun m => at_ (m_out m) k (nth (io + snd (m_in0 m)) row f0 * nth (io + snd (m_in1 m)) row f0 * cval (m_coef m)))%K (s_muls s)) +
  (fsum (map (fun a => at_ (a_out a) k (nth (io + snd (a_in a)) row f0 * cval (a_coef a)))%K (s_adds s)) +
  (fsum (map (fun g => at_ (k_out g) k (cval (k_coef g))) (s_consts s)) +
   fsum (map (fun u => at_ (u_out u) k (uval (u_type u) (nth (io + src u) row f0) * cval (u_coef u)))%K (s_customs s)))))%K.
Proof. unfold own. f_equal; [|f_equal; [|f_equal]]; apply fsum_ext; intros; apply at_rel. Qed.

Lemma coef_known k : known (length pub) k -> coef_value K rnd pub k = Some (cval k).
Proof.
  intros [(c & ->)|(id & -> & H)]; cbn; auto. unfold aget. now apply nth_error_nth'.
Qed.
Lemma constant_known k : constant k -> known (length pub) k. Proof. now left. Qed.
Lemma input_row (s : seg) (row : list K) io n p : s_inputs s = [n] -> io + n <= length row -> pos_ok K s p ->
  input_at [firstn n (skipn io row)] p = Some (nth (io + snd p) row f0).
Proof.
  intros En Hl (m & Em & Hm). rewrite En in Em. unfold input_at, aget. destruct (fst p) as [|[|?]]; try discriminate. cbn in Em. injection Em as <-.
  cbn [nth_error obind]. rewrite (nth_error_nth' _ f0) by (rewrite firstn_length, skipn_length; lia). now rewrite nth_slice.
Qed.
Lemma skipn_firstn_slice {T} (l : list T) a b n m : a + m <= n ->
  firstn m (skipn a (firstn n (skipn b l))) = firstn m (skipn (b + a) l).
Proof.
  intros H. rewrite skipn_firstn_comm, firstn_firstn, Nat.min_l by lia. f_equal.
  revert l. induction b as [|b IH]; intros l; cbn; auto. destruct l; cbn; auto. now rewrite skipn_nil.
Qed.

Lemma apply_adder row : forall fuel i s n io oo, i < fuel -> nth_error segs i = Some s -> s_inputs s = [n] -> io + n <= length row ->
  adder K (s_outputs s) (apply_segment K rnd custom fuel segs pub s [firstn n (skipn io row)])
    (fun k => fsum (map (fun p => own_at segs row (oo + k) (shift (io, oo) p)) (places (schildren segs) fuel i))).
Proof.
  induction fuel as [|fuel IH]; intros i s n io oo Hi Es En Hl; [lia|].
  destruct (HS i s Es) as (_ & _ & _ & HM & HA & HC & HU & HCh). destruct (plain_at i s Es) as (_ & PM & PA & PC & PU).
  cbn [apply_segment]. set (row' := firstn n (skipn io row)).
  eapply adder_ext.
  - apply (adder_bind K _ (fun nxt => for_each (s_muls s) (fun m nxt => let* x := input_at [row'] (m_in0 m) in let* y := input_at [row'] (m_in1 m) in let* k := coef_value K rnd pub (m_coef m) in
        bump K nxt (m_out m) (x * y * k)%K) nxt)).
    { apply (adder_for_each K _ _ (fun m k => at_ (m_out m) k (nth (io + snd (m_in0 m)) row f0 * nth (io + snd (m_in1 m)) row f0 * cval (m_coef m))%K)).
      intros m I. destruct (HM m I) as (P0 & P1 & O). eapply adder_ext; [eapply (adder_bump K _ (m_out m) _ O)| |reflexivity].
      intros nx _. unfold row'. rewrite !(input_row s row io n) by auto. cbn [obind]. rewrite coef_known by (apply constant_known; auto). reflexivity. }
    apply (adder_bind K _ (fun nxt => for_each (s_adds s) (fun a nxt => let* x := input_at [row'] (a_in a) in let* k := coef_value K rnd pub (a_coef a) in bump K nxt (a_out a) (x * k)%K) nxt)).
    { apply (adder_for_each K _ _ (fun a k => at_ (a_out a) k (nth (io + snd (a_in a)) row f0 * cval (a_coef a))%K)).
      intros a I. destruct (HA a I) as (P0 & O). eapply adder_ext; [eapply (adder_bump K _ (a_out a) _ O)| |reflexivity].
      intros nx _. unfold row'. rewrite !(input_row s row io n) by auto. cbn [obind]. rewrite coef_known by (apply constant_known; auto). reflexivity. }
    apply (adder_bind K _ (fun nxt => for_each (s_consts s) (fun g nxt => let* k := coef_value K rnd pub (k_coef g) in bump K nxt (k_out g) k) nxt)).
    { apply (adder_for_each K _ _ (fun g k => at_ (k_out g) k (cval (k_coef g)))).
      intros g I. eapply adder_ext; [eapply (adder_bump K _ (k_out g) _ (HC g I))| |reflexivity].
      intros nx _. rewrite coef_known by auto. reflexivity. }
    apply (adder_bind K _ (fun nxt => for_each (s_customs s) (fun u nxt =>
        let* ins := omap (input_at [row']) (u_in u) in
        let* outs := custom (u_type u) ins in
        for_each (combine (seq 0 (length outs)) outs) (fun (e : nat * K) nxt =>
          let* k := coef_value K rnd pub (u_coef u) in bump K nxt (u_out u + fst e) (snd e * k)%K) nxt) nxt)).
    { apply (adder_for_each K _ _ (fun u k => at_ (u_out u) k (uval (u_type u) (nth (io + src u) row f0) * cval (u_coef u))%K)).
      intros u I. destruct (HU u I) as (P0 & O). destruct (PU u I) as (CU & p & Ep & HX).
      eapply adder_ext; [eapply (adder_bump K _ (u_out u) _ O)| |reflexivity].
      intros nx _. unfold src. rewrite Ep. cbn [omap nth]. unfold row'. rewrite !(input_row s row io n) by (auto; apply P0; rewrite Ep; now left). cbn [obind].
      destruct (HX (nth (io + snd p) row f0)) as (y & Ey & ->). cbn [obind length seq combine for_each fst snd].
      rewrite coef_known by (apply constant_known; auto). cbn [obind]. unfold uval. rewrite Ey, Nat.add_0_r. now destruct (bump K nx (u_out u) _). }
    apply (adder_for_each K _ (fun (ch : nat * list allocation) nxt =>
      let* sub := aget segs (fst ch) in
      for_each (snd ch) (fun a nxt =>
        let* ins := child_inputs K a sub [row'] in
        let* out := slice nxt (al_out a) (al_out a + s_outputs sub) in
        let* out := apply_segment K rnd custom fuel segs pub sub ins out in
        Some (splice nxt (al_out a) out)) nxt)
      (fun ch k => fsum (map (fun a => fsum (map (fun p => own_at segs row (oo + k) (shift (io, oo) (shift (nth 0 (al_in a) 0, al_out a) p))) (places (schildren segs) fuel (fst ch)))) (snd ch)))).
    intros ch I. destruct (HCh ch I) as (LT & sub & Esub & LS & HAl).
    eapply adder_ext with (F := for_each (snd ch) (fun a nxt =>
        let* ins := child_inputs K a sub [row'] in
        let* out := slice nxt (al_out a) (al_out a + s_outputs sub) in
        let* out := apply_segment K rnd custom fuel segs pub sub ins out in
        Some (splice nxt (al_out a) out))); [|intros nx _; unfold aget; now rewrite Esub|reflexivity].
    apply (adder_for_each K _ _ (fun a k => fsum (map (fun p => own_at segs row (oo + k) (shift (io, oo) (shift (nth 0 (al_in a) 0, al_out a) p))) (places (schildren segs) fuel (fst ch))))).
    intros a Ia. destruct (HAl a Ia) as (LA & HAi & HO). destruct (one_input sub (single_at _ _ Esub)) as (n' & En').
    rewrite En' in LA. destruct (al_in a) as [|x [|? ?]] eqn:Ea; try discriminate. cbn [nth].
    assert (Hx : x + n' <= n) by (apply (HAi 0); [reflexivity|now rewrite En'|now rewrite En]).
    assert (CI : child_inputs K a sub [row'] = Some [firstn n' (skipn (io + x) row)]).
    { unfold child_inputs. rewrite Ea, En'. cbn [length seq combine omap]. unfold aget. cbn [nth_error obind].
      rewrite slice_ok by (unfold row'; rewrite ?firstn_length, ?skipn_length; lia). cbn [obind]. do 2 f_equal.
      replace (x + n' - x) with n' by lia. unfold row'. now apply skipn_firstn_slice. }
    eapply adder_ext.
    + apply (adder_slice K _ (al_out a) (s_outputs sub) (apply_segment K rnd custom fuel segs pub sub [firstn n' (skipn (io + x) row)])
        (fun k => fsum (map (fun p => own_at segs row (oo + al_out a + k) (shift (io + x, oo + al_out a) p)) (places (schildren segs) fuel (fst ch)))) HO).
      apply IH; auto; lia.
    + intros nx _. rewrite CI. reflexivity.
    + intros k Hk. cbn beta. destruct (Nat.leb_spec (al_out a) k) as [H1|H1]; [destruct (Nat.ltb_spec k (al_out a + s_outputs sub)) as [H2|H2]|]; cbn [andb].
      * apply fsum_ext. intros p _. rewrite shift_shift. cbn [fst snd]. f_equal. lia.
      * symmetry. etransitivity; [|apply (sum_range fuel (fst ch) sub row (io + x) (oo + al_out a) (oo + k)); auto; lia].
        apply fsum_ext. intros p _. now rewrite shift_shift.
      * symmetry. etransitivity; [|apply (sum_range fuel (fst ch) sub row (io + x) (oo + al_out a) (oo + k)); auto; lia].
        apply fsum_ext. intros p _. now rewrite shift_shift.
  - intros nx _. reflexivity.
  - intros k Hk. cbn beta. cbn [places map fsum].
    assert (Q : own_at segs row (oo + k) (shift (io, oo) (i, (0, 0))) = own s row io oo (oo + k)).
    { unfold own_at. cbn [shift fst snd]. now rewrite Es, !Nat.add_0_r. }
    rewrite Q, own_rel.
    assert (CE : schildren segs i = map (fun ch : nat * list allocation => (fst ch, map (fun a => (nth 0 (al_in a) 0, al_out a)) (snd ch))) (s_children s))
      by (unfold schildren; now rewrite Es).
    assert (FE : fsum (map (fun p => own_at segs row (oo + k) (shift (io, oo) p))
        (flat_map (fun c => flat_map (fun a => map (shift a) (places (schildren segs) fuel (fst c))) (snd c)) (schildren segs i))) =
      fsum (map (fun ch => fsum (map (fun a => fsum (map (fun p => own_at segs row (oo + k) (shift (io, oo) (shift (nth 0 (al_in a) 0, al_out a) p))) (places (schildren segs) fuel (fst ch)))) (snd ch))) (s_children s))).
    { rewrite CE, fsum_flat_map, map_map. cbn [fst snd]. apply fsum_ext. intros ch _. rewrite fsum_flat_map, map_map.
      apply fsum_ext. intros a _. now rewrite map_map. }
    rewrite FE. ring.
Qed.

(** ** The exported segments *)
Definition pexport (s : seg) : psegment K :=
  {| ps_ivars := trailing_zeros (nth 0 (s_inputs s) 0); ps_ovars := trailing_zeros (s_outputs s);
     ps_children := map (fun ch => (fst ch, map (fun a => (nth 0 (al_in a) 0, al_out a)) (snd ch))) (s_children s);
     ps_muls := map (fun m => export_gate K [m_in0 m; m_in1 m] (m_out m) (m_coef m) 0) (s_muls s);
     ps_adds := map (fun a => export_gate K [a_in a] (a_out a) (a_coef a) 1) (s_adds s);
     ps_consts := map (fun k => export_gate K [] (k_out k) (k_coef k) 2) (s_consts s);
     ps_uni := map (fun u => export_gate K [nth 0 (u_in u) (0, 0)] (u_out u) (u_coef u) (u_type u)) (s_customs s) |}.
Lemma export_ok i s : nth_error segs i = Some s -> export_segment K s = Some (pexport s).
Proof.
  intros Es. destruct (HS i s Es) as (_ & _ & _ & _ & _ & _ & _ & HCh). destruct (single_at i s Es) as (_ & PU).
  destruct (one_input s (single_at i s Es)) as (n & En). unfold export_segment, pexport. rewrite En. cbn [aget nth_error obind nth].
  rewrite (omap_total _ (fun u => export_gate K [nth 0 (u_in u) (0, 0)] (u_out u) (u_coef u) (u_type u))).
  2:{ intros u I. destruct (PU u I) as (p & Ep). now rewrite Ep. }
  cbn [obind]. rewrite (omap_total _ (fun ch : nat * list allocation => (fst ch, map (fun a => (nth 0 (al_in a) 0, al_out a)) (snd ch)))).
  2:{ intros ch I. destruct (HCh ch I) as (_ & sub & Esub & _ & HAl). destruct (one_input sub (single_at _ _ Esub)) as (n' & En').
      rewrite (omap_total _ (fun a => (nth 0 (al_in a) 0, al_out a))); auto. intros a Ia. destruct (HAl a Ia) as (LA & _).
      rewrite En' in LA. destruct (al_in a); [discriminate|]. reflexivity. }
  reflexivity.
Qed.
Lemma export_all : omap (export_segment K) segs = Some (map pexport segs).
Proof. apply omap_total. intros s I. apply In_nth_error in I as (i & Es). now apply (export_ok i). Qed.
Lemma pchildren_eq id : pchildren K (map pexport segs) id = schildren segs id.
Proof. unfold pchildren, schildren. rewrite nth_error_map. now destruct (nth_error segs id). Qed.
Lemma places_ext f g fuel id : (forall i, f i = g i) -> places f fuel id = places g fuel id.
Proof.
  intros H. revert id. induction fuel as [|fuel IH]; intros id; cbn [places]; auto. f_equal. rewrite H.
  apply flat_map_ext'. intros c _. apply flat_map_ext'. intros a _. now rewrite IH.
Qed.
Lemma no_gates_own row k p : has_gates K (map pexport segs) p = false -> own_at segs row k p = f0.
Proof.
  unfold has_gates, own_at. rewrite nth_error_map. destruct (nth_error segs (fst p)) as [s|]; cbn [option_map]; auto.
  unfold contain_gates, pexport. cbn [ps_muls ps_adds ps_consts ps_uni]. unfold own.
  destruct (s_muls s); [|discriminate]. destruct (s_adds s); [|discriminate]. destruct (s_consts s); [|discriminate].
  destruct (s_customs s); [|discriminate]. intros _. cbn. ring.
Qed.
Lemma sum_filter row k l : fsum (map (own_at segs row k) (filter (has_gates K (map pexport segs)) l)) = fsum (map (own_at segs row k) l).
Proof.
  induction l as [|p l IH]; cbn [filter map fsum]; auto. destruct (has_gates K (map pexport segs) p) eqn:E; cbn [map fsum]; rewrite IH; auto.
  rewrite (no_gates_own row k p E). ring.
Qed.

(** ** One layer *)
Definition dseg : psegment K := {| ps_ivars := 0; ps_ovars := 0; ps_children := []; ps_muls := []; ps_adds := []; ps_consts := []; ps_uni := [] |}.
Definition gates_at (f : psegment K -> list (pgate K)) (l : list place) : list (pgate K) :=
  flat_map (fun p => map (move_gate K (snd p)) (f (nth (fst p) (map pexport segs) dseg))) l.
Lemma flatten_layer_ok n id s : nth_error segs id = Some s ->
  exists l, Permutation l (filter (has_gates K (map pexport segs)) (places (schildren segs) (S (length segs)) id)) /\
  flatten_layer K order (map pexport segs) n id = Some
    {| pl_ivars := Nat.max (ps_ivars K (pexport s)) 1; pl_ovars := Nat.max (ps_ovars K (pexport s)) 1;
       pl_mul := gates_at (ps_muls K) l; pl_add := gates_at (ps_adds K) l; pl_const := gates_at (ps_consts K) l; pl_uni := gates_at (ps_uni K) l |}.
Proof.
  intros Es. unfold flatten_layer. rewrite map_length. unfold aget at 1. rewrite (map_nth_error pexport _ _ Es). cbn [obind].
  assert (Hid : id < length segs) by (apply nth_error_Some; congruence).
  destruct (scan_places K order order_perm (map pexport segs)) with (fuel := S (length segs)) (i := id) (s := pexport s) (site := [n]) as (lv & -> & BD & P).
  { intros i s' ch E I. rewrite nth_error_map in E. destruct (nth_error segs i) as [q|] eqn:Eq; [|discriminate]. injection E as <-.
    cbn [pexport ps_children] in I. apply in_map_iff in I as (c & <- & Ic). destruct (HS i q Eq) as (_ & _ & _ & _ & _ & _ & _ & HCh).
    destruct (HCh c Ic) as (L & _). exact L. }
  { lia. } { now apply map_nth_error. }
  cbn [obind]. exists (expand (order [n] lv)). split.
  - unfold expand. rewrite (perm_flat_map _ _ _ (order_perm [n] lv)). fold (expand lv). rewrite P.
    rewrite (places_ext _ (schildren segs)) by apply pchildren_eq. reflexivity.
  - rewrite (omap_total _ (fun leaf : nat * list (nat * nat) => map (pair (nth (fst leaf) (map pexport segs) dseg)) (snd leaf))).
    2:{ intros leaf I. unfold aget. rewrite (nth_error_nth' _ dseg); [reflexivity|]. apply BD. exact (Permutation_in _ (order_perm _ _) I). }
    cbn [obind]. unfold gates_at, expand. do 2 f_equal; rewrite <- flat_map_concat_map, !flat_map_flat_map;
      apply flat_map_ext'; intros leaf _; rewrite !flat_map_map; reflexivity.
Qed.

Lemma sum_gates (f : psegment K -> list (pgate K)) (w : pgate K -> K) l :
  fsum (map w (gates_at f l)) = fsum (map (fun p => fsum (map (fun g => w (move_gate K (snd p) g)) (f (nth (fst p) (map pexport segs) dseg)))) l).
Proof. unfold gates_at. rewrite fsum_flat_map. apply fsum_ext. intros p _. now rewrite map_map. Qed.

Lemma eval_layer_ok id s vals l n ivars ovars :
  nth_error segs id = Some s -> s_inputs s = [n] -> n <= length vals -> s_outputs s <= 2 ^ ovars ->
  Permutation l (filter (has_gates K (map pexport segs)) (places (schildren segs) (S (length segs)) id)) ->
  eval_layer K {| pl_ivars := ivars; pl_ovars := ovars; pl_mul := gates_at (ps_muls K) l; pl_add := gates_at (ps_adds K) l;
                  pl_const := gates_at (ps_consts K) l; pl_uni := gates_at (ps_uni K) l |} vals pub =
  Some (map (fun k => fsum (map (own_at segs vals k) (places (schildren segs) (S (length segs)) id))) (seq 0 (2 ^ ovars))).
Proof.
  intros Es En Hn Ho P. set (pls := places (schildren segs) (S (length segs)) id) in *.
  assert (FIT : forall p, In p l -> exists s', nth_error segs (fst p) = Some s' /\ nth (fst p) (map pexport segs) dseg = pexport s' /\ 
     fst (snd p) + nth 0 (s_inputs s') 0 <= length vals /\ snd (snd p) + s_outputs s' <= 2 ^ ovars).
  { intros p I. apply (Permutation_in _ P), filter_In in I as (I & _). destruct (places_fit _ _ _ _ Es I) as (s' & E' & B1 & B2).
    exists s'. split; auto. split. { apply nth_error_nth. now apply map_nth_error. }
    rewrite En in B1. cbn [nth] in B1. split; lia. }
  assert (VAL : forall s' io p, io + nth 0 (s_inputs s') 0 <= length vals -> plain (length pub) s' -> pos_ok K s' p ->
     aget vals (snd p + io) = Some (nth (io + snd p) vals f0)).
  { intros s' io p B PL (m & Em & Hm). destruct (one_input s' (plain_single _ _ PL)) as (n' & E'). rewrite E' in *. destruct (fst p) as [|[|?]]; try discriminate.
    cbn in Em, B. injection Em as <-. rewrite Nat.add_comm. unfold aget. apply nth_error_nth'. lia. }
  unfold eval_layer. cbn [pl_ovars pl_mul pl_add pl_const pl_uni].
  apply (adder_eval K (2 ^ ovars) (fun res =>
    let* res := for_each (gates_at (ps_muls K) l) (fun g res =>
      let* i0 := aget (pg_in K g) 0 in let* x := aget vals i0 in
      let* i1 := aget (pg_in K g) 1 in let* y := aget vals i1 in bump K res (pg_out K g) (x * y * pg_coef K g)%K) res in
    let* res := for_each (gates_at (ps_adds K) l) (fun g res =>
      let* i0 := aget (pg_in K g) 0 in let* x := aget vals i0 in bump K res (pg_out K g) (x * pg_coef K g)%K) res in
    let* res := for_each (gates_at (ps_consts K) l) (fun g res =>
      let* k := match pg_ctype K g with TPublicInput id => aget pub id | _ => Some (pg_coef K g) end in bump K res (pg_out K g) k) res in
    for_each (gates_at (ps_uni K) l) (fun g res =>
      let* i0 := aget (pg_in K g) 0 in let* x := aget vals i0 in let* v := uni (pg_type K g) x in
      bump K res (pg_out K g) (v * pg_coef K g)%K) res)).
  eapply adder_ext.
  - apply (adder_bind K _ (for_each (gates_at (ps_muls K) l) (fun g res =>
      let* i0 := aget (pg_in K g) 0 in let* x := aget vals i0 in
      let* i1 := aget (pg_in K g) 1 in let* y := aget vals i1 in bump K res (pg_out K g) (x * y * pg_coef K g)%K))).
    { apply (adder_for_each K _ _ (fun g k => at_ (pg_out K g) k (nth (nth 0 (pg_in K g) O) vals f0 * nth (nth 1 (pg_in K g) O) vals f0 * pg_coef K g)%K)).
      intros g I. unfold gates_at in I. apply in_flat_map in I as (p & Ip & I). destruct (FIT p Ip) as (s' & E' & Ep & B1 & B2).
      rewrite Ep in I. apply in_map_iff in I as (g' & <- & I). cbn [pexport ps_muls] in I. apply in_map_iff in I as (m & <- & I).
      destruct (HS _ _ E') as (_ & _ & _ & HM & _). destruct (HM m I) as (P0 & P1 & O). pose proof (plain_at _ _ E') as PL.
      cbn [move_gate export_gate pg_in pg_out pg_coef map nth].
      eapply adder_ext; [eapply (adder_bump K _ (m_out m + snd (snd p))); lia| |reflexivity].
      intros nx _. cbn [aget nth_error obind].
      rewrite (VAL s' (fst (snd p)) (m_in0 m)), (VAL s' (fst (snd p)) (m_in1 m)) by auto. cbn [obind].
      rewrite !(Nat.add_comm (fst (snd p))). reflexivity. }
    apply (adder_bind K _ (for_each (gates_at (ps_adds K) l) (fun g res =>
      let* i0 := aget (pg_in K g) 0 in let* x := aget vals i0 in bump K res (pg_out K g) (x * pg_coef K g)%K))).
    { apply (adder_for_each K _ _ (fun g k => at_ (pg_out K g) k (nth (nth 0 (pg_in K g) O) vals f0 * pg_coef K g)%K)).
      intros g I. unfold gates_at in I. apply in_flat_map in I as (p & Ip & I). destruct (FIT p Ip) as (s' & E' & Ep & B1 & B2).
      rewrite Ep in I. apply in_map_iff in I as (g' & <- & I). cbn [pexport ps_adds] in I. apply in_map_iff in I as (m & <- & I).
      destruct (HS _ _ E') as (_ & _ & _ & _ & HM & _). destruct (HM m I) as (P0 & O). pose proof (plain_at _ _ E') as PL.
      cbn [move_gate export_gate pg_in pg_out pg_coef map nth].
      eapply adder_ext; [eapply (adder_bump K _ (a_out m + snd (snd p))); lia| |reflexivity].
      intros nx _. cbn [aget nth_error obind].
      rewrite (VAL s' (fst (snd p)) (a_in m)) by auto. cbn [obind].
      rewrite !(Nat.add_comm (fst (snd p))). reflexivity. }
    apply (adder_bind K _ (for_each (gates_at (ps_consts K) l) (fun g res =>
      let* k := match pg_ctype K g with TPublicInput id => aget pub id | _ => Some (pg_coef K g) end in bump K res (pg_out K g) k))).
    { apply (adder_for_each K _ _ (fun g k => at_ (pg_out K g) k (match pg_ctype K g with TPublicInput id => nth id pub f0 | _ => pg_coef K g end))).
      intros g I. unfold gates_at in I. apply in_flat_map in I as (p & Ip & I). destruct (FIT p Ip) as (s' & E' & Ep & B1 & B2).
      rewrite Ep in I. apply in_map_iff in I as (g' & <- & I). cbn [pexport ps_consts] in I. apply in_map_iff in I as (m & <- & I).
      destruct (HS _ _ E') as (_ & _ & _ & _ & _ & HM & _). pose proof (HM m I) as O. destruct (plain_at _ _ E') as (_ & _ & _ & PC & _).
      cbn [move_gate export_gate pg_in pg_out pg_coef pg_ctype map nth].
      eapply adder_ext; [eapply (adder_bump K _ (k_out m + snd (snd p))); lia| |reflexivity].
      intros nx _. destruct (PC m I) as [(c & ->)|(pid & -> & Hpid)]; cbn [export_coef fst snd obind]; auto.
      unfold aget. rewrite (nth_error_nth' pub f0) by auto. reflexivity. }
    apply (adder_for_each K _ (fun g res =>
      let* i0 := aget (pg_in K g) 0 in let* x := aget vals i0 in let* v := uni (pg_type K g) x in
      bump K res (pg_out K g) (v * pg_coef K g)%K) (fun g k => at_ (pg_out K g) k (uval (pg_type K g) (nth (nth 0 (pg_in K g) O) vals f0) * pg_coef K g)%K) (gates_at (ps_uni K) l)).
    intros g I. unfold gates_at in I. apply in_flat_map in I as (p & Ip & I). destruct (FIT p Ip) as (s' & E' & Ep & B1 & B2).
    rewrite Ep in I. apply in_map_iff in I as (g' & <- & I). cbn [pexport ps_uni] in I. apply in_map_iff in I as (m & <- & I).
    destruct (HS _ _ E') as (_ & _ & _ & _ & _ & _ & HM & _). destruct (HM m I) as (P0 & O). pose proof (plain_at _ _ E') as PL.
    destruct PL as (PL0 & PL1 & PL2 & PL3 & PL4). destruct (PL4 m I) as (_ & q & Euq & HX). 
    cbn [move_gate export_gate pg_in pg_out pg_coef pg_type map nth]. rewrite Euq. cbn [nth].
    eapply adder_ext; [eapply (adder_bump K _ (u_out m + snd (snd p))); lia| |reflexivity].
    intros nx _. cbn [aget nth_error obind].
    rewrite (VAL s' (fst (snd p)) q B1 (plain_at _ _ E')) by (apply P0; rewrite Euq; now left). cbn [obind].
    unfold uval. destruct (HX (nth (snd q + fst (snd p)) vals f0)) as (y & Ey & _). rewrite !(Nat.add_comm (fst (snd p))), Ey. reflexivity.
  - intros nx _. reflexivity.
  - intros k Hk. cbn beta. rewrite <- (sum_filter vals k pls).
    rewrite <- (fsum_perm K _ _ (Permutation_map (own_at segs vals k) P)).
    rewrite !sum_gates, <- !fsum_map_add. apply fsum_ext. intros p Ip. destruct (FIT p Ip) as (s' & E' & Ep & _).
    unfold own_at. rewrite E', Ep. unfold own, pexport. cbn [ps_muls ps_adds ps_consts ps_uni]. rewrite !map_map.
    destruct (plain_at _ _ E') as (_ & PM & PA & PC & PU).
    f_equal; [|f_equal; [|f_equal]]; apply fsum_ext; intros g Ig; cbn [move_gate export_gate pg_in pg_out pg_coef pg_type pg_ctype map nth];
      rewrite !(Nat.add_comm (snd (snd p))), ?(Nat.add_comm (fst (snd p))); f_equal.
    + destruct (PM g Ig) as (c & ->). reflexivity.
    + destruct (PA g Ig) as (c & ->). reflexivity.
    + destruct (PC g Ig) as [(c & ->)|(pid & -> & _)]; reflexivity.
    + destruct (PU g Ig) as ((c & ->) & _). reflexivity.
Qed.

(** ** All layers *)
Definition pad (l : list K) : list K := l ++ repeat f0 (2 - length l).
Lemma pad_length l : l <> [] -> length (pad l) = Nat.max (length l) 2.
Proof. intros H. unfold pad. rewrite app_length, repeat_length. destruct l as [|? [|? ?]]; cbn in *; try tauto; lia. Qed.
Lemma vars_size x : (exists k, x = 2 ^ k) -> 2 ^ Nat.max (trailing_zeros x) 1 = Nat.max x 2.
Proof.
  intros (k & ->). rewrite tz_pow. destruct k as [|k]; [reflexivity|]. rewrite Nat.max_l by lia.
  assert (0 < 2 ^ k) by (apply Nat.neq_0_lt_0, Nat.pow_nonzero; lia). cbn. lia.
Qed.
Lemma own_at_pad row k p n s : nth_error segs (fst p) = Some s -> fst (snd p) + nth 0 (s_inputs s) 0 <= n -> length row = n ->
  own_at segs (pad row) k p = own_at segs row k p.
Proof.
  intros Es B L. unfold own_at. rewrite Es. destruct (HS _ _ Es) as (_ & _ & _ & HM & HA & _ & HU & _).
  destruct (one_input s (single_at _ _ Es)) as (n' & En). rewrite En in B. cbn [nth] in B.
  destruct (plain_at _ _ Es) as (_ & _ & _ & _ & PU).
  assert (Q : forall q, pos_ok K s q -> nth (fst (snd p) + snd q) (pad row) f0 = nth (fst (snd p) + snd q) row f0).
  { intros q (m & Em & Hm). rewrite En in Em. destruct (fst q) as [|[|?]]; try discriminate. cbn in Em. injection Em as <-.
    unfold pad. apply app_nth1. lia. }
  unfold own. f_equal; [|f_equal; [|f_equal]]; apply fsum_ext; intros g Ig; auto.
  - destruct (HM g Ig) as (P0 & P1 & _). now rewrite !Q.
  - destruct (HA g Ig) as (P0 & _). now rewrite !Q.
  - destruct (HU g Ig) as (P0 & _). destruct (PU g Ig) as (_ & q & Euq & _). unfold src. rewrite Euq. cbn [nth].
    rewrite !Q; auto. apply P0. rewrite Euq. now left.
Qed.
Lemma layer_step n id s row : nth_error segs id = Some s -> s_inputs s = [length row] ->
  exists out L, apply_segment K rnd custom (S (length segs)) segs pub s [row] (repeat f0 (s_outputs s)) = Some out /\ length out = s_outputs s /\
    flatten_layer K order (map pexport segs) n id = Some L /\ 2 ^ pl_ivars K L = length (pad row) /\ eval_layer K L (pad row) pub = Some (pad out).
Proof.
  intros Es En. destruct (HS id s Es) as (HI & _ & HO & _).
  assert (Hid : id < length segs) by (apply nth_error_Some; congruence).
  pose proof (apply_adder row (S (length segs)) id s (length row) 0 0 ltac:(lia) Es En (le_n _)) as A.
  apply adder_eval in A. cbn [skipn] in A. rewrite firstn_all in A.
  destruct (flatten_layer_ok n id s Es) as (l & P & F).
  assert (RN : row <> []). { intros E. rewrite E in En. destruct (HI 0) as (k & Ek); [rewrite En; now left|]. symmetry in Ek. revert Ek. apply Nat.pow_nonzero. lia. }
  eexists _, _. split; [exact A|]. split; [now rewrite map_length, seq_length|]. split; [exact F|]. cbn [pl_ivars pexport ps_ivars]. split.
  { rewrite En. cbn [nth]. rewrite vars_size, pad_length by (auto; apply HI; rewrite En; now left). reflexivity. }
  rewrite (eval_layer_ok id s (pad row) l (length row)); auto.
  2:{ rewrite pad_length by auto. lia. }
  2:{ cbn [pexport ps_ovars]. rewrite vars_size by auto. lia. }
  cbn [pexport ps_ovars]. rewrite vars_size by auto. f_equal.
  set (w := fun k => fsum (map (fun p => own_at segs row (0 + k) (shift (0, 0) p)) (places (schildren segs) (S (length segs)) id))).
  rewrite (map_ext_in _ w).
  2:{ intros k _. unfold w. apply fsum_ext. intros p I. destruct (places_fit _ _ _ _ Es I) as (s' & E' & B1 & _). rewrite En in B1. cbn [nth] in B1.
      cbn [Nat.add]. rewrite shift_0. now apply (own_at_pad row k p (length row) s'). }
  unfold pad. rewrite map_length, seq_length.
  replace (Nat.max (s_outputs s) 2) with (s_outputs s + (2 - s_outputs s)) by lia. rewrite seq_app, map_app. f_equal. cbn [Nat.add].
  generalize (2 - s_outputs s). intros m.
  assert (Z : forall k, s_outputs s <= k -> w k = f0) by (intros k Hk; unfold w; apply (sum_range (S (length segs)) id s); auto; lia).
  revert Z. generalize (s_outputs s). induction m as [|m IH]; intros b Z; cbn [seq map repeat]; auto. rewrite Z by auto. f_equal. apply IH. intros k Hk. apply Z. lia.
Qed.

Lemma layers_step (c : circuit K) n0 : c_segments c = segs -> circuit_ok K c -> input_size K c = Some n0 ->
  forall ids i cur row, skipn i (c_layers c) = ids -> nth_error cur (length cur - 1) = Some row -> size_at K c n0 i = Some (length row) ->
  exists cur' row' Ls, for_each ids (fun id cur =>
      let* s := aget segs id in
      let* ins := layer_inputs K s cur in
      let* next := apply_segment K rnd custom (S (length segs)) segs pub s ins (repeat f0 (s_outputs s)) in
      Some (cur ++ [next])) cur = Some cur' /\ nth_error cur' (length cur' - 1) = Some row' /\
    omap (fun e => flatten_layer K order (map pexport segs) (fst e) (snd e)) (combine (seq i (length ids)) ids) = Some Ls /\ length Ls = length ids /\
    for_each Ls (fun l vals => eval_layer K l vals pub) (pad row) = Some (pad row') /\
    (forall L, nth_error Ls 0 = Some L -> 2 ^ pl_ivars K L = length (pad row)).
Proof.
  intros EC (_ & _ & n1 & E1 & HL) E0. assert (n1 = n0) by congruence. subst n1.
  induction ids as [|id ids IH]; intros i cur row Ei Er Sz.
  - exists cur, row, []. cbn. repeat split; auto. discriminate.
  - assert (Eid : nth_error (c_layers c) i = Some id).
    { rewrite <- (firstn_skipn i (c_layers c)), Ei, nth_error_app2; [|rewrite firstn_length; lia].
      assert (i < length (c_layers c)). { destruct (Nat.lt_ge_cases i (length (c_layers c))); auto. rewrite skipn_all2 in Ei by auto. discriminate. }
      rewrite firstn_length, Nat.min_l, Nat.sub_diag by lia. reflexivity. }
    destruct (HL i id Eid) as (s & Es & _ & Hs). rewrite EC in Es. destruct (one_input s (single_at _ _ Es)) as (n & En).
    assert (n = length row). { specialize (Hs 0 n). rewrite En, Nat.sub_0_r in Hs. specialize (Hs eq_refl). congruence. } subst n.
    destruct (layer_step i id s row Es En) as (out & L & EA & LO & EF & EV & EL).
    assert (LI : layer_inputs K s cur = Some [row]).
    { unfold layer_inputs. rewrite En. cbn [length seq omap]. destruct cur as [|r0 cur0]; [discriminate|]. cbn [length Nat.add Nat.leb guard obind].
      replace (S (length cur0) - 0 - 1) with (length (r0 :: cur0) - 1) by (cbn; lia). unfold aget. rewrite Er. reflexivity. }
    destruct (IH (S i) (cur ++ [out]) out) as (cur' & row' & Ls & A & B & C & D & E & F).
    { now rewrite <- Nat.add_1_l, <- skipn_skipn1, Ei. }
    { rewrite app_length. cbn [length]. rewrite nth_error_app2 by lia. replace (length cur + 1 - 1 - length cur) with 0 by lia. reflexivity. }
    { unfold size_at. rewrite Eid, EC, Es. cbn. now rewrite LO. }
    exists cur', row', (L :: Ls). cbn [for_each length seq combine omap fst snd]. unfold aget at 1. rewrite Es. cbn [obind]. rewrite LI. cbn [obind]. rewrite EA. cbn [obind].
    split; [exact A|]. split; [exact B|]. rewrite EF. cbn [obind]. rewrite C. cbn [obind length]. repeat split; auto.
    + rewrite EL. exact E.
    + intros L' HL'. cbn in HL'. injection HL' as <-. exact EV.
Qed.
Lemma relay_ok v (vals : list K) : length vals = 2 ^ v -> eval_layer K (relay_layer K v) vals pub = Some vals.
Proof.
  intros L. unfold eval_layer, relay_layer. cbn [pl_ovars pl_mul pl_add pl_const pl_uni for_each obind].
  rewrite (adder_eval K (2 ^ v) (fun res => let* res := for_each (map (fun i => {| pg_in := [i]; pg_out := i; pg_coef := f1; pg_ctype := TConstant; pg_type := 0 |}) (seq 0 (2 ^ v)))
      (fun (g : pgate K) res => let* i0 := aget (pg_in K g) 0 in let* x := aget vals i0 in bump K res (pg_out K g) (x * pg_coef K g)%K) res in Some res)
      (fun k => nth k vals f0)).
  - f_equal. rewrite <- L. symmetry. apply arr_list, arr_self.
  - eapply adder_ext.
    + eapply (adder_bind K _ _ (fun r => Some r) _ (fun _ => f0)).
      * apply (adder_for_each K _ (fun (g : pgate K) res => let* i0 := aget (pg_in K g) 0 in let* x := aget vals i0 in bump K res (pg_out K g) (x * pg_coef K g)%K)
          (fun g k => at_ (pg_out K g) k (nth (nth 0 (pg_in K g) O) vals f0 * pg_coef K g)%K)
          (map (fun i => {| pg_in := [i]; pg_out := i; pg_coef := f1; pg_ctype := TConstant; pg_type := 0 |}) (seq 0 (2 ^ v)))).
        intros g I. apply in_map_iff in I as (i & <- & I). apply in_seq in I. cbn [pg_in pg_out pg_coef nth].
        eapply adder_ext; [eapply (adder_bump K _ i); lia| |reflexivity]. intros nx _. cbn [aget nth_error obind]. unfold aget.
        rewrite (nth_error_nth' vals f0) by lia. reflexivity.
      * intros nx Ln. exists nx. split; auto. pose proof (arr_self nx f0) as S. rewrite Ln in S. eapply arr_ext; [exact S|]. intros k Hk. cbn beta. ring.
    + reflexivity.
    + intros k Hk. cbn beta. rewrite map_map. cbn [pg_in pg_out pg_coef nth]. unfold at_.
      replace (2 ^ v) with (k + (1 + (2 ^ v - k - 1))) by lia. rewrite !seq_app, !map_app, !fsum_app. cbn [seq map fsum Nat.add].
      rewrite Nat.eqb_refl, !fsum_map_0; [ring| |].
      * intros i I. apply in_seq in I. destruct (Nat.eqb_spec k i); [lia|auto].
      * intros i I. apply in_seq in I. destruct (Nat.eqb_spec k i); [lia|auto].
Qed.
End Segs.

Lemma flatten_correct (c : circuit K) inputs n : validate K c = Some true -> (forall s, In s (c_segments c) -> plain (length pub) s) ->
  input_size K c = Some n -> length inputs = n ->
  exists pc rows row, export_to_expander_flatten K order c = Some pc /\ pc_zeros K pc = c_zeroes c /\
    eval_layers K rnd custom c inputs pub = Some rows /\ nth_error rows (length rows - 1) = Some row /\
    evaluate K pc (pad inputs) pub = Some (pad row).
Proof.
  intros HV HP En Hn. apply validate_ok in HV. pose proof HV as (HS & HN & _).
  assert (HQ : forall s, In s (c_segments c) -> single s) by (intros s I; eapply plain_single; auto).
  destruct (layers_step (c_segments c) HS HQ HP c n eq_refl HV En (c_layers c) 0 [inputs] inputs) as (rows & row & Ls & A & B & C & D & E & F);
    [reflexivity|reflexivity|cbn; congruence|].
  assert (LN : exists L0 Ls', Ls = L0 :: Ls').
  { destruct Ls as [|L0 Ls']; eauto. destruct (c_layers c); [tauto|discriminate]. }
  destruct LN as (L0 & Ls' & ->).
  unfold export_to_expander_flatten, export_to_expander. rewrite (export_all (c_segments c) HS HQ). cbn [obind].
  unfold flatten. cbn [rc_segments rc_layers rc_zeros]. rewrite C. cbn [obind]. unfold pre_process_gkr. cbn [pc_layers aget nth_error obind].
  assert (EE : eval_layers K rnd custom c inputs pub = Some rows).
  { unfold eval_layers. rewrite En. cbn [obind]. rewrite Hn, Nat.eqb_refl. cbn [guard obind]. exact A. }
  destruct (empty (pl_mul K L0)).
  - eexists _, rows, row. split; [reflexivity|]. cbn [pc_zeros]. repeat (split; auto).
  - eexists _, rows, row. split; [reflexivity|]. cbn [pc_zeros]. repeat (split; auto).
    unfold evaluate. cbn [pc_layers empty negb guard obind for_each]. rewrite relay_ok by (symmetry; now apply F). exact E.
Qed.
End Flat.

(** ** Two flattenings of the same circuit *)
Section Two.
Variable K : field.
Variable o1 o2 : list nat -> leaves -> leaves.
Hypothesis p1 : forall site l, Permutation (o1 site l) l.
Hypothesis p2 : forall site l, Permutation (o2 site l) l.
Definition same_layer (a b : player K) : Prop :=
  pl_ivars K a = pl_ivars K b /\ pl_ovars K a = pl_ovars K b /\ Permutation (pl_mul K a) (pl_mul K b) /\ Permutation (pl_add K a) (pl_add K b) /\
  Permutation (pl_const K a) (pl_const K b) /\ Permutation (pl_uni K a) (pl_uni K b).
Definition same_circuit (a b : pcircuit K) : Prop := pc_zeros K a = pc_zeros K b /\ Forall2 same_layer (pc_layers K a) (pc_layers K b).
Lemma flatten_same (c : circuit K) : validate K c = Some true -> (forall s, In s (c_segments c) -> single K s) ->
  exists a b, export_to_expander_flatten K o1 c = Some a /\ export_to_expander_flatten K o2 c = Some b /\ same_circuit a b.
Proof.
  intros HV HQ. apply validate_ok in HV. destruct HV as (HS & HN & n0 & _ & HL).
  unfold export_to_expander_flatten, export_to_expander. rewrite (export_all K (c_segments c) HS HQ). cbn [obind]. unfold flatten. cbn [rc_segments rc_layers rc_zeros].
  assert (G : forall ids i, (forall id, In id ids -> exists s, nth_error (c_segments c) id = Some s) -> exists l m,
    omap (fun e => flatten_layer K o1 (map (pexport K) (c_segments c)) (fst e) (snd e)) (combine (seq i (length ids)) ids) = Some l /\
    omap (fun e => flatten_layer K o2 (map (pexport K) (c_segments c)) (fst e) (snd e)) (combine (seq i (length ids)) ids) = Some m /\
    length l = length ids /\ Forall2 same_layer l m).
  { induction ids as [|id ids IH]; intros i H; cbn [length seq combine omap].
    - exists [], []. repeat split; constructor.
    - destruct (H id) as (s & Es); [now left|]. destruct (IH (S i)) as (l & m & -> & -> & LL & F); [intros x I; apply H; now right|].
      cbn [fst snd]. destruct (flatten_layer_ok K o1 p1 (c_segments c) HS i id s Es) as (l1 & P1 & ->).
      destruct (flatten_layer_ok K o2 p2 (c_segments c) HS i id s Es) as (l2 & P2 & ->). cbn [obind].
      eexists _, _. split; [reflexivity|]. split; [reflexivity|]. split; [cbn; lia|]. constructor; auto.
      assert (P : Permutation l1 l2) by (rewrite P1, P2; reflexivity).
      unfold same_layer, gates_at. cbn [pl_ivars pl_ovars pl_mul pl_add pl_const pl_uni]. repeat split; now apply perm_flat_map. }
  destruct (G (c_layers c) 0) as (l & m & -> & -> & LL & F).
  { intros id I. apply In_nth_error in I as (i & E). destruct (HL i id E) as (s & Es & _). eauto. }
  cbn [obind]. unfold pre_process_gkr. cbn [pc_layers pc_zeros]. destruct F as [|x y l m Hxy F]; [destruct (c_layers c); [tauto|discriminate]|].
  cbn [aget nth_error obind]. destruct Hxy as (E1 & E2 & E3 & E4).
  assert (EM : empty (pl_mul K x) = empty (pl_mul K y)).
  { destruct (pl_mul K x); [apply Permutation_nil in E3; now rewrite E3|].
    destruct (pl_mul K y); [symmetry in E3; apply Permutation_nil in E3; discriminate|reflexivity]. }
  rewrite EM. assert (SX : same_layer x y) by (repeat split; tauto).
  destruct (empty (pl_mul K y)); eexists _, _; (split; [reflexivity|]; split; [reflexivity|]; split; [reflexivity|]); cbn [pc_layers].
  - constructor; auto.
  - constructor; [rewrite E1; repeat split; reflexivity|]. constructor; auto.
Qed.
(** Without nested segments nothing is reordered *)
Lemma perm_short {A} (l m : list A) : length m <= 1 -> Permutation l m -> l = m.
Proof.
  destruct m as [|x [|? ?]]; cbn; intros L P; try lia.
  - now apply Permutation_sym, Permutation_nil in P.
  - apply Permutation_sym, Permutation_length_1_inv in P. auto.
Qed.
Lemma flatten_equal (c : circuit K) : validate K c = Some true -> (forall s, In s (c_segments c) -> s_children s = []) ->
  export_to_expander_flatten K o1 c = export_to_expander_flatten K o2 c.
Proof.
  intros HV HC. unfold export_to_expander_flatten. destruct (export_to_expander K c) as [rc|] eqn:E; auto. cbn [obind].
  enough (Q : flatten K o1 rc = flatten K o2 rc) by now rewrite Q. unfold flatten.
  enough (Q : forall n id, flatten_layer K o1 (rc_segments K rc) n id = flatten_layer K o2 (rc_segments K rc) n id).
  { assert (M : forall l, omap (fun e => flatten_layer K o1 (rc_segments K rc) (fst e) (snd e)) l = omap (fun e => flatten_layer K o2 (rc_segments K rc) (fst e) (snd e)) l).
    { induction l as [|a l IH]; cbn; auto. now rewrite Q, IH. } now rewrite M. }
  intros n id. unfold flatten_layer. destruct (aget (rc_segments K rc) id) as [s|] eqn:Es; cbn [obind]; auto.
  assert (CH : ps_children K s = []).
  { unfold export_to_expander in E. destruct (omap (export_segment K) (c_segments c)) as [ss|] eqn:Eo; [|discriminate]. cbn in E. injection E as <-. cbn in Es.
    unfold aget in Es. rewrite (omap_nth _ _ _ _ Eo) in Es. destruct (nth_error (c_segments c) id) as [q|] eqn:Eq; [|discriminate].
    unfold export_segment in Es. rewrite (HC q) in Es by (eapply nth_error_In; eassumption). destruct (aget (s_inputs q) 0); [|discriminate]. cbn [obind] in Es.
    destruct (omap _ (s_customs q)); [|discriminate]. cbn in Es. injection Es as <-. reflexivity. }
  cbn [scan_leaf_segments]. rewrite CH. cbn [length seq combine for_each obind].
  set (ret := if contain_gates K s then [(id, [(0, 0)])] else []). assert (L : length ret <= 1) by (unfold ret; destruct (contain_gates K s); cbn; lia).
  rewrite (perm_short _ _ L (p1 [n] ret)), (perm_short _ _ L (p2 [n] ret)). reflexivity.
Qed.
End Two.
