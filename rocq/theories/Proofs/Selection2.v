(** Where. *)
From Coq Require Import ZArith List Bool Arith Znumtheory Lia.
From Verif Require Base.Array.
From Verif Require Import Spec.Numbers Spec.Shapes Spec.Tensors Spec.HonestProver Spec.Selection
  Model.Builder Model.Gadgets Model.Layers Model.Shapes Model.DataMovement Model.Selection
  Proofs.Builder Proofs.Gadgets Proofs.Layers Proofs.Shapes Proofs.Tensors Proofs.DataMovement Proofs.DataMovement5 Proofs.Selection.
Import ListNotations.
Local Open Scope nat_scope.

Lemma skipn_skipn' {A} (l : list A) i j : skipn i (skipn j l) = skipn (i + j) l.
Proof. revert j l. induction j as [|j IH]; intros l; [now rewrite Nat.add_0_r|]. destruct l; [now rewrite !skipn_nil|].
  rewrite Nat.add_succ_r. cbn [skipn]. apply IH. Qed.
Lemma Forall2_skipn {A B} (P : A -> B -> Prop) l m k : Forall2 P l m -> Forall2 P (skipn k l) (skipn k m).
Proof. intros F. revert k. induction F as [|a b l m H F IH]; intros [|k]; cbn [skipn]; auto. Qed.
Lemma expands_trans a b c : expands_to a b -> expands_to b c -> expands_to a c.
Proof.
  intros (L1 & F1) (L2 & F2). split; [lia|]. apply (Forall2_skipn _ _ _ (length b - length a)) in F2.
  rewrite skipn_skipn' in F2. replace (length b - length a + (length c - length b)) with (length c - length a) in F2 by lia.
  revert F1 F2. generalize (skipn (length b - length a) b) (skipn (length c - length a) c). clear.
  induction a as [|x a IH]; intros l m F1 F2; inversion F1; subst; inversion F2; subst; constructor; eauto. lia.
Qed.
Lemma broadcasts_sym a b r : broadcasts_to a b r -> broadcasts_to b a r.
Proof.
  intros (L & H). split; [lia|]. intros i Hi. specialize (H i Hi). unfold dims_agree in *. lia.
Qed.
Lemma broadcast3_expands a b c r : broadcast3 a b c r -> expands_to a r /\ expands_to b r /\ expands_to c r.
Proof.
  intros (ab & B1 & B2). pose proof (broadcasts_expands _ _ _ B2) as X. split; [|split].
  - eapply expands_trans; [|exact X]. exact (broadcasts_expands _ _ _ B1).
  - eapply expands_trans; [|exact X]. exact (broadcasts_expands _ _ _ (broadcasts_sym _ _ _ B1)).
  - exact (broadcasts_expands _ _ _ (broadcasts_sym _ _ _ B2)).
Qed.
Lemma where_shape_ok a b c r : where_shape a b c = Some r <-> broadcast3 a b c r.
Proof.
  unfold where_shape, broadcast3. split.
  - destruct (broadcast_shapes a b) as [ab|] eqn:E; [|discriminate]. cbn [Array.obind]. intros E2.
    apply broadcast_shapes_ok in E, E2. eauto.
  - intros (ab & B1 & B2). apply broadcast_shapes_ok in B1, B2. rewrite B1. exact B2.
Qed.
Lemma where_indices_ok r s1 s2 s3 : expands_to s1 r -> expands_to s2 r -> expands_to s3 r ->
  exists idx, where_indices r s1 s2 s3 = Some idx /\ length idx = prod r /\
    forall c, in_range c r -> nth_error idx (row_major c r) =
      Some (row_major (read_coords c s1) s1, row_major (read_coords c s2) s2, row_major (read_coords c s3) s3).
Proof.
  intros X1 X2 X3. unfold where_indices. apply index_map_ok. intros c R. rewrite unravel_row_major by auto. cbn [Array.obind].
  destruct (broadcast_index_ok _ _ _ R X1) as (_ & -> & _). destruct (broadcast_index_ok _ _ _ R X2) as (_ & -> & _).
  destruct (broadcast_index_ok _ _ _ R X3) as (_ & -> & _). reflexivity.
Qed.
Lemma omap_total_list {A B} (f : A -> option B) l m : length l = length m /\ (forall k a, nth_error l k = Some a -> f a = nth_error m k) ->
  Array.omap f l = Some m.
Proof.
  revert m. induction l as [|a l IH]; intros [|b m] (L & H); cbn [length] in L; try discriminate; [reflexivity|].
  cbn [Array.omap]. rewrite (H 0 a eq_refl). cbn [nth_error Array.obind]. rewrite (IH m); [reflexivity|].
  split; [lia|]. intros k z Hk. exact (H (S k) z Hk).
Qed.
(** The element chosen at the coordinates [oc]. *)
Definition choice {T} (cond : tensor Z) (x y : tensor T) (oc : list nat) : option T :=
  match elem cond (read_coords oc (dims cond)) with
  | Some b => if (b =? 0)%Z then elem y (read_coords oc (dims y)) else elem x (read_coords oc (dims x))
  | None => None
  end.
Lemma in_seq_rm {A} (l : list A) r k a : length l = prod r -> nth_error l k = Some a -> exists c, in_range c r /\ row_major c r = k.
Proof.
  intros L H. assert (k < prod r) by (rewrite <- L; apply nth_error_Some; congruence).
  destruct (unravel_ok k r) as (c & _ & R & E); eauto.
Qed.
Section W.
Context {T : Type}.
Variables (cond : tensor Z) (x y : tensor T) (r : list nat).
Hypothesis Wc : well_formed cond. Hypothesis Wx : well_formed x. Hypothesis Wy : well_formed y.
Hypothesis B : broadcast3 (dims cond) (dims x) (dims y) r.
Lemma where_reads c : in_range c r -> exists b u v, elem cond (read_coords c (dims cond)) = Some b /\
  elem x (read_coords c (dims x)) = Some u /\ elem y (read_coords c (dims y)) = Some v /\
  nth_error (flat cond) (row_major (read_coords c (dims cond)) (dims cond)) = Some b /\
  nth_error (flat x) (row_major (read_coords c (dims x)) (dims x)) = Some u /\
  nth_error (flat y) (row_major (read_coords c (dims y)) (dims y)) = Some v.
Proof.
  intros R. destruct (broadcast3_expands _ _ _ _ B) as (X1 & X2 & X3).
  destruct (broadcast_index_ok _ _ _ R X1) as (R1 & _). destruct (broadcast_index_ok _ _ _ R X2) as (R2 & _).
  destruct (broadcast_index_ok _ _ _ R X3) as (R3 & _).
  destruct (elem_exists cond _ Wc R1) as (b & Eb). destruct (elem_exists x _ Wx R2) as (u & Eu). destruct (elem_exists y _ Wy R3) as (v & Ev).
  exists b, u, v. rewrite (elem_in cond) in * by auto. rewrite (elem_in x) in * by auto. rewrite (elem_in y) in * by auto. auto 10.
Qed.
Lemma choice_tensor : exists out : tensor T, dims out = r /\ well_formed out /\ chosen cond x y out /\
  forall c, in_range c r -> elem out c = choice cond x y c.
Proof.
  destruct (tabulate_ok (fun k => match unravel k r with Some c => choice cond x y c | None => None end) r (choice cond x y)) as (m & _ & L & V).
  { intros c R. rewrite unravel_row_major by auto. split; auto. unfold choice.
    destruct (where_reads c R) as (b & u & v & -> & -> & -> & _). destruct (b =? 0)%Z; discriminate. }
  exists {| dims := r; flat := m |}. split; [reflexivity|]. split; [exact L|]. split; [|exact V].
  intros c R. cbn [dims] in R. rewrite V by auto. unfold choice. destruct (where_reads c R) as (b & u & v & E & _). rewrite E. eauto.
Qed.
Theorem where_constant_ok : exists out, where_constant cond x y = Some out /\ dims out = r /\ well_formed out /\ chosen cond x y out.
Proof.
  destruct choice_tensor as (out & D & W & C & V). exists out. split; [|auto].
  unfold where_constant. rewrite (proj2 (where_shape_ok _ _ _ _) B). cbn [Array.obind].
  destruct (broadcast3_expands _ _ _ _ B) as (X1 & X2 & X3).
  destruct (where_indices_ok r _ _ _ X1 X2 X3) as (idx & E & L & N). rewrite E. cbn [Array.obind].
  match goal with |- context [Array.omap ?f idx] => set (F1 := f) end.
  destruct (proj1 (omap_exists F1 idx)) as (mask & Em).
  { intros ((ci & xi) & yi) Hi. apply In_nth_error in Hi as (k & Hk). destruct (in_seq_rm _ _ _ _ L Hk) as (c & R & Ek).
    rewrite <- Ek, N in Hk by auto. injection Hk as <- <- <-. unfold F1, Array.aget. destruct (where_reads c R) as (b & u & v & _ & _ & _ & -> & _).
    cbn [Array.obind]. eauto. }
  rewrite Em. cbn [Array.obind].
  match goal with |- context [Array.omap ?f mask] => set (F2 := f) end.
  assert (EF : Array.omap F2 mask = Some (flat out)).
  { rewrite (omap_compose F1 F2 _ _ Em). apply omap_total_list. rewrite L. unfold well_formed in W. rewrite W, D.
    split; auto. intros k a Hk. destruct (in_seq_rm _ _ _ _ L Hk) as (c & R & Ek). rewrite <- Ek in *. rewrite N in Hk by auto. injection Hk as <-.
    assert (Eo : nth_error (flat out) (row_major c r) = choice cond x y c) by (rewrite <- V by auto; rewrite elem_in by (now rewrite D); now rewrite D).
    rewrite Eo. unfold F1, F2, choice, Array.aget. destruct (where_reads c R) as (b & u & v & -> & -> & -> & -> & Eu & Ev).
    cbn [Array.obind]. destruct (b =? 0)%Z; cbn [negb]; auto. }
  rewrite EF. cbn [Array.obind]. unfold from_shape_vec. unfold well_formed in W. rewrite W, D, Nat.eqb_refl. f_equal. rewrite <- D. now destruct out.
Qed.
End W.
Theorem where_constant_only {T} (cond : tensor Z) (x y out : tensor T) : where_constant cond x y = Some out ->
  broadcast3 (dims cond) (dims x) (dims y) (dims out).
Proof.
  unfold where_constant. destruct (where_shape _ _ _) as [r|] eqn:E; [|discriminate]. cbn [Array.obind]. apply where_shape_ok in E.
  destruct (where_indices _ _ _ _) as [idx|]; [|discriminate]. cbn [Array.obind]. destruct (Array.omap _ idx) as [m|]; [|discriminate].
  cbn [Array.obind]. destruct (Array.omap _ m) as [d|]; [|discriminate]. cbn [Array.obind]. unfold from_shape_vec.
  destruct (_ =? _); [|discriminate]. intros H. injection H as <-. exact E.
Qed.

Section R.
Local Open Scope Z_scope.
Variable p : Z.
Hypothesis Hprime : prime p.
Theorem where_runtime_ok (cond x y : tensor Z) B r : well_formed cond -> well_formed x -> well_formed y ->
  bounded B cond -> B < p -> broadcast3 (dims cond) (dims x) (dims y) r ->
  exists out, dims out = r /\ well_formed out /\ chosen cond x y out /\
    yields p (where_runtime p (encoded p cond) (encoded p x) (encoded p y)) (encoded p out).
Proof.
  intros Wc Wx Wy Bc HB Br. destruct (choice_tensor cond x y r Wc Wx Wy Br) as (out & D & W & C & V). exists out. split; [auto|]. split; [auto|]. split; [auto|].
  destruct (broadcast3_expands _ _ _ _ Br) as (X1 & X2 & X3). destruct (where_indices_ok r _ _ _ X1 X2 X3) as (idx & E & L & N).
  unfold where_runtime. cbn [dims encoded]. eapply yields_bind; [apply yields_lift, where_shape_ok; exact Br|].
  apply yields_bind with (a := map (enc p) (map (fun b => if b =? 0 then 0 else 1) (flat cond))).
  { apply yields_mapM2. cbn [flat encoded]. unfold bounded in Bc. induction Bc as [|v l Hv F IH]; constructor; auto. apply yields_nonzero; auto. lia. }
  eapply yields_bind; [apply yields_lift; exact E|].
  apply yields_bind with (a := map (enc p) (flat out)).
  - apply yields_mapM2. apply (Forall2_nth_intro _ (0, 0, 0)%nat 0).
    { rewrite map_length. unfold well_formed in W. now rewrite W, D. }
    intros i Hi. rewrite L in Hi. destruct (unravel_ok i r Hi) as (c & _ & R & <-).
    rewrite (nth_error_nth _ _ _ (N c R)). destruct (where_reads cond x y r Wc Wx Wy Br c R) as (b & u & v & Eb & Eu & Ev & Nb & Nu & Nv).
    specialize (V c R). unfold choice in V. rewrite Eb, Eu, Ev in V. rewrite elem_in in V by (now rewrite D). rewrite D in V.
    replace (if b =? 0 then Some v else Some u) with (Some (if b =? 0 then v else u)) in V by (destruct (b =? 0); reflexivity).
    erewrite (nth_error_nth (map _ _)) by (rewrite nth_error_map, V; reflexivity).
    eapply yields_bind; [apply yields_lift; rewrite map_map, nth_error_map, Nb; reflexivity|].
    eapply yields_bind; [apply yields_lift; cbn [flat encoded]; rewrite nth_error_map, Nu; reflexivity|].
    eapply yields_bind; [apply yields_lift; cbn [flat encoded]; rewrite nth_error_map, Nv; reflexivity|].
    rewrite enc_sub, enc_mul, enc_add. match goal with |- yields _ (Ret ?s) ?t => replace t with s; [apply yields_ret|] end.
    destruct (b =? 0); f_equal; lia.
  - apply yields_lift. unfold from_shape_vec. rewrite map_length. unfold well_formed in W. rewrite W, D, Nat.eqb_refl. unfold encoded. now rewrite D.
Qed.
Theorem where_runtime_rejected (cond x y : tensor Z) : (forall r, ~ broadcast3 (dims cond) (dims x) (dims y) r) ->
  rejected p (where_runtime p (encoded p cond) (encoded p x) (encoded p y)).
Proof.
  intros N. unfold where_runtime. cbn [dims encoded]. destruct (where_shape _ _ _) as [r|] eqn:E; [|apply rejected_lift].
  apply where_shape_ok in E. destruct (N _ E).
Qed.
End R.
