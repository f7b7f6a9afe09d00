(** Where, Equal, And, Not, Cast, Add and Sub. *)
From Coq Require Import ZArith List Bool Arith Znumtheory Lia.
From Verif Require Base.Array.
From Verif Require Import Spec.Numbers Spec.Shapes Spec.Tensors Spec.HonestProver Spec.Selection
  Model.Builder Model.Gadgets Model.Layers Model.Shapes Model.DataMovement Model.Selection
  Proofs.Builder Proofs.Gadgets Proofs.Layers Proofs.Shapes Proofs.Tensors Proofs.DataMovement Proofs.DataMovement5.
Import ListNotations.
Local Open Scope Z_scope.

(** *** Programs with one outcome *)
Section Y.
Variable p : Z.
Lemma yields_ret A (a : A) : yields p (Ret a) a.
Proof. split; [intros; cbn; split; congruence|reflexivity]. Qed.
Lemma yields_bind A B (m : prog A) (f : A -> prog B) a b : yields p m a -> yields p (f a) b -> yields p (bind m f) b.
Proof.
  intros (M1 & M2) (F1 & F2). split.
  - intros T o. rewrite accepts_bind. split.
    + intros (a' & Ha & Ho). apply M1 in Ha. subst. now apply F1 in Ho.
    + intros ->. exists a. split; [now apply M1|now apply F1].
  - intros inv G Tb I. rewrite run_bind, M2 by auto. now apply F2.
Qed.
Lemma yields_lift A (o : option A) a : o = Some a -> yields p (lift o) a.
Proof. intros ->. apply yields_ret. Qed.
Lemma yields_mapM A B (f : A -> prog B) (g : A -> B) l : (forall a, In a l -> yields p (f a) (g a)) -> yields p (mapM f l) (map g l).
Proof.
  induction l as [|a l IH]; intros H; [apply yields_ret|]. cbn [mapM map].
  eapply yields_bind; [apply H; now left|]. eapply yields_bind; [apply IH; intros; apply H; now right|]. apply yields_ret.
Qed.
Lemma yields_mapM2 A B (f : A -> prog B) l bs : Forall2 (fun a b => yields p (f a) b) l bs -> yields p (mapM f l) bs.
Proof.
  induction 1 as [|a b l bs H F IH]; [apply yields_ret|]. cbn [mapM].
  eapply yields_bind; [exact H|]. eapply yields_bind; [exact IH|]. apply yields_ret.
Qed.
Lemma rejected_lift A B (f : A -> prog B) : rejected p (bind (lift None) f).
Proof. intros T o H. exact H. Qed.
Lemma rejected_bind A B (m : prog A) (f : A -> prog B) : rejected p m -> rejected p (bind m f).
Proof. intros R T o H. apply accepts_bind in H as (a & Ha & _). exact (R _ _ Ha). Qed.
Lemma rejected_bind2 A B (m : prog A) (f : A -> prog B) a : yields p m a -> rejected p (f a) -> rejected p (bind m f).
Proof. intros Y R T o H. apply accepts_bind in H as (a' & Ha & Ho). apply Y in Ha. subst. exact (R _ _ Ho). Qed.
End Y.

Section S.
Variable p : Z.
Hypothesis Hprime : prime p.

Lemma p2 : 2 <= p. Proof. apply prime_ge_2; auto. Qed.

Lemma is_zero_acc_any T x m : 0 <= x < p -> accepts p T (is_zero p x) m <-> m = if x =? 0 then 1 else 0.
Proof.
  intros Hx. rewrite <- (is_zero_acc p Hprime 1 (le_n 1) (fun _ => []) x m Hx). unfold is_zero. cbn. reflexivity.
Qed.
Lemma yields_is_zero x : 0 <= x < p -> yields p (is_zero p x) (if x =? 0 then 1 else 0).
Proof.
  intros Hx. pose proof p2 as P2. split; [intros; now apply is_zero_acc_any|].
  intros inv G Tb (I0 & I). unfold is_zero. rewrite run_bind. unfold hint1. cbn [run honest_div length Nat.eqb hd].
  unfold const. rewrite (Z.mod_small 1) by lia. rewrite Z.mul_1_l. rewrite run_bind. cbn [run assert_zero].
  destruct (Z.eqb_spec x 0) as [->|N].
  - assert (M : forall b, mul p 0 b = 0) by (intros; unfold mul; now rewrite Z.mul_0_l, Zmod_0_l).
    rewrite !M. cbn [Z.eqb]. unfold sub. rewrite Z.sub_0_r. now rewrite Z.mod_small by lia.
  - destruct (I x ltac:(lia)) as (R & E). assert (E1 : mul p x (inv x mod p) = 1).
    { unfold mul. rewrite Zmult_mod_idemp_r. exact E. }
    rewrite E1. unfold sub. rewrite Z.sub_diag, Zmod_0_l. unfold mul. rewrite Z.mul_0_r, Zmod_0_l. reflexivity.
Qed.
Lemma enc_range z : 0 <= enc p z < p.
Proof. pose proof p2. unfold enc. apply Z.mod_pos_bound. lia. Qed.
Lemma enc_zero z : Z.abs z < p -> enc p z = 0 <-> z = 0.
Proof.
  intros H. unfold enc. split.
  - intros E. apply Z.mod_divide in E as (k & E); [|lia]. assert (k = 0) by nia. lia.
  - intros ->. apply Zmod_0_l.
Qed.
Lemma eqb_enc z : Z.abs z < p -> (enc p z =? 0) = (z =? 0).
Proof. intros H. pose proof (enc_zero z H). destruct (Z.eqb_spec (enc p z) 0), (Z.eqb_spec z 0); tauto || lia. Qed.
Lemma enc_add a b : add p (enc p a) (enc p b) = enc p (a + b).
Proof. unfold add, enc. symmetry. apply Zplus_mod. Qed.
Lemma enc_sub a b : sub p (enc p a) (enc p b) = enc p (a - b).
Proof. unfold sub, enc. symmetry. apply Zminus_mod. Qed.
Lemma enc_mul a b : mul p (enc p a) (enc p b) = enc p (a * b).
Proof. unfold mul, enc. symmetry. apply Zmult_mod. Qed.
Lemma enc_1 : enc p 1 = 1. Proof. pose proof p2. unfold enc. apply Z.mod_small. lia. Qed.
Lemma enc_0 : enc p 0 = 0. Proof. unfold enc. apply Zmod_0_l. Qed.

Lemma yields_nonzero z : Z.abs z < p -> yields p (nonzero p (enc p z)) (enc p (if z =? 0 then 0 else 1)).
Proof.
  intros H. unfold nonzero. eapply yields_bind; [apply yields_is_zero, enc_range|]. rewrite eqb_enc by auto.
  replace (enc p (if z =? 0 then 0 else 1)) with (sub p (const p 1) (if z =? 0 then 1 else 0)); [apply yields_ret|].
  change (const p) with (enc p). replace (if z =? 0 then 1 else 0) with (enc p (if z =? 0 then 1 else 0)).
  - rewrite enc_sub. f_equal. destruct (z =? 0); reflexivity.
  - destruct (z =? 0); [apply enc_1|apply enc_0].
Qed.

(** *** Encoded tensors *)
Lemma encoded_wf t : well_formed t -> well_formed (encoded p t).
Proof. unfold well_formed, encoded. cbn [dims flat]. now rewrite map_length. Qed.
Lemma encoded_elem t c : elem (encoded p t) c = option_map (enc p) (elem t c).
Proof. unfold elem. cbn [dims flat encoded]. destruct (in_rangeb _ _); auto. apply nth_error_map. Qed.
Lemma elem_In {A} (t : tensor A) c v : elem t c = Some v -> In v (flat t).
Proof. unfold elem. destruct (in_rangeb _ _); [|discriminate]. apply nth_error_In. Qed.

(** *** Element-wise functions of two broadcast arrays *)
Lemma combine_elem (a b : tensor Z) c : dims a = dims b -> in_range c (dims a) ->
  nth_error (combine (flat a) (flat b)) (row_major c (dims a)) =
  match elem a c, elem b c with Some u, Some v => Some (u, v) | _, _ => None end.
Proof.
  intros D R. rewrite (elem_in a) by auto. rewrite (elem_in b) by (now rewrite <- D). rewrite <- D.
  generalize (row_major c (dims a)). generalize (flat b). induction (flat a) as [|u l IH]; intros [|v m] [|i]; cbn; auto.
  - now destruct (nth_error l i).
Qed.
Lemma elementwise_yields (f : Z -> Z -> prog Z) (g : Z -> Z -> Z) (a b : tensor Z) :
  well_formed a -> well_formed b -> Forall (lt 0) (dims a) -> Forall (lt 0) (dims b) ->
  (forall u v, In u (flat a) -> In v (flat b) -> yields p (f (enc p u) (enc p v)) (enc p (g u v))) ->
  forall r, broadcasts_to (dims a) (dims b) r ->
  exists out, dims out = r /\ well_formed out /\ pointwise2 g a b out /\ yields p (elementwise f (encoded p a) (encoded p b)) (encoded p out).
Proof.
  intros Wa Wb Pa Pb Y r B.
  pose proof (proj2 (broadcast_shape_ok _ _ r Pa Pb) B) as Er. destruct (broadcast_shape_expands _ _ _ Pa Pb Er) as (Xa & Xb).
  destruct (broadcast_array_result (encoded p a) r (encoded_wf _ Wa) Xa) as (ya & Ea & Wya & Da & (_ & Va)).
  destruct (broadcast_array_result (encoded p b) r (encoded_wf _ Wb) Xb) as (yb & Eb & Wyb & Db & (_ & Vb)).
  rewrite Da in Va. rewrite Db in Vb.
  assert (H : forall c, in_range c r -> exists u v, elem a (read_coords c (dims a)) = Some u /\ elem b (read_coords c (dims b)) = Some v).
  { intros c R. destruct (broadcast_index_ok _ _ _ R Xa) as (Ra & _). destruct (broadcast_index_ok _ _ _ R Xb) as (Rb & _).
    destruct (elem_exists a _ Wa Ra) as (u & Eu). destruct (elem_exists b _ Wb Rb) as (v & Ev). eauto. }
  destruct (tabulate_ok (fun k => match unravel k r with
     | Some c => match elem a (read_coords c (dims a)), elem b (read_coords c (dims b)) with Some u, Some v => Some (g u v) | _, _ => None end
     | None => None end) r (fun c =>
     match elem a (read_coords c (dims a)), elem b (read_coords c (dims b)) with Some u, Some v => Some (g u v) | _, _ => None end)) as (m & Em & Lm & Vm).
  { intros c R. rewrite unravel_row_major by auto. destruct (H c R) as (u & v & -> & ->). split; [auto|discriminate]. }
  exists {| dims := r; flat := m |}. split; [reflexivity|]. split; [exact Lm|]. split.
  - split; [exact B|]. cbn [dims]. intros c R. rewrite Vm by auto. destruct (H c R) as (u & v & -> & ->). eauto.
  - unfold elementwise, broadcast_two_arrays. eapply yields_bind.
    { eapply yields_bind; [apply yields_lift; exact Er|]. eapply yields_bind; [apply yields_lift; exact Ea|].
      eapply yields_bind; [apply yields_lift; exact Eb|]. apply yields_ret. }
    cbn [fst snd]. apply yields_bind with (a := map (enc p) m).
    + apply yields_mapM2. apply (Forall2_nth_intro _ (0, 0) 0).
      { rewrite combine_length, map_length. unfold well_formed in *. rewrite Wya, Wyb, Da, Db. lia. }
      intros i Hi. rewrite combine_length in Hi. unfold well_formed in Wya, Wyb. rewrite Wya, Wyb, Da, Db in Hi.
      destruct (unravel_ok i r ltac:(lia)) as (c & _ & R & <-). destruct (H c R) as (u & v & Eu & Ev).
      erewrite (nth_error_nth (combine _ _)).
      2:{ rewrite <- Da, combine_elem by (congruence || now rewrite Da). rewrite Va, Vb by auto.
          change (dims (encoded p a)) with (dims a). change (dims (encoded p b)) with (dims b).
          rewrite !encoded_elem, Eu, Ev. cbn [option_map]. reflexivity. }
      erewrite (nth_error_nth (map _ _)).
      2:{ rewrite nth_error_map. specialize (Vm c R). rewrite elem_in in Vm by exact R. cbn [dims flat] in Vm. rewrite Vm, Eu, Ev.
          cbn [option_map]. reflexivity. }
      apply Y; [now apply (elem_In a _ _ Eu)|now apply (elem_In b _ _ Ev)].
    + apply yields_lift. unfold from_shape_vec. rewrite map_length, Lm, Da, Nat.eqb_refl. reflexivity.
Qed.
Lemma elementwise_rejected f (a b : tensor Z) : Forall (lt 0) (dims a) -> Forall (lt 0) (dims b) ->
  (forall r, ~ broadcasts_to (dims a) (dims b) r) -> rejected p (elementwise f (encoded p a) (encoded p b)).
Proof.
  intros Pa Pb N. unfold elementwise, broadcast_two_arrays. apply rejected_bind.
  destruct (determine_broadcast_shape _ _) as [r|] eqn:E; [|apply rejected_lift].
  apply broadcast_shape_ok in E; auto. destruct (N _ E).
Qed.

Lemma bounded_In B t v : bounded B t -> In v (flat t) -> Z.abs v <= B.
Proof. intros H. unfold bounded in H. rewrite Forall_forall in H. auto. Qed.

Lemma equal_element u v : Z.abs (u - v) < p -> yields p (is_zero p (sub p (enc p u) (enc p v))) (enc p (if u =? v then 1 else 0)).
Proof.
  intros H. rewrite enc_sub. replace (enc p (if u =? v then 1 else 0)) with (if enc p (u - v) =? 0 then 1 else 0); [apply yields_is_zero, enc_range|].
  rewrite eqb_enc by auto. destruct (Z.eqb_spec (u - v) 0), (Z.eqb_spec u v); try lia; symmetry; apply enc_1 || apply enc_0.
Qed.
Lemma cast_bool_yields (x : tensor Z) B : well_formed x -> bounded B x -> B < p ->
  exists out, well_formed out /\ pointwise (fun v => if v =? 0 then 0 else 1) x out /\ yields p (cast_layer p 9 (encoded p x)) (encoded p out).
Proof.
  intros W Bx HB. exists {| dims := dims x; flat := map (fun v => if v =? 0 then 0 else 1) (flat x) |}.
  split; [unfold well_formed in *; cbn [dims flat]; now rewrite map_length|]. split.
  - split; [reflexivity|]. cbn [dims]. intros c R. rewrite !elem_in by auto. cbn [dims flat]. apply nth_error_map.
  - unfold cast_layer. cbn [supported_cast existsb orb negb Z.eqb Pos.eqb].
    apply yields_bind with (a := map (fun v => if v =? 0 then 1 else 0) (flat x)).
    + apply yields_mapM2. cbn [flat encoded]. unfold bounded in Bx. induction Bx as [|v l Hv F IH]; constructor; auto.
      rewrite <- (eqb_enc v) by lia. apply yields_is_zero, enc_range.
    + apply yields_lift. unfold from_shape_vec. cbn [dims encoded]. rewrite !map_length. unfold well_formed in W. rewrite W, Nat.eqb_refl.
      unfold encoded. cbn [dims flat]. rewrite !map_map. f_equal. f_equal. apply map_ext. intros v. change (const p) with (enc p).
      replace (if v =? 0 then 1 else 0) with (enc p (if v =? 0 then 1 else 0)) by (destruct (v =? 0); [apply enc_1|apply enc_0]).
      rewrite enc_sub. f_equal. destruct (v =? 0); reflexivity.
Qed.
Lemma not_yields (x : tensor Z) : well_formed x -> boolean x ->
  exists out, well_formed out /\ pointwise (fun v => 1 - v) x out /\ yields p (not_layer p (encoded p x)) (encoded p out).
Proof.
  intros W Bx. exists {| dims := dims x; flat := map (fun v => 1 - v) (flat x) |}.
  split; [unfold well_formed in *; cbn [dims flat]; now rewrite map_length|]. split.
  - split; [reflexivity|]. cbn [dims]. intros c R. rewrite !elem_in by auto. cbn [dims flat]. apply nth_error_map.
  - unfold not_layer. apply yields_bind with (a := map (enc p) (map (fun v => 1 - v) (flat x))).
    + apply yields_mapM2. cbn [flat encoded]. unfold boolean in Bx. induction Bx as [|v l Hv F IH]; constructor; auto.
      apply yields_bind with (a := tt).
      * assert (E : mul p (enc p v) (sub p (enc p v) 1) = 0).
        { rewrite <- enc_1. rewrite enc_sub, enc_mul. destruct Hv as [->| ->]; apply enc_0. }
        split; [intros T []; rewrite accepts_assert_bool by auto using enc_range; split; auto; intros _|].
        -- destruct Hv as [->| ->]; [left; apply enc_0|right; apply enc_1].
        -- intros inv G Tb _. cbn. rewrite E. reflexivity.
      * change (const p) with (enc p). rewrite enc_sub. apply yields_ret.
    + apply yields_lift. unfold from_shape_vec. cbn [dims encoded]. rewrite !map_length. unfold well_formed in W. rewrite W, Nat.eqb_refl. reflexivity.
Qed.
Lemma not_rejected (x : tensor Z) B : bounded B x -> B + 1 < p -> ~ boolean x -> rejected p (not_layer p (encoded p x)).
Proof.
  intros Bx HB N T o H. unfold not_layer in H. apply accepts_bind in H as (l & H & _). apply accepts_mapM in H. cbn [flat encoded] in H.
  apply N. unfold boolean, bounded in *. clear o N. revert l H. induction Bx as [|v r Hv F IH]; intros l H; [constructor|].
  cbn [map] in H. inversion H; subst. constructor; eauto.
  match goal with E : accepts _ _ _ _ |- _ => apply accepts_bind in E as ([] & E & _); apply accepts_assert_bool in E; auto using enc_range end.
  destruct H2 as [E|E].
  - left. apply (proj1 (enc_zero v ltac:(lia)) E).
  - right. assert (E1 : enc p (v - 1) = 0). { rewrite <- enc_sub, E, enc_1. unfold sub. now rewrite Z.sub_diag, Zmod_0_l. }
    pose proof (proj1 (enc_zero (v - 1) ltac:(lia)) E1). lia.
Qed.
End S.
