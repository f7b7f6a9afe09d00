(** Max, Min and Div: counterexamples and refusals *)
From Coq Require Import List Arith Bool ZArith Znumtheory Lia QArith String.
From Verif Require Base.Array.
From Verif Require Import Spec.Numbers Spec.Shapes Spec.Tensors Spec.HonestProver Spec.Selection Spec.Conv Spec.Elementwise
  Model.Builder Model.Gadgets Model.Layers Model.Shapes Model.DataMovement Model.Selection Model.Elementwise
  Proofs.Builder Proofs.RangeCheck Proofs.Gadgets Proofs.Layers Proofs.Shapes Proofs.ArithmeticProps Proofs.Tensors
  Proofs.DataMovement Proofs.DataMovement5 Proofs.Selection Proofs.SelectionProps Proofs.ConvLayer Proofs.Elementwise.
From Verif Require Model.Constants.
Import ListNotations.
Local Open Scope Z_scope.

Definition one (v : Z) : tensor Z := {| dims := [1%nat]; flat := [v] |}.
Lemma one_operands u v : operands (one u) (one v).
Proof. repeat split; repeat constructor. Qed.
Lemma one_pointwise g u v : pointwise2 g (one u) (one v) (one (g u v)).
Proof.
  split. { split; [reflexivity|]. intros i Hi. cbn in Hi. destruct i; [|lia]. left. split; reflexivity. }
  intros c R. inversion R as [|x d c' ds L N]; subst. inversion N; subst. assert (x = 0%nat) by lia. subst. exists u, v. repeat split; reflexivity.
Qed.
Lemma enc_0_neq_m1 p : 1 < p -> enc p 0 <> enc p (-1).
Proof. intros H E. unfold enc in E. rewrite Zmod_0_l in E. rewrite <- (Z.mod_add (-1) 1 p), Z.mul_1_l, Z.mod_small in E by lia. lia. Qed.

Section C.
Variables (p : Z) (c : nat) (F : nat -> list (list Z)) (s : nat).
Hypothesis Hp : prime p.
Hypothesis Hc : (0 < c)%nat.
Hypothesis Hs : (s < 64)%nat.
Hypothesis Ws : width_ok c (s + 1).
Hypothesis Big : 2 * 2 ^ Z.of_nat (s + 1) <= p.
Hypothesis M : ((s + 1) mod c = 0)%nat.
Lemma third_operand_ignored is_max : exists l y out, folded (extremum is_max) l y /\ Forall (fun a => Forall (signed_fits s) (flat a)) l /\
  (forall o, accepts p (table_rows c F) (compare_layer p c is_max (s + 1) (map (encoded p) l)) o <-> o = out) /\ out <> encoded p y.
Proof.
  set (u := if is_max then -1 else 0). set (v := if is_max then 0 else -1).
  assert (Eu : extremum is_max u u = u) by (destruct is_max; reflexivity). assert (Ev : extremum is_max u v = v) by (destruct is_max; reflexivity).
  assert (Fu : signed_fits s u /\ signed_fits s v).
  { unfold signed_fits. assert (0 < 2 ^ Z.of_nat s) by (apply Z.pow_pos_nonneg; lia). destruct is_max; subst u v; lia. }
  exists [one u; one u; one v], (one v), (encoded p (one u)). split; [|split; [|split]].
  - apply (folded_more _ _ _ (one u)); [reflexivity|rewrite <- Eu at 3; apply one_pointwise|].
    apply (folded_more _ _ _ (one v)); [reflexivity|rewrite <- Ev at 2; apply one_pointwise|]. constructor.
  - repeat constructor; apply Fu.
  - intros o. apply (compare_exact p c F s Hp Hc Hs is_max (one u) (one u) [encoded p (one v)] (one u) o); auto.
    + apply one_operands.
    + repeat constructor; apply Fu.
    + repeat constructor; apply Fu.
    + reflexivity.
    + rewrite <- Eu at 3. apply one_pointwise.
  - pose proof (prime_ge_2 _ Hp). pose proof (enc_0_neq_m1 p ltac:(lia)) as N.
    intros E. unfold encoded, one in E. cbn [dims flat map] in E. injection E as E. destruct is_max; subst u v; congruence.
Qed.
End C.

(** *** Shape inference of Max and Min *)
Definition row2 : tensor Z := {| dims := [2%nat]; flat := [1; 2] |}.
Lemma compare_shape_wrong : exists a b y, operands a b /\ well_formed y /\ pointwise2 Z.max a b y /\ infer_compare [dims a; dims b] <> Some (dims y).
Proof.
  exists (one 0), row2, row2. split; [repeat split; repeat constructor|]. split; [reflexivity|]. split; [|discriminate].
  split. { split; [reflexivity|]. intros i Hi. cbn in Hi. assert (i = 0%nat) as -> by lia. right. left. split; reflexivity. }
  intros q R. inversion R as [|x d c' ds L N]; subst. inversion N; subst. exists 0. destruct x as [|[|x]]; [exists 1|exists 2|lia]; repeat split; reflexivity.
Qed.
Lemma compare_shape_right g a b y : broadcasts_to (dims a) (dims b) (dims a) -> pointwise2 g a b y -> infer_compare [dims a; dims b] = Some (dims y).
Proof.
  intros B (B' & _). apply broadcast_shapes_ok in B. apply broadcast_shapes_ok in B'. cbn. congruence.
Qed.

(** *** Div *)
Lemma div_no_constant p c k n_bits a : rejected p (div_layer p c k n_bits a None).
Proof. intros T o H. exact H. Qed.
Lemma positive_broadcast a b r : Forall (lt 0%nat) a -> Forall (lt 0%nat) b -> broadcasts_to a b r -> Forall (lt 0%nat) r.
Proof.
  intros Pa Pb (L & H). rewrite <- (rev_involutive r). apply Forall_rev. apply Forall_forall. intros d I.
  apply (In_nth _ _ 1%nat) in I as (i & Hi & <-). rewrite rev_length in Hi. specialize (H i Hi). unfold dim_from_right in H.
  assert (P : forall l, Forall (lt 0%nat) l -> (0 < nth i (rev l) 1)%nat).
  { intros l Q. destruct (Nat.lt_ge_cases i (List.length (rev l))) as [Hl|Hl]; [|rewrite nth_overflow by auto; lia].
    apply Forall_rev in Q. rewrite Forall_forall in Q. apply Q. now apply nth_In. }
  pose proof (P a Pa). pose proof (P b Pb). destruct H as [(? & ->)|[(? & ->)|(? & ->)]]; auto.
Qed.
Lemma broadcast_reaches (b yb : tensor Z) r : well_formed b -> expands_to (dims b) r -> Forall (lt 0%nat) r ->
  broadcast_array b r = Some yb -> forall d, In d (flat b) -> In d (flat yb).
Proof.
  intros Wb X Pr E d I. destruct (broadcast_array_result b r Wb X) as (y & E' & _ & D & (_ & V)). rewrite E in E'. injection E' as <-.
  apply In_nth_error in I as (i & Ei). assert (Hi : (i < prod (dims b))%nat).
  { unfold well_formed in Wb. rewrite <- Wb. apply nth_error_Some. congruence. }
  destruct (unravel_ok i (dims b) Hi) as (cb & _ & R & Q). destruct X as (L & X).
  set (k := (List.length r - List.length (dims b))%nat) in *. set (q := repeat 0%nat k ++ cb).
  pose proof (in_range_length _ _ R) as Lc.
  assert (Rq : in_range q r).
  { rewrite <- (firstn_skipn k r). apply Forall2_app.
    - assert (Lk : List.length (firstn k r) = k) by (rewrite firstn_length; lia). assert (Pk : Forall (lt 0%nat) (firstn k r)).
      { rewrite Forall_forall in *. intros x J. apply Pr. rewrite <- (firstn_skipn k r). apply in_or_app. now left. }
      clear - Lk Pk. revert Lk Pk. generalize (firstn k r) as l. induction k as [|k IH]; intros [|x l] Lk Pk; try discriminate; constructor; [now inversion Pk|].
      apply IH; [cbn in Lk; lia|now inversion Pk].
    - assert (Pk : Forall (lt 0%nat) (skipn k r)).
      { rewrite Forall_forall in *. intros x J. apply Pr. rewrite <- (firstn_skipn k r). apply in_or_app. now right. }
      clear - R X Pk. revert R X Pk. generalize (skipn k r) as l. generalize (dims b) as m.
      induction cb as [|x cb IH]; intros m l R X Pk; inversion R; subst; inversion X; subst; inversion Pk; subst; constructor.
      + lia.
      + eapply IH; eauto. }
  rewrite D in V. specialize (V q Rq). assert (read_coords q (dims b) = cb) as RC.
  { unfold read_coords, q. rewrite app_length, repeat_length. replace (k + List.length cb - List.length (dims b))%nat with k by lia.
    rewrite skipn_app, skipn_all2, repeat_length, Nat.sub_diag by (rewrite repeat_length; lia). cbn [app skipn].
    pose proof (read_same cb (dims b) R) as RS. unfold read_coords in RS. rewrite Lc, Nat.sub_diag in RS. exact RS. }
  rewrite RC in V. rewrite (elem_in b) in V by exact R. rewrite Q, Ei in V. exact (elem_In _ _ _ V).
Qed.
Lemma div_bad_divisor p c k n_bits a b d : operands a b -> In d (flat b) -> ~ 1 <= d < 2 ^ 32 -> rejected p (div_layer p c k n_bits (encoded p a) (Some b)).
Proof.
  intros (Wa & Wb & Pa & Pb) I N T o H. unfold div_layer in H. cbn [lift bind encoded dims] in H. fold (encoded p a) in H.
  destruct (broadcast_shapes (dims a) (dims b)) as [r|] eqn:Er; [|exact H]. cbn [lift bind] in H.
  destruct (broadcast_array (encoded p a) r) as [ya|] eqn:Ea; [|exact H]. cbn [lift bind] in H.
  destruct (broadcast_array b r) as [yb|] eqn:Eb; [|exact H]. cbn [lift bind] in H.
  apply broadcast_shapes_ok in Er. pose proof (positive_broadcast _ _ _ Pa Pb Er) as Pr.
  pose proof (proj2 (broadcast_shape_ok _ _ r Pa Pb) Er) as Er'. destruct (broadcast_shape_expands _ _ _ Pa Pb Er') as (_ & Xb).
  pose proof (broadcast_reaches b yb r Wb Xb Pr Eb d I) as J. unfold validate_divisors in H.
  destruct (forallb _ (flat yb)) eqn:G; [|exact H]. rewrite forallb_forall in G. specialize (G d J). apply andb_true_iff in G as (G1 & G2).
  apply Z.leb_le in G1. apply Z.leb_le in G2. lia.
Qed.
(** Division by 5/2 divides by 2. *)
Definition div_by (v : Q) : Constants.layer_node :=
  {| Constants.op_type := Constants.Op "Div"; Constants.inputs := ["x"%string; "d"%string];
     Constants.weights := [("d"%string, {| Constants.float_data := [v]; Constants.int_data := [] |})] |}.
Lemma div_truncated alpha : Constants.circuit_constant alpha [div_by (5 # 2)] "d" = Some [2].
Proof. vm_compute. reflexivity. Qed.
Lemma div_fractional p c F k s alpha : prime p -> (0 < c)%nat -> (k < 32)%nat -> (3 <= s < 64)%nat -> width_ok c 1 -> width_ok c (s + 1) ->
  2 * 2 ^ Z.of_nat (rounded c (s + 1)) + 2 * 2 ^ Z.of_nat (rounded c 1) <= p ->
  exists d, Constants.circuit_constant alpha [div_by (5 # 2)] "d" = Some [d] /\
    run honest_hint (table_rowsb c F) (div_layer p c k (s + 1) (encoded p (one 10)) (Some (one d))) = Some (encoded p (one 5)).
Proof.
  intros Hp Hc Hk Hs W1 Ws Big. exists 2. split; [apply div_truncated|].
  apply (div_run p c F s Hp Hc ltac:(lia) k (one 10) (one 2) (one 5) Hk Ws (one_operands _ _)); [reflexivity|apply (one_pointwise Z.div 10 2)| |].
  - intros x d [<-|[]] [<-|[]]. split; [lia|]. right. split; [exact Big|].
    assert (2 ^ 3 <= 2 ^ Z.of_nat s) by (apply Z.pow_le_mono_r; lia). lia.
  - intros d [<-|[]]. right. exact W1.
Qed.
(** At the default widths a wrong quotient is accepted. *)
Lemma div_default : accepts bn254_r (table_rows 12 (fun _ => [])) (div_layer bn254_r 12 18 64 (encoded bn254_r (one 0)) (Some (one 2))) (encoded bn254_r (one 2047)).
Proof.
  destruct (div_unfold bn254_r 12 63 ltac:(lia) ltac:(lia) 18%nat (one 0) (one 2) (one 0) ltac:(lia) (one_operands _ _) eq_refl (one_pointwise Z.div 0 2)) as (l & I & V & E).
  { intros u d _ [<-|[]]. lia. }
  destruct l as [|(u, d) [|? l]]; try discriminate V. destruct (I u d (or_introl eq_refl)) as ([<-|[]] & [<-|[]]).
  change 64%nat with (63 + 1)%nat. rewrite E. apply accepts_bind. exists [enc bn254_r 2047]. split; [|reflexivity].
  apply accepts_mapM. constructor; [|constructor]. cbn [fst snd]. unfold quotient. change (2 =? 1) with false. cbv iota.
  rewrite (Z.mul_comm (pow2 63) 2). apply (division_pow2_values bn254_r 12 (fun _ => []) 1 63 0 (enc bn254_r 2047)).
  - exact bn254_prime.
  - lia.
  - split; [lia|discriminate].
  - split; [lia|discriminate].
  - vm_compute. discriminate.
  - split; reflexivity || (vm_compute; discriminate).
  - exists 2047. split; [split; [discriminate|reflexivity]|]. split; reflexivity.
Qed.

(** *** Mul, BatchNormalization and Neg *)
Lemma mul_rejects p c k n_bits is_rescale is_relu a b : Forall (lt 0%nat) (dims a) -> Forall (lt 0%nat) (dims b) ->
  (forall r, ~ broadcasts_to (dims a) (dims b) r) -> rejected p (mul_layer p c is_rescale is_relu k n_bits (encoded p a) (encoded p b)).
Proof. intros Pa Pb N. apply rejected_bind. now apply elementwise_rejected. Qed.
Lemma reshape_refuses p n ch rest (v x : tensor Z) : dims x = n :: ch :: rest ->
  (List.length (dims v) <> 1 \/ List.length (flat v) <> ch)%nat -> rejected p (reshape_channel_vector v x).
Proof.
  intros D H T o A. unfold reshape_channel_vector in A. rewrite D in A. destruct (Nat.eqb_spec (List.length (dims v)) 1); [|exact A].
  cbn [negb] in A. destruct (Nat.eqb_spec ch (List.length (flat v))); [|exact A]. destruct H; congruence.
Qed.
Lemma batchnorm_refuses p c k n_bits is_rescale is_relu x w b n ch rest : dims x = n :: ch :: rest ->
  (List.length (dims w) <> 1 \/ List.length (flat w) <> ch \/ List.length (dims b) <> 1 \/ List.length (flat b) <> ch)%nat ->
  rejected p (batchnorm_layer p c is_rescale is_relu k n_bits x w b).
Proof.
  intros D H T o A. unfold batchnorm_layer in A. apply accepts_bind in A as (u & A1 & A). apply accepts_bind in A as (v & A2 & _).
  destruct H as [H|[H|[H|H]]].
  - apply (reshape_refuses p n ch rest w x D (or_introl H) T u A1).
  - apply (reshape_refuses p n ch rest w x D (or_intror H) T u A1).
  - apply (reshape_refuses p n ch rest b x D (or_introl H) T v A2).
  - apply (reshape_refuses p n ch rest b x D (or_intror H) T v A2).
Qed.
Lemma neg_yields p x y : well_formed x -> well_formed y -> pointwise Z.opp x y -> yields p (neg_layer p (encoded p x)) (encoded p y).
Proof. intros Wx Wy P. rewrite (neg_ok p x y Wx Wy P). apply yields_ret. Qed.
