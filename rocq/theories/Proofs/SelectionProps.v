From Coq Require Import ZArith List Bool Arith Znumtheory Lia.
From Verif Require Base.Array.
From Verif Require Import Spec.Numbers Spec.Shapes Spec.Tensors Spec.HonestProver Spec.Selection
  Model.Builder Model.Gadgets Model.Layers Model.Shapes Model.DataMovement Model.Selection
  Proofs.Builder Proofs.RangeCheck Proofs.Gadgets Proofs.Layers Proofs.Layers2 Proofs.HonestRun Proofs.Shapes Proofs.Tensors Proofs.DataMovement
  Proofs.DataMovement5 Proofs.DataMovement6 Proofs.Selection Proofs.Selection2 Proofs.Selection4 Proofs.Selection5.
From Verif Require Proofs.ActivationProps.
Import ListNotations.
Local Open Scope Z_scope.

(** Inverses exist in every field of prime order. *)
Lemma inverses_exist p : prime p -> exists inv, inverses p inv.
Proof.
  intros Hp. pose proof (prime_ge_2 _ Hp) as P2.
  set (inv := fun y => if y =? 0 then 0 else hd 0 (filter (fun v => (y * v) mod p =? 1) (map Z.of_nat (seq 0 (Z.to_nat p))))).
  exists inv. split; [reflexivity|]. intros y Hy. unfold inv. rewrite (proj2 (Z.eqb_neq y 0)) by lia.
  assert (R : rel_prime y p).
  { apply rel_prime_sym. apply prime_rel_prime; auto. intros (k & Hk). assert (k = 0) by nia. lia. }
  apply rel_prime_bezout in R as [u v B].
  assert (E : (y * (u mod p)) mod p = 1).
  { rewrite Zmult_mod_idemp_r. replace (y * u) with (1 + (- v) * p) by lia. rewrite Z_mod_plus_full. apply Z.mod_small. lia. }
  pose proof (Z.mod_pos_bound u p ltac:(lia)) as Hu.
  assert (I : In (u mod p) (filter (fun v => (y * v) mod p =? 1) (map Z.of_nat (seq 0 (Z.to_nat p))))).
  { apply filter_In. split; [|now apply Z.eqb_eq]. apply in_map_iff. exists (Z.to_nat (u mod p)). split; [lia|]. apply in_seq. lia. }
  destruct (filter _ _) as [|w r] eqn:Ef; [destruct I|]. cbn [hd].
  assert (Iw : In w (filter (fun v => (y * v) mod p =? 1) (map Z.of_nat (seq 0 (Z.to_nat p))))) by (rewrite Ef; now left).
  apply filter_In in Iw as (Iw & Ew). apply Z.eqb_eq in Ew. apply in_map_iff in Iw as (k & <- & Ik). apply in_seq in Ik. split; [lia|auto].
Qed.

(** *** Where *)
Lemma where_constant_holds T (cond : tensor Z) (x y : tensor T) : well_formed cond -> well_formed x -> well_formed y ->
  ((exists out, where_constant cond x y = Some out) <-> exists r, broadcast3 (dims cond) (dims x) (dims y) r) /\
  forall out, where_constant cond x y = Some out ->
    well_formed out /\ broadcast3 (dims cond) (dims x) (dims y) (dims out) /\ chosen cond x y out.
Proof.
  intros Wc Wx Wy. split.
  - split; [intros (out & E); eexists; exact (where_constant_only _ _ _ _ E)|].
    intros (r & B). destruct (where_constant_ok cond x y r Wc Wx Wy B) as (out & E & _). eauto.
  - intros out E. pose proof (where_constant_only _ _ _ _ E) as B. destruct (where_constant_ok cond x y _ Wc Wx Wy B) as (o & E' & D & W & C).
    rewrite E in E'. injection E' as <-. auto.
Qed.

(** *** Equal of constants *)
Lemma equal_constant_yields p (a b : tensor Z) r : well_formed a -> well_formed b -> broadcasts_to (dims a) (dims b) r ->
  exists out, dims out = r /\ well_formed out /\ pointwise2 (fun u v => if u =? v then 1 else 0) a b out /\ yields p (equal_constant p a b) (encoded p out).
Proof.
  intros Wa Wb B. pose proof (broadcasts_expands _ _ _ B) as Xa. pose proof (broadcasts_expands _ _ _ (broadcasts_sym _ _ _ B)) as Xb.
  destruct (broadcast_array_result a r Wa Xa) as (ya & Ea & Wya & Da & (_ & Va)).
  destruct (broadcast_array_result b r Wb Xb) as (yb & Eb & Wyb & Db & (_ & Vb)).
  rewrite Da in Va. rewrite Db in Vb. unfold well_formed in Wya, Wyb. rewrite Da in Wya. rewrite Db in Wyb.
  exists {| dims := r; flat := map (fun '(u, v) => if u =? v then 1 else 0) (combine (flat ya) (flat yb)) |}.
  split; [reflexivity|]. split; [unfold well_formed; cbn [dims flat]; rewrite map_length, combine_length; lia|]. split.
  - split; [exact B|]. cbn [dims]. intros c R. destruct (broadcast_index_ok _ _ _ R Xa) as (Ra & _). destruct (broadcast_index_ok _ _ _ R Xb) as (Rb & _).
    destruct (elem_exists a _ Wa Ra) as (u & Eu). destruct (elem_exists b _ Wb Rb) as (v & Ev). exists u, v. split; auto. split; auto.
    rewrite elem_in by auto. cbn [dims flat]. rewrite nth_error_map. rewrite <- Da. rewrite combine_elem; [|congruence|rewrite Da; exact R].
    rewrite Va, Vb, Eu, Ev by auto. reflexivity.
  - unfold equal_constant. eapply yields_bind; [apply yields_lift; exact (proj2 (broadcast_shapes_ok _ _ _) B)|].
    eapply yields_bind; [apply yields_lift; exact Ea|]. eapply yields_bind; [apply yields_lift; exact Eb|].
    apply yields_lift. unfold from_shape_vec. rewrite map_length, combine_length, Wya, Wyb, Nat.min_id, Nat.eqb_refl.
    unfold encoded. cbn [dims flat]. rewrite map_map. do 2 f_equal. apply map_ext. intros (u, v). destruct (u =? v); reflexivity.
Qed.

Section P.
Variable p : Z.
Hypothesis Hprime : prime p.
Lemma equal_runtime_holds (a b : tensor Z) A B r : well_formed a -> well_formed b -> Forall (lt 0) (dims a) -> Forall (lt 0) (dims b) ->
  bounded A a -> bounded B b -> A + B < p -> broadcasts_to (dims a) (dims b) r ->
  exists out, dims out = r /\ well_formed out /\ pointwise2 (fun u v => if u =? v then 1 else 0) a b out /\
    yields p (equal_runtime p (encoded p a) (encoded p b)) (encoded p out).
Proof.
  intros Wa Wb Pa Pb Ba Bb H Br. unfold equal_runtime. apply elementwise_yields; auto. intros u v Hu Hv. apply equal_element; auto.
  pose proof (bounded_In _ _ _ Ba Hu). pose proof (bounded_In _ _ _ Bb Hv). lia.
Qed.
Lemma arith_holds (op : Z -> Z -> Z -> Z) (g : Z -> Z -> Z) (a b : tensor Z) r : (forall u v, op p (enc p u) (enc p v) = enc p (g u v)) ->
  well_formed a -> well_formed b -> Forall (lt 0) (dims a) -> Forall (lt 0) (dims b) -> broadcasts_to (dims a) (dims b) r ->
  exists out, dims out = r /\ well_formed out /\ pointwise2 g a b out /\
    yields p (elementwise (fun u v => Ret (op p u v)) (encoded p a) (encoded p b)) (encoded p out).
Proof. intros E Wa Wb Pa Pb Br. apply elementwise_yields; auto. intros u v _ _. rewrite E. apply yields_ret. Qed.
Lemma and_holds (a b : tensor Z) r : well_formed a -> well_formed b -> Forall (lt 0) (dims a) -> Forall (lt 0) (dims b) ->
  boolean a -> boolean b -> broadcasts_to (dims a) (dims b) r ->
  exists out, dims out = r /\ well_formed out /\ boolean out /\ pointwise2 (fun u v => if (u =? 1) && (v =? 1) then 1 else 0) a b out /\
    yields p (and_layer p (encoded p a) (encoded p b)) (encoded p out).
Proof.
  intros Wa Wb Pa Pb Ba Bb Br.
  destruct (elementwise_yields p (fun u v => Ret (mul p u v)) (fun u v => if (u =? 1) && (v =? 1) then 1 else 0) a b Wa Wb Pa Pb) with (r := r)
    as (out & D & W & P2 & Y); auto.
  { intros u v Hu Hv. unfold boolean in *. rewrite Forall_forall in Ba, Bb. rewrite enc_mul by auto.
    destruct (Ba u Hu) as [->| ->], (Bb v Hv) as [->| ->]; apply yields_ret. }
  exists out. split; auto. split; auto. split; auto.
  apply Forall_forall. intros z Hz. apply In_nth_error in Hz as (i & Hi).
  destruct (in_seq_rm (flat out) (dims out) i z W Hi) as (c & R & <-). destruct P2 as (_ & P2). destruct (P2 c R) as (u & v & _ & _ & E).
  rewrite elem_in in E by auto. rewrite E in Hi. injection Hi as <-. destruct (_ && _); auto.
Qed.
(** *** Cast *)
Lemma cast_other_holds to (x : tensor Z) : to <> 9 -> In to [1; 2; 3; 4; 5; 6; 7; 10; 11; 12; 13; 16] -> yields p (cast_layer p to x) x.
Proof.
  intros N I. unfold cast_layer. replace (supported_cast to) with true; [|cbn in I; decompose [or] I; subst; reflexivity || contradiction].
  cbn [negb]. rewrite (proj2 (Z.eqb_neq _ _)) by auto. apply yields_ret.
Qed.
Lemma cast_unsupported to (x : tensor Z) : ~ In to [1; 2; 3; 4; 5; 6; 7; 9; 10; 11; 12; 13; 16] -> rejected p (cast_layer p to x).
Proof.
  intros N. unfold cast_layer. replace (supported_cast to) with false.
  - cbn [negb]. intros T o H. exact H.
  - symmetry. unfold supported_cast. apply not_true_iff_false. intros C. apply existsb_exists in C as (t & I & E). apply Z.eqb_eq in E. subst. auto.
Qed.
End P.
Lemma cast_int_fails kappa : (0 < kappa)%nat -> 2 * 2 ^ Z.of_nat kappa <= bn254_r ->
  ~ exists s, forall v T o, 0 <= v < 2 * 2 ^ Z.of_nat kappa ->
    accepts bn254_r T (cast_layer bn254_r 7 {| dims := [1%nat]; flat := [enc bn254_r v] |}) o ->
    o = {| dims := [1%nat]; flat := [enc bn254_r (s * (v / 2 ^ Z.of_nat kappa))] |}.
Proof.
  intros Hk Hb (s & H). set (K := 2 ^ Z.of_nat kappa) in *.
  assert (K2 : 2 <= K). { unfold K. replace (Z.of_nat kappa) with (1 + Z.of_nat (kappa - 1)) by lia. rewrite Z.pow_add_r by lia.
    pose proof (Z.pow_pos_nonneg 2 (Z.of_nat (kappa - 1)) ltac:(lia) ltac:(lia)). lia. }
  assert (E : forall v, 0 <= v < 2 * K -> v = enc bn254_r (s * (v / K))).
  { intros v Hv. specialize (H v (fun _ _ => True) _ Hv eq_refl). injection H as H. rewrite <- H. unfold enc. symmetry. apply Z.mod_small. lia. }
  pose proof (E K ltac:(lia)) as E1. pose proof (E (K + 1) ltac:(lia)) as E2. rewrite Z.div_same in E1 by lia.
  replace ((K + 1) / K) with 1 in E2; [lia|]. apply (Z.div_unique_pos _ _ _ 1); lia.
Qed.

(** *** GatherElements *)
Lemma ge_exact_holds p c F nb raw (idx x : tensor Z) o : prime p -> (0 < c)%nat -> width_ok c nb -> 2 ^ Z.of_nat (rounded c nb) <= p ->
  well_formed idx -> well_formed x -> valid_axis (Z.of_nat (length (dims x))) raw ->
  let axis := axis_position (Z.of_nat (length (dims x))) raw in
  gather_args axis idx x ->
  Forall (fun z => Z.abs z + Z.of_nat (axis_dim axis x) < p) (flat idx) ->
  Forall (fun z => 2 ^ Z.of_nat nb - p <= z < p + 2 ^ Z.of_nat nb - 2 ^ Z.of_nat (rounded c nb)) (flat x) ->
  accepts p (table_rows c F) (gather_elements_dynamic p c nb raw (encoded p idx) (encoded p x)) o <->
  Forall (valid_index (axis_dim axis x)) (flat idx) /\
  exists out, well_formed out /\ elements_gathered axis idx x out /\
    Forall (fun v => 2 ^ Z.of_nat nb - 2 ^ Z.of_nat (rounded c nb) <= v < 2 ^ Z.of_nat nb) (flat out) /\ o = encoded p out.
Proof.
  intros Hp Hc Hw Hr Wi Wx V axis (L & N & Le) Bi Bx. exact (ge_layer_acc p Hp c Hc F nb Hw Hr raw idx x Wx Wi V L N Le o Bi Bx).
Qed.
Lemma ge_run_holds p c F nb raw (idx x out : tensor Z) inv G : prime p -> (0 < c)%nat -> width_ok c nb -> 2 ^ Z.of_nat (rounded c nb) <= p ->
  well_formed idx -> well_formed x -> valid_axis (Z.of_nat (length (dims x))) raw ->
  let axis := axis_position (Z.of_nat (length (dims x))) raw in
  gather_args axis idx x -> 2 * Z.of_nat (axis_dim axis x) < p -> inverses p inv ->
  (forall ins, G 40%nat ins 1%nat = gather_elements_hint p ins 1) ->
  Forall (valid_index (axis_dim axis x)) (flat idx) -> well_formed out -> elements_gathered axis idx x out ->
  Forall (fun v => 0 <= v < 2 ^ Z.of_nat nb) (flat out) ->
  run (honest_div p inv G) (table_rowsb c F) (gather_elements_dynamic p c nb raw (encoded p idx) (encoded p x)) = Some (encoded p out).
Proof.
  intros Hp Hc Hw Hr Wi Wx V axis (L & N & Le) Hd Hi HG Va Wo Eo Ro.
  apply ge_layer_run; auto. eapply Forall_impl; [|exact Ro]. intros v Hv. apply rci_full; auto.
Qed.
Definition ge_complete (p : Z) (c : nat) (F : nat -> list (list Z)) : Prop := forall nb raw (idx x : tensor Z), width_ok c nb ->
  well_formed idx -> well_formed x -> valid_axis (Z.of_nat (length (dims x))) raw ->
  let axis := axis_position (Z.of_nat (length (dims x))) raw in
  gather_args axis idx x -> Forall (valid_index (axis_dim axis x)) (flat idx) -> bounded (2 ^ (Z.of_nat nb - 1) - 1) x ->
  exists o, accepts p (table_rows c F) (gather_elements_dynamic p c nb raw (encoded p idx) (encoded p x)) o.
Lemma bn254_prime : prime bn254_r.
Proof. exact (proj1 Verif.Proofs.ActivationProps.p80_applies). Qed.
Lemma ge_complete_fails F : ~ ge_complete bn254_r 12 F.
Proof.
  intros H. set (x := {| dims := [2%nat]; flat := [-1; 5] |}). set (i := {| dims := [1%nat]; flat := [0] |}).
  assert (Hw : width_ok 12 36) by (split; lia).
  assert (A : gather_args 0 i x). { split; [reflexivity|]. split; [discriminate|]. intros [|[|k]] Hk N; cbn in *; lia. }
  assert (V : Forall (valid_index (axis_dim 0 x)) (flat i)) by (repeat constructor; cbn; lia).
  assert (Va : valid_axis (Z.of_nat (length (dims x))) 0) by (unfold valid_axis; cbn; lia).
  assert (R : rounded 12 36 = 36%nat) by reflexivity.
  assert (Hr : 2 ^ Z.of_nat (rounded 12 36) <= bn254_r) by (rewrite R; unfold bn254_r; lia).
  assert (Bx : bounded (2 ^ (Z.of_nat 36 - 1) - 1) x) by (repeat constructor; cbn; lia).
  destruct (H 36%nat 0 i x Hw eq_refl eq_refl Va A V Bx) as (o & Ho).
  apply (ge_exact_holds bn254_r 12 F 36 0 i x o bn254_prime ltac:(lia) Hw Hr eq_refl eq_refl Va A) in Ho.
  - destruct Ho as (_ & out & Wo & (Do & Eo) & Ro & _). specialize (Eo [0%nat] 0 eq_refl).
    rewrite R in Ro. rewrite Forall_forall in Ro. assert (I : In (-1) (flat out)).
    { change (elem out [0%nat] = Some (-1)) in Eo. now apply (elem_In out _ _ Eo). }
    specialize (Ro _ I). lia.
  - repeat constructor.
  - rewrite R. unfold bn254_r. repeat constructor; cbn [flat x]; lia.
Qed.

(** *** Linear resize *)
Lemma linear_exact_holds p c F kappa nb xs ws o : prime p -> (0 < c)%nat -> width_ok c kappa -> width_ok c nb -> length ws = length xs ->
  Z.abs (dot xs ws) + 2 ^ Z.of_nat (rounded c nb) * 2 ^ Z.of_nat kappa + 2 ^ Z.of_nat kappa + 2 ^ Z.of_nat (rounded c kappa) < p ->
  accepts p (table_rows c F) (resize_linear_element p c kappa nb (map (enc p) xs) ws) o <->
  exists y, o = enc p y /\ 2 ^ Z.of_nat nb - 2 ^ Z.of_nat (rounded c nb) <= y < 2 ^ Z.of_nat nb /\
    let m := (dot xs ws + 2 ^ Z.of_nat kappa / 2) / 2 ^ Z.of_nat kappa in
    m <= y /\ (y - m) * 2 ^ Z.of_nat kappa <= (dot xs ws + 2 ^ Z.of_nat kappa / 2) mod 2 ^ Z.of_nat kappa + 2 ^ Z.of_nat (rounded c kappa) - 2 ^ Z.of_nat kappa.
Proof.
  intros Hp Hc Hk Hw L Hb. rewrite (linear_acc p Hp c Hc F kappa nb Hk Hw xs ws L Hb). split.
  - intros (y & R1 & R2 & E). exists y. split; auto. split; auto. apply (rem_lo c Hc kappa xs ws L) in R2. exact R2.
  - intros (y & E & R1 & R2). exists y. split; auto. split; auto. apply (rem_lo c Hc kappa xs ws L). exact R2.
Qed.
Lemma linear_whole_holds p c F kappa nb xs ws o : prime p -> (0 < c)%nat -> width_ok c kappa -> width_ok c nb -> length ws = length xs ->
  Z.abs (dot xs ws) + 2 ^ Z.of_nat (rounded c nb) * 2 ^ Z.of_nat kappa + 2 ^ Z.of_nat kappa + 2 ^ Z.of_nat (rounded c kappa) < p ->
  (kappa mod c = 0)%nat ->
  accepts p (table_rows c F) (resize_linear_element p c kappa nb (map (enc p) xs) ws) o ->
  o = enc p ((dot xs ws + 2 ^ Z.of_nat kappa / 2) / 2 ^ Z.of_nat kappa).
Proof.
  intros Hp Hc Hk Hw L Hb Hm H. apply linear_exact_holds in H; auto. destruct H as (y & -> & _ & H1 & H2). f_equal.
  rewrite (rounded_exact c kappa Hm) in H2. pose proof (Z.pow_pos_nonneg 2 (Z.of_nat kappa) ltac:(lia) ltac:(lia)) as P.
  set (K := 2 ^ Z.of_nat kappa) in *. set (m := (dot xs ws + K / 2) / K) in *.
  pose proof (Z.mod_pos_bound (dot xs ws + K / 2) K P). assert (~ 1 <= y - m) by (intros C; nia). lia.
Qed.
Lemma linear_bound_holds p c F kappa nb xs ws o : prime p -> (0 < c)%nat -> width_ok c kappa -> width_ok c nb -> length ws = length xs ->
  Z.abs (dot xs ws) + 2 ^ Z.of_nat (rounded c nb) * 2 ^ Z.of_nat kappa + 2 ^ Z.of_nat kappa + 2 ^ Z.of_nat (rounded c kappa) < p ->
  accepts p (table_rows c F) (resize_linear_element p c kappa nb (map (enc p) xs) ws) o ->
  exists y, o = enc p y /\ let m := (dot xs ws + 2 ^ Z.of_nat kappa / 2) / 2 ^ Z.of_nat kappa in
    m <= y <= m + 2 ^ (Z.of_nat (rounded c kappa) - Z.of_nat kappa) - 1.
Proof.
  intros Hp Hc Hk Hw L Hb H. apply linear_exact_holds in H; auto. destruct H as (y & -> & _ & H1 & H2). exists y. split; auto. cbv zeta. split; auto.
  pose proof (rounded_ge c kappa) as G. pose proof (Z.pow_pos_nonneg 2 (Z.of_nat kappa) ltac:(lia) ltac:(lia)) as P.
  set (K := 2 ^ Z.of_nat kappa) in *. replace (Z.of_nat (rounded c kappa)) with (Z.of_nat kappa + (Z.of_nat (rounded c kappa) - Z.of_nat kappa)) in H2 by lia.
  rewrite Z.pow_add_r in H2 by lia. fold K in H2. set (D := 2 ^ (Z.of_nat (rounded c kappa) - Z.of_nat kappa)) in *.
  set (m := (dot xs ws + K / 2) / K) in *. pose proof (Z.mod_pos_bound (dot xs ws + K / 2) K P).
  assert (~ D <= y - m) by (intros C; nia). lia.
Qed.
Lemma linear_run_holds p c F kappa nb xs ws inv G : prime p -> (0 < c)%nat -> width_ok c kappa -> width_ok c nb -> length ws = length xs ->
  Z.abs (dot xs ws) + 2 ^ Z.of_nat (rounded c nb) * 2 ^ Z.of_nat kappa + 2 ^ Z.of_nat kappa + 2 ^ Z.of_nat (rounded c kappa) < p ->
  xs <> [] -> Forall (fun x => 2 * Z.abs x < p) xs -> Forall (fun w => 0 <= w < p) ws ->
  (forall ins, G 41%nat ins 1%nat = resize_hint p ins 1) ->
  let m := (dot xs ws + 2 ^ Z.of_nat kappa / 2) / 2 ^ Z.of_nat kappa in
  0 <= dot xs ws -> m < 2 ^ Z.of_nat nb -> m < 2 ^ 63 ->
  run (honest_div p inv G) (table_rowsb c F) (resize_linear_element p c kappa nb (map (enc p) xs) ws) = Some (enc p m).
Proof. intros Hp Hc Hk Hw L Hb N Bx Bw HG m H0 H1 H2. apply linear_run; auto. Qed.
Definition only_resize (p : Z) : nat -> list Z -> nat -> option (list Z) := fun k ins n => if (k =? 41)%nat then resize_hint p ins n else None.
(** One corner of weight 1 with the value -100.0 at the default configuration. *)
Lemma linear_negative_fails F : run (honest_div bn254_r (fun v => v) (only_resize bn254_r)) (table_rowsb 12 F)
  (resize_linear_element bn254_r 12 18 64 [enc bn254_r (-100 * 2 ^ 18)] [2 ^ 18]) = None.
Proof. vm_compute. reflexivity. Qed.
Lemma linear_sound_fails F : accepts bn254_r (table_rows 12 F) (resize_linear_element bn254_r 12 18 64 [enc bn254_r 0] [2 ^ 18]) 63.
Proof.
  assert (W1 : width_ok 12 18) by (split; lia). assert (W2 : width_ok 12 64) by (split; lia).
  assert (R1 : rounded 12 18 = 24%nat) by reflexivity. assert (R2 : rounded 12 64 = 72%nat) by reflexivity.
  apply (linear_exact_holds bn254_r 12 F 18 64 [0] [2 ^ 18] 63 bn254_prime); auto; rewrite ?R1, ?R2; try lia.
  - vm_compute. reflexivity.
  - exists 63. rewrite ?R1, ?R2. split; [reflexivity|]. split; [lia|]. vm_compute. split; discriminate.
Qed.
