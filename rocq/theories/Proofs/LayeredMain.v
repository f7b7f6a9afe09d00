(** The statements about layered circuits, and circuits that show their limits *)
From Coq Require Import List Bool Arith NArith ZArith Lia Permutation.
From Verif Require Import Base.Array Base.Field Base.SmallField Model.Layered Spec.Layered Proofs.Layered Proofs.Lanes Proofs.Flatten.
Import ListNotations.
Local Open Scope list_scope.

Lemma flatten_observed (K : field) rnd custom order (c : circuit K) pub n : any_order order ->
  validate K c = Some true -> (forall s, In s (c_segments c) -> plain K custom (length pub) s) -> input_size K c = Some n ->
  exists pc, export_to_expander_flatten K order c = Some pc /\ pc_zeros K pc = c_zeroes c /\
  forall inputs, length inputs = n -> forall outs sat,
    eval_with_public_inputs K rnd custom c inputs pub = Some (outs, sat) ->
    exists final, evaluate K pc (pad K inputs) pub = Some final /\
      slice final (c_zeroes c) (c_actual_outputs c) = Some outs /\
      sat = forallb (fun x => feqb x f0) (firstn (pc_zeros K pc) final) /\
      eval_constraint_values K rnd custom c inputs pub = Some (firstn (pc_zeros K pc) final).
Proof.
  intros HO HV HP En.
  destruct (Flatten.flatten_correct K rnd custom order HO pub c (repeat f0 n) n HV HP En (repeat_length _ _)) as (pc & _ & _ & E & Z & _).
  exists pc. split; auto. split; auto. intros inputs Hn outs sat Ev.
  destruct (Flatten.flatten_correct K rnd custom order HO pub c inputs n HV HP En Hn) as (pc' & rows & row & E' & _ & El & Er & EE).
  rewrite E in E'. injection E' as <-. exists (pad K row). split; [exact EE|].
  unfold eval_with_public_inputs in Ev. unfold eval_constraint_values. rewrite El in *. cbn [obind] in *. unfold aget in *. rewrite Er in *. cbn [obind] in *.
  destruct (slice row (c_zeroes c) (c_actual_outputs c)) as [o|] eqn:Es; [|discriminate]. cbn [obind] in Ev. injection Ev as <- <-.
  apply slice_inv in Es as (B & ->). rewrite Z.
  assert (F : firstn (c_zeroes c) (pad K row) = firstn (c_zeroes c) row).
  { unfold pad. rewrite firstn_app. replace (c_zeroes c - length row) with 0 by lia. cbn. now rewrite app_nil_r. }
  rewrite F. split; [|split; auto].
  - rewrite slice_ok by (unfold pad; rewrite ?app_length; lia). f_equal. unfold pad. rewrite skipn_app.
    rewrite firstn_app, skipn_length. replace (c_actual_outputs c - c_zeroes c - (length row - c_zeroes c)) with 0 by lia. cbn. now rewrite app_nil_r.
  - rewrite slice_ok by lia. cbn [skipn]. now rewrite Nat.sub_0_r.
Qed.

Lemma lanes_some (K : field) pack custom rnds (c : circuit K) inputs pub outs flags : 0 < pack ->
  (forall t x y ox oy, length x = length y -> custom t x = Some ox -> custom t y = Some oy -> length ox = length oy) ->
  vec K pack rnds -> Forall (vec K pack) inputs -> Forall (vec K pack) pub ->
  eval_simd K custom pack rnds c inputs pub = Some (outs, flags) ->
  length flags = pack /\ Forall (vec K pack) outs /\
  forall j, j < pack -> eval_with_public_inputs K (lane K j rnds) custom c (map (lane K j) inputs) (map (lane K j) pub) =
    Some (map (lane K j) outs, nth j flags false).
Proof.
  intros Hp HC HR HI HP E. pose proof (sim_eval K pack Hp custom HC rnds HR c inputs pub HI HP) as S. rewrite E in S. cbn [sim] in S.
  destruct S as ((A & B) & H). auto.
Qed.
Lemma lanes_none (K : field) pack custom rnds (c : circuit K) inputs pub : 0 < pack ->
  (forall t x y ox oy, length x = length y -> custom t x = Some ox -> custom t y = Some oy -> length ox = length oy) ->
  vec K pack rnds -> Forall (vec K pack) inputs -> Forall (vec K pack) pub ->
  eval_simd K custom pack rnds c inputs pub = None ->
  exists j, j < pack /\ eval_with_public_inputs K (lane K j rnds) custom c (map (lane K j) inputs) (map (lane K j) pub) = None.
Proof.
  intros Hp HC HR HI HP E. pose proof (sim_eval K pack Hp custom HC rnds HR c inputs pub HI HP) as S. rewrite E in S. exact S.
Qed.

(** ** Example circuits over the field of seven elements *)
Definition no_custom : nat -> list F7 -> option (list F7) := fun _ _ => Some [].
(** a multiplication and an addition; a parent of two copies *)
Definition child : segment F7 :=
  {| s_inputs := [2]; s_outputs := 2; s_children := [];
     s_muls := [{| m_in0 := (0, 0); m_in1 := (0, 1); m_out := 0; m_coef := Constant (n7 3) |}];
     s_adds := [{| a_in := (0, 1); a_out := 1; a_coef := Constant (n7 1) |}]; s_consts := []; s_customs := [] |}.
Definition parent : segment F7 :=
  {| s_inputs := [4]; s_outputs := 4; s_children := [(0, [{| al_in := [0]; al_out := 2 |}; {| al_in := [2]; al_out := 0 |}])];
     s_muls := []; s_adds := [];
     s_consts := [{| k_out := 0; k_coef := PublicInput 0 |}]; s_customs := [] |}.
Definition nested : circuit F7 :=
  {| c_publics := 1; c_actual_outputs := 3; c_zeroes := 1; c_segments := [child; parent]; c_layers := [1; 1] |}.
(** [validate] does not look at the numbers of the public inputs *)
Definition missing_public : circuit F7 :=
  {| c_publics := 1; c_actual_outputs := 1; c_zeroes := 0; c_layers := [0];
     c_segments := [{| s_inputs := [2]; s_outputs := 2; s_children := []; s_muls := []; s_adds := []; s_consts := [{| k_out := 0; k_coef := PublicInput 7 |}]; s_customs := [] |}] |}.
Lemma missing_public_fails : validate F7 missing_public = Some true /\
  eval_with_public_inputs F7 (n7 0) no_custom missing_public (l7 [1; 2]%Z) (l7 [5]%Z) = None.
Proof. split; vm_compute; reflexivity. Qed.
(** nor at the numbers of outputs *)
Definition too_many_outputs : circuit F7 :=
  {| c_publics := 0; c_actual_outputs := 3; c_zeroes := 0; c_layers := [0];
     c_segments := [{| s_inputs := [2]; s_outputs := 2; s_children := []; s_muls := []; s_adds := []; s_consts := []; s_customs := [] |}] |}.
Lemma too_many_outputs_fails : validate F7 too_many_outputs = Some true /\
  eval_with_public_inputs F7 (n7 0) no_custom too_many_outputs (l7 [1; 2]%Z) [] = None.
Proof. split; vm_compute; reflexivity. Qed.
(** a public input as the coefficient of an addition *)
Definition scaled : circuit F7 :=
  {| c_publics := 1; c_actual_outputs := 1; c_zeroes := 0; c_layers := [0];
     c_segments := [{| s_inputs := [2]; s_outputs := 2; s_children := []; s_muls := [];
        s_adds := [{| a_in := (0, 0); a_out := 0; a_coef := PublicInput 0 |}]; s_consts := []; s_customs := [] |}] |}.
Definition map_order : list nat -> leaves -> leaves := fun _ l => l.
Lemma scaled_differs : validate F7 scaled = Some true /\
  eval_with_public_inputs F7 (n7 0) no_custom scaled (l7 [1; 0]%Z) (l7 [5]%Z) = Some (l7 [5]%Z, true) /\
  obind (export_to_expander_flatten F7 map_order scaled) (fun pc => evaluate F7 pc (l7 [1; 0]%Z) (l7 [5]%Z)) = Some (l7 [0; 0]%Z).
Proof.
  split; [vm_compute; reflexivity|]. split; [|apply ol7_eq; vm_compute; reflexivity].
  assert (E : option_map fst (eval_with_public_inputs F7 (n7 0) no_custom scaled (l7 [1; 0]%Z) (l7 [5]%Z)) = Some (l7 [5]%Z)) by (apply ol7_eq; vm_compute; reflexivity).
  assert (E2 : option_map snd (eval_with_public_inputs F7 (n7 0) no_custom scaled (l7 [1; 0]%Z) (l7 [5]%Z)) = Some true) by (vm_compute; reflexivity).
  destruct (eval_with_public_inputs F7 (n7 0) no_custom scaled (l7 [1; 0]%Z) (l7 [5]%Z)) as [(o & b)|]; [|discriminate]. cbn [option_map fst snd] in E, E2. injection E as ->. injection E2 as ->. reflexivity.
Qed.
(** two children, each with one random value *)
Definition draw (o : nat) : segment F7 :=
  {| s_inputs := [2]; s_outputs := 2; s_children := []; s_muls := []; s_adds := []; s_consts := [{| k_out := o; k_coef := Random |}]; s_customs := [] |}.
Definition draws : circuit F7 :=
  {| c_publics := 0; c_actual_outputs := 2; c_zeroes := 0; c_layers := [2];
     c_segments := [draw 0; draw 1; {| s_inputs := [2]; s_outputs := 2;
        s_children := [(0, [{| al_in := [0]; al_out := 0 |}]); (1, [{| al_in := [0]; al_out := 0 |}])];
        s_muls := []; s_adds := []; s_consts := []; s_customs := [] |}] |}.
Definition other_order : list nat -> leaves -> leaves := fun _ l => rev l.
Lemma draws_differ : validate F7 draws = Some true /\
  obind (export_to_expander_flatten F7 map_order draws) (fun pc => evaluate F7 (fill_rnd_coefs F7 pc (l7 [3; 4]%Z)) (l7 [0; 0]%Z) []) = Some (l7 [3; 4]%Z) /\
  obind (export_to_expander_flatten F7 other_order draws) (fun pc => evaluate F7 (fill_rnd_coefs F7 pc (l7 [3; 4]%Z)) (l7 [0; 0]%Z) []) = Some (l7 [4; 3]%Z).
Proof. split; [vm_compute; reflexivity|]. split; apply ol7_eq; vm_compute; reflexivity. Qed.
Lemma orders_ok : any_order map_order /\ any_order other_order.
Proof. split; intros site l; [reflexivity|]. symmetry. apply Permutation_rev. Qed.
Lemma l7_neq (l m : list F7) : map (Field.fval 7) l <> map (Field.fval 7) m -> l <> m.
Proof. congruence. Qed.

Lemma validate_refuted : exists (K : field) (c : circuit K) custom inputs pub rnd n, validate K c = Some true /\ input_size K c = Some n /\
  length inputs = n /\ length pub = c_publics c /\ (forall t ins, exists outs, custom t ins = Some outs /\ length outs <= 1) /\
  c_zeroes c <= c_actual_outputs c /\ eval_with_public_inputs K rnd custom c inputs pub = None.
Proof.
  exists F7, missing_public, no_custom, (l7 [1; 2]%Z), (l7 [5]%Z), (n7 0), 2. destruct missing_public_fails as (A & B).
  split; [exact A|]. split; [reflexivity|]. split; [reflexivity|]. split; [reflexivity|]. split; [|split; [cbn; lia|exact B]].
  intros. exists []. cbn. auto.
Qed.
Lemma flatten_refuted : exists (K : field) (c : circuit K) custom order inputs pub rnd n outs pc final, any_order order /\
  validate K c = Some true /\ input_size K c = Some n /\ length inputs = n /\ length pub = c_publics c /\
  (forall s, In s (c_segments c) -> single K s /\ publics_in K (length pub) s) /\
  eval_with_public_inputs K rnd custom c inputs pub = Some (outs, true) /\
  export_to_expander_flatten K order c = Some pc /\ evaluate K pc (pad K inputs) pub = Some final /\
  slice final (c_zeroes c) (c_actual_outputs c) <> Some outs.
Proof.
  destruct scaled_differs as (A & B & C). destruct (export_to_expander_flatten F7 map_order scaled) as [pc|] eqn:E; [|discriminate].
  exists F7, scaled, no_custom, map_order, (l7 [1; 0]%Z), (l7 [5]%Z), (n7 0), 2, (l7 [5]%Z), pc, (l7 [0; 0]%Z).
  split; [apply orders_ok|]. repeat split; auto.
  - cbn in H. destruct H as [ <- |[]]. reflexivity.
  - cbn in H. destruct H as [ <- |[]]. intros u [].
  - cbn in H. destruct H as [ <- |[]]. intros u [].
  - cbn in H. destruct H as [ <- |[]]. intros u [ <- |[]]. cbn. auto.
  - cbn in H. destruct H as [ <- |[]]. intros u [].
  - cbn in H. destruct H as [ <- |[]]. intros u [].
  - intros H. assert (Q : option_map (map (Field.fval 7)) (slice (l7 [0; 0]%Z) (c_zeroes scaled) (c_actual_outputs scaled)) = option_map (map (Field.fval 7)) (Some (l7 [5]%Z))) by now rewrite H.
    vm_compute in Q. discriminate.
Qed.
Lemma flatten_order_refuted : exists (K : field) (c : circuit K) o1 o2 pc1 pc2 drawn inputs out1 out2,
  any_order o1 /\ any_order o2 /\ validate K c = Some true /\ (forall s, In s (c_segments c) -> single K s) /\
  export_to_expander_flatten K o1 c = Some pc1 /\ export_to_expander_flatten K o2 c = Some pc2 /\
  evaluate K (fill_rnd_coefs K pc1 drawn) inputs [] = Some out1 /\ evaluate K (fill_rnd_coefs K pc2 drawn) inputs [] = Some out2 /\ out1 <> out2.
Proof.
  destruct draws_differ as (A & B & C). destruct (export_to_expander_flatten F7 map_order draws) as [pc1|] eqn:E1; [|discriminate].
  destruct (export_to_expander_flatten F7 other_order draws) as [pc2|] eqn:E2; [|discriminate].
  exists F7, draws, map_order, other_order, pc1, pc2, (l7 [3; 4]%Z), (l7 [0; 0]%Z), (l7 [3; 4]%Z), (l7 [4; 3]%Z).
  split; [apply orders_ok|]. split; [apply orders_ok|]. repeat split; auto.
  - cbn in H. destruct H as [ <- |[ <- |[ <- |[]]]]; reflexivity.
  - cbn in H. destruct H as [ <- |[ <- |[ <- |[]]]]; intros u [].
  - apply l7_neq. vm_compute. discriminate.
Qed.
