From Coq Require Import List ZArith QArith Bool String Arith Lia Reals.
From Verif Require Import Base.Array Base.Machine Spec.Serdes Spec.Zkvm Spec.Tensors Model.Serdes Model.Zkvm Proofs.Zkvm.
From Verif Require Spec.RealOps Model.Bounds Proofs.Bounds6 Proofs.ZkvmWidths.
Import ListNotations.
Local Open Scope string_scope.
Local Open Scope list_scope.
Local Open Scope Z_scope.

Lemma compile_written sha m rest : canonical_ok m ->
  decode (encode m ++ rest) = Some m /\
  verify_compilation sha (encode m ++ rest) = let* nb := guest_n_bits m in Some (sha (canonical_output m nb)).
Proof. intros H. unfold verify_compilation. rewrite decode_encode by exact H. auto. Qed.
Lemma compile_fails sha m rest : canonical_ok m ->
  (verify_compilation sha (encode m ++ rest) = None <-> alpha m = 0 /\ exists l, In l (layers m) /\ In (op_type l) [4; 5; 8]).
Proof.
  intros H. rewrite (proj2 (compile_written sha m rest H)).
  assert (E : (let* nb := guest_n_bits m in Some (sha (canonical_output m nb))) = None <-> guest_n_bits m = None).
  { destruct (guest_n_bits m); cbn [obind]; split; intros F; try discriminate; reflexivity. }
  rewrite E. unfold guest_n_bits. rewrite guest_total, existsb_exists. unfold divides.
  split; intros (A & l & L & D); split; auto; exists l; (split; [exact L|]).
  - rewrite !orb_true_iff, !Z.eqb_eq in D. cbn. intuition.
  - cbn in D. rewrite !orb_true_iff, !Z.eqb_eq. intuition.
Qed.
(** A layer with nothing but an operator and weights. *)
Definition bare (o : Z) (w : list Z) : desc :=
  {| op_type := o; needs_rescale := true; n_inputs := 2; weight_dims := [1; Z.of_nat (List.length w)]; weight_data := w;
     bias_dims := []; bias_data := []; int_attrs := []; extra_constant_data := [] |}.
Definition one (ba ex al : Z) (l : desc) : canonical := {| base := ba; exponent := ex; alpha := al; input_dims := [1]; layers := [l] |}.
Lemma one_ok ba ex al o w : is_u64 ba -> is_u32 ex -> is_u64 al -> 0 <= o < 256 -> vec32 is_i64 w -> canonical_ok (one ba ex al (bare o w)).
Proof.
  intros A B C D E. unfold canonical_ok, one, desc_ok, vec32, bare, is_u32, is_u64 in *. destruct E. cbn -[Z.pow].
  repeat split; try lia; repeat constructor; cbn -[Z.pow]; try lia; assumption.
Qed.
Lemma zero_scale : exists m, canonical_ok m /\ base m ^ exponent m = alpha m /\ forall sha, verify_compilation sha (encode m) = None.
Proof.
  exists (one 0 1 0 (bare 5 [1])). assert (O : canonical_ok (one 0 1 0 (bare 5 [1]))).
  { apply one_ok; unfold is_u64, is_u32, vec32, is_i64; try lia. split; [cbn; lia|]. repeat constructor; lia. }
  split; [exact O|]. split; [reflexivity|]. intros sha. rewrite <- (app_nil_r (encode _)). apply compile_fails; [exact O|].
  split; [reflexivity|]. exists (bare 5 [1]). cbn. auto.
Qed.
Lemma foreign_scale : exists m, canonical_ok m /\ base m ^ exponent m <> alpha m /\ forall sha, verify_compilation sha (encode m) <> None.
Proof.
  exists (one 2 18 1 (bare 5 [1])). assert (O : canonical_ok (one 2 18 1 (bare 5 [1]))).
  { apply one_ok; unfold is_u64, is_u32, vec32, is_i64; try lia. split; [cbn; lia|]. repeat constructor; lia. }
  split; [exact O|]. split; [discriminate|]. intros sha C. rewrite <- (app_nil_r (encode _)) in C. apply compile_fails in C; [|exact O].
  destruct C as [C _]. discriminate.
Qed.
Lemma wraps : exists m, canonical_ok m /\ base m ^ exponent m = alpha m /\ guest_n_bits m = Some [2] /\
  exists l, layers m = [l] /\ op_type l = 5 /\ fold_left Z.add (map Z.abs (weight_data l)) 0 = 2 ^ 64.
Proof.
  exists (one 2 18 (2 ^ 18) (bare 5 [- 2 ^ 63; - 2 ^ 63])). split; [|split; [reflexivity|split; [vm_compute; reflexivity|eexists; repeat split]]].
  apply one_ok; unfold is_u64, is_u32, vec32, is_i64; try lia. split; [cbn; lia|]. repeat constructor; lia.
Qed.
(** Operands of a subtraction exchanged *)
Definition sub_node (a b : string) : node :=
  {| name := "s"; op := RealOps.Sub; inputs := [a; b]; outputs := ["y"]; weights := []; attributes := []; rescale := false; n_bits := None |}.
Definition model_of (n : node) : model :=
  {| m_base := 2; m_exponent := 18; nodes := [n]; input_names := ["a"; "b"]; output_names := ["y"]; topo_order := [0]%nat;
     input_shapes := [("a", [1]); ("b", [1])]; n_bits_config := [] |}.
Definition two : RealOps.valuation := fun s => if (s =? "a")%string then Some {| Tensors.dims := [1]%nat; Tensors.flat := [1%R] |}
  else if (s =? "b")%string then Some {| Tensors.dims := [1]%nat; Tensors.flat := [0%R] |} else None.
Lemma operands : exists m1 m2 n1 n2 c, from_quantized m1 = Some c /\ from_quantized m2 = Some c /\ nodes m1 = [n1] /\ nodes m2 = [n2] /\
  input_names m1 = input_names m2 /\ output_names m1 = output_names m2 /\
  exists env, RealOps.entry env (over_reals n1) 0 1%R /\ ~ RealOps.entry env (over_reals n2) 0 1%R.
Proof.
  exists (model_of (sub_node "a" "b")), (model_of (sub_node "b" "a")), (sub_node "a" "b"), (sub_node "b" "a").
  eexists. split; [vm_compute; reflexivity|]. split; [vm_compute; reflexivity|]. do 4 (split; [reflexivity|]).
  exists two. split.
  - exists 1%R, 0%R. cbn. repeat split; auto. apply eq_sym, Rminus_0_r.
  - intros (a & b & A & B & E). cbn in A, B. destruct A as [<-|[]]. destruct B as [<-|[]].
    apply Rlt_irrefl with 0%R. apply Rlt_trans with 1%R; [apply Rlt_0_1|]. rewrite E. apply Rlt_minus, Rlt_0_1.
Qed.
(** A matrix product whose first or second operand is transposed *)
Definition gemm_node (a : string) : node :=
  {| name := "g"; op := RealOps.Gemm; inputs := ["a"; "b"]; outputs := ["y"]; weights := []; attributes := [(a, AInt 1)]; rescale := true; n_bits := None |}.
Lemma attribute_names : exists m1 m2 c, from_quantized m1 = Some c /\ from_quantized m2 = Some c /\
  map attributes (nodes m1) = [[("transA", AInt 1)]] /\ map attributes (nodes m2) = [[("transB", AInt 1)]] /\ map op (nodes m1) = [RealOps.Gemm] /\ map op (nodes m2) = [RealOps.Gemm].
Proof.
  exists (model_of (gemm_node "transA")), (model_of (gemm_node "transB")). eexists. split; [vm_compute; reflexivity|]. split; [vm_compute; reflexivity|].
  repeat split; reflexivity.
Qed.
(** Other widths *)
Lemma widths_example : exists m1 m2 c, same_but_widths m1 m2 /\ n_bits_config m1 <> n_bits_config m2 /\ map n_bits (nodes m1) <> map n_bits (nodes m2) /\ from_quantized m1 = Some c.
Proof.
  pose (n k := {| name := "r"; op := RealOps.Relu; inputs := ["a"]; outputs := ["y"]; weights := []; attributes := []; rescale := false; n_bits := Some k |}).
  pose (m k := {| m_base := 2; m_exponent := 18; nodes := [n k]; input_names := ["a"]; output_names := ["y"]; topo_order := [0]%nat;
     input_shapes := [("a", [1])]; n_bits_config := [("r", k)] |}).
  exists (m 19%nat), (m 20%nat). eexists. split; [|split; [discriminate|split; [discriminate|vm_compute; reflexivity]]].
  unfold same_but_widths. cbn. do 6 (split; [reflexivity|]). constructor; [|constructor]. cbn. do 6 (split; [reflexivity|]). reflexivity.
Qed.
Lemma encode_inj m1 m2 : canonical_ok m1 -> canonical_ok m2 -> encode m1 = encode m2 -> m1 = m2.
Proof.
  intros A B E. pose proof (decode_encode m1 [] A) as D1. pose proof (decode_encode m2 [] B) as D2. rewrite E, D2 in D1. injection D1. auto.
Qed.
Lemma one_case : canonical_ok (one 2 18 (2 ^ 18) (bare 5 [7; -3])).
Proof. apply one_ok; unfold is_u64, is_u32, vec32, is_i64; try lia. split; [cbn; lia|]. repeat constructor; lia. Qed.
Lemma hash_case : exists s h, Forall is_byte s /\ verify_compilation (fun x => x) s = Some h.
Proof.
  exists (encode (one 2 18 (2 ^ 18) (bare 5 [7; -3]))). eexists. split; [|vm_compute; reflexivity].
  assert (E : encode (one 2 18 (2 ^ 18) (bare 5 [7; -3])) = ltac:(let e := eval vm_compute in (encode (one 2 18 (2 ^ 18) (bare 5 [7; -3]))) in exact e)) by (vm_compute; reflexivity).
  rewrite E. repeat constructor; unfold is_byte; lia.
Qed.
Lemma quantised_case : exists c, from_quantized ZkvmWidths.quantised = Some c.
Proof. destruct ZkvmWidths.guest_narrow as [_ (c & E & _)]. eauto. Qed.
(** A convolution with two output channels that meets the conditions of the comparison of widths. *)
Definition conv_w : Tensors.tensor R := {| Tensors.dims := [2; 1; 1; 1]%nat; Tensors.flat := map (fun z => IZR z / IZR (2 ^ 18))%R [3; -500000] |}.
Definition conv_layer : Bounds.layer := {| Bounds.name := "c"; Bounds.body := Bounds6.mk RealOps.Conv ["x"; "w"] ["y"]; Bounds.weights := [("w", conv_w)] |}.
Definition conv_desc : desc := {| op_type := 5; needs_rescale := true; n_inputs := 2; weight_dims := [2; 1; 1; 1]; weight_data := [3; -500000];
     bias_dims := []; bias_data := []; int_attrs := []; extra_constant_data := [] |}.
Lemma conv_case : RealOps.kind (Bounds.body conv_layer) = RealOps.Conv /\ Bounds.weight_at conv_layer 1 = Some conv_w /\ Bounds.weight_at conv_layer 2 = None /\
  RealOps.inputs (Bounds.body conv_layer) <> [] /\ (4 <= List.length (Tensors.dims conv_w))%nat /\
  Tensors.flat conv_w = map (fun z => IZR z / IZR (2 ^ 18))%R [3; -500000] /\
  (forall oc, fold_left Z.add (map Z.abs (ZkvmWidths.chan 2 [3; -500000] oc)) 0 < 2 ^ 64) /\
  weight_dims conv_desc = map Z.of_nat (Tensors.dims conv_w) /\ guest_layer (2 ^ 18) conv_desc (2 ^ 18) = Some (20, 2 ^ 18).
Proof.
  do 3 (split; [reflexivity|]). split; [discriminate|]. split; [apply le_n|]. split; [reflexivity|].
  split; [intros [|[|oc]]; try reflexivity; cbn; destruct (oc * 1)%nat; reflexivity|]. split; reflexivity.
Qed.
