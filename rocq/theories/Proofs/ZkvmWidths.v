From Coq Require Import List Arith Bool Reals String ZArith QArith Lia Lra.
From Verif Require Import Spec.Shapes Spec.Tensors Spec.RealOps Model.Bounds Proofs.Bounds Proofs.Bounds6 Proofs.Bounds7 Proofs.Bounds8.
From Verif Require Import Base.Array.
From Verif Require Spec.Zkvm Model.Zkvm.
Import ListNotations.
Local Open Scope string_scope.
Local Open Scope list_scope.
Local Open Scope nat_scope.
Local Open Scope R_scope.

(** *** The width of a bound *)
Lemma n_bits_same a b c d : Rabs (a * b) = Rabs (c * d) -> compute_n_bits a b = compute_n_bits c d.
Proof. unfold compute_n_bits. intros ->. reflexivity. Qed.
Lemma n_bits_int b : (0 <= b)%Z -> Zkvm.compute_n_bits_int b = Z.of_nat (compute_n_bits 1 (IZR b)).
Proof.
  intros H. unfold Zkvm.compute_n_bits_int, Zkvm.integer_log2_ceil. destruct (Z.eqb_spec b 0) as [->|N0].
  - unfold compute_n_bits. rewrite Rmult_0_r, Rabs_R0. destruct (Rle_dec 0 1); [reflexivity|lra].
  - destruct (Z.leb_spec b 1).
    + replace b with 1%Z by lia. unfold compute_n_bits. rewrite Rmult_1_r, Rabs_R1. destruct (Rle_dec 1 1); [reflexivity|lra].
    + pose proof (Z.log2_spec (b - 1) ltac:(lia)) as [L U]. pose proof (Z.log2_nonneg (b - 1)) as P.
      rewrite (n_bits_eq _ _ (Z.to_nat (Z.log2 (b - 1)))); [lia|].
      rewrite Rmult_1_l, Rabs_right by (apply Rle_ge, IZR_le; lia). rewrite <- !IZR_pow2, Nat2Z.inj_succ, Z2Nat.id by exact P.
      split; [apply IZR_lt; lia|apply IZR_le; lia].
Qed.

(** *** Channels *)
Lemma sum_small l : forall a, (0 <= a)%Z -> (fold_left Z.add (map Z.abs l) a < 2 ^ 64)%Z ->
  fold_left (fun a v => (a + v) mod 2 ^ 64)%Z (map Z.abs l) a = fold_left Z.add (map Z.abs l) a.
Proof.
  assert (G : forall l a, (a <= fold_left Z.add (map Z.abs l) a)%Z).
  { induction l0 as [|x l0 IH]; intros a; cbn; [lia|]. specialize (IH (a + Z.abs x)%Z). lia. }
  induction l as [|x l IH]; intros a Ha H; cbn -[Z.pow Z.modulo] in *; [reflexivity|].
  pose proof (G l (a + Z.abs x)%Z). rewrite Z.mod_small by lia. apply IH; lia.
Qed.
Lemma l1_scaled al l : 0 < al -> forall a b, IZR a = al * b ->
  IZR (fold_left Z.add (map Z.abs l) a) = al * fold_left Rplus (map Rabs (map (fun z => IZR z / al) l)) b.
Proof.
  intros Hal. induction l as [|x l IH]; intros a b H; cbn; [exact H|]. apply IH. rewrite plus_IZR, H, abs_IZR.
  unfold Rdiv. rewrite Rabs_mult, (Rabs_right (/ al)) by (left; apply Rinv_0_lt_compat; exact Hal). field. lra.
Qed.
Lemma max_scaled {A} al (f : A -> Z) (g : A -> R) l : 0 < al -> (forall x, In x l -> IZR (f x) = al * g x) -> forall a b, IZR a = al * b ->
  IZR (fold_left Z.max (map f l) a) = al * fold_left Rmax (map g l) b.
Proof.
  intros Hal. induction l as [|x l IH]; intros E a b H; cbn; [exact H|]. apply IH; [intros; apply E; cbn; auto|].
  specialize (E x (or_introl eq_refl)). destruct (Z.max_spec a (f x)) as [[L ->]|[L ->]].
  - apply IZR_lt in L. rewrite E, Rmax_right; [reflexivity|]. rewrite H, E in L. apply Rmult_lt_reg_l in L; lra.
  - apply IZR_le in L. rewrite H, Rmax_left; [reflexivity|]. rewrite H, E in L. apply Rmult_le_reg_l in L; lra.
Qed.

(** The guest and the quantizer agree on a convolution of the model's input whose weights are exact. *)
Definition chan (n : nat) (w : list Z) (oc : nat) : list Z := firstn (List.length w / n) (skipn (oc * (List.length w / n)) w).
Lemma first_conv (al : Z) l w weights (d : Zkvm.desc) :
  (0 < al < 2 ^ 64)%Z -> kind (body l) = Conv -> weight_at l 1 = Some w -> weight_at l 2 = None -> inputs (body l) <> [] ->
  (4 <= List.length (dims w))%nat -> flat w = map (fun z => IZR z / IZR al) weights -> weights <> [] ->
  (nth 0 (dims w) 0 <> 0)%nat -> (List.length weights mod nth 0 (dims w) 0 = 0)%nat ->
  (forall oc, (fold_left Z.add (map Z.abs (chan (nth 0 (dims w) 0%nat) weights oc)) 0 < 2 ^ 64)%Z) ->
  Zkvm.op_type d = 5%Z -> Zkvm.weight_dims d = map Z.of_nat (dims w) -> Zkvm.weight_data d = weights -> Zkvm.bias_data d = [] ->
  exists bound, compute_layer_bound l (map (fun s => (s, 1)) (inputs (body l))) (IZR al) = Some bound /\
    Zkvm.guest_layer al d al = Some (Z.of_nat (compute_n_bits (IZR al) bound), al).
Proof.
  intros Ha Hk Hw Hb Hi Hd Hf Hne Hn Hm Hs D1 D2 D3 D4.
  assert (Pa : 0 < IZR al) by (apply IZR_lt; lia).
  unfold compute_layer_bound. rewrite Hk, Hw. replace (4 <=? List.length (dims w))%nat with true by (symmetry; apply Nat.leb_le; exact Hd).
  set (n := nth 0 (dims w) 0%nat) in *. unfold max_output_channel_l1. rewrite Hw, Hf, map_length.
  replace ((n =? 0)%nat || (List.length weights =? 0)%nat)%bool with false.
  2:{ symmetry. apply orb_false_iff. split; apply Nat.eqb_neq; [exact Hn|destruct weights; [congruence|discriminate]]. }
  rewrite Hm. cbn [negb Nat.eqb].
  set (M := max_list _).
  assert (I1 : input_bound (map (fun s => (s, 1)) (inputs (body l))) l 0 = 1).
  { unfold input_bound. destruct (inputs (body l)) as [|s r]; [congruence|]. cbn. unfold map_get. cbn. rewrite String.eqb_refl. reflexivity. }
  rewrite I1. unfold bias_bound. rewrite Hb. eexists. split; [reflexivity|].
  unfold Zkvm.guest_layer. rewrite D1. cbn [Z.eqb Pos.eqb orb]. rewrite D2, D3, D4.
  assert (Edims : match map Z.of_nat (dims w) with d0 :: _ :: _ => Z.to_nat d0 | _ => 1%nat end = n).
  { unfold n. destruct (dims w) as [|d0 [|d1 r]]; cbn in Hd; try lia. cbn. apply Nat2Z.id. }
  rewrite Edims. unfold Zkvm.div_u64. destruct (Z.eqb_spec al 0); [lia|]. cbn [obind]. rewrite Z.div_same by lia.
  change (Zkvm.bias_max_abs []) with 0%Z. rewrite Z.div_0_l by lia.
  assert (E : IZR (Zkvm.max_channel_l1 weights n) = IZR al * M).
  { unfold Zkvm.max_channel_l1, M, max_list. destruct n as [|n'] eqn:En; [congruence|]. destruct weights as [|w0 ws] eqn:Ew; [congruence|].
    rewrite <- Ew in *. unfold Zkvm.max_u64. apply max_scaled; [exact Pa| |lra].
    intros oc _. unfold Zkvm.sum_u64. rewrite sum_small; [|lia|apply Hs]. unfold l1.
    rewrite skipn_map, firstn_map. apply l1_scaled; [exact Pa|lra]. }
  assert (R : (0 <= Zkvm.max_channel_l1 weights n < 2 ^ 64)%Z).
  { unfold Zkvm.max_channel_l1. destruct n as [|n'] eqn:En; [congruence|]. destruct weights as [|w0 ws] eqn:Ew; [congruence|]. rewrite <- Ew in *.
    unfold Zkvm.max_u64. assert (G : forall l a, (0 <= a < 2 ^ 64)%Z -> Forall (fun v => v < 2 ^ 64)%Z l -> (0 <= fold_left Z.max l a < 2 ^ 64)%Z).
    { induction l0 as [|x l0 IH]; intros a A F; cbn; [exact A|]. inversion F; subst. apply IH; [|assumption]. split; [lia|]. apply Z.max_lub_lt; lia. }
    apply G; [lia|]. apply Forall_forall. intros v Hv. apply in_map_iff in Hv as (oc & <- & _). unfold Zkvm.sum_u64. rewrite sum_small; [apply Hs|lia|apply Hs]. }
  assert (S : Zkvm.saturating_add (Zkvm.saturating_mul (Zkvm.max_channel_l1 weights n) 1) 0 = Zkvm.max_channel_l1 weights n).
  { unfold Zkvm.saturating_add, Zkvm.saturating_mul, Zkvm.u64_max. lia. }
  rewrite S, n_bits_int by lia. f_equal. f_equal. f_equal. apply n_bits_same. f_equal. rewrite E. lra.
Qed.

(** A Gemm with weight 32, then Relu. *)
Definition relu_after : layer := {| name := "r"; body := mk Relu ["y"] ["z"]; weights := [] |}.
Definition gemm_node (rescaled : Z) : Zkvm.node :=
  {| Zkvm.name := "g"; Zkvm.op := Gemm; Zkvm.inputs := ["x"; "w"]; Zkvm.outputs := ["y"];
     Zkvm.weights := [("w", {| Zkvm.dims := [1; 1]%Z; Zkvm.float_data := []; Zkvm.int_data := [rescaled] |})];
     Zkvm.attributes := []; Zkvm.rescale := true; Zkvm.n_bits := Some 24%nat |}.
Definition relu_node : Zkvm.node :=
  {| Zkvm.name := "r"; Zkvm.op := Relu; Zkvm.inputs := ["y"]; Zkvm.outputs := ["z"]; Zkvm.weights := []; Zkvm.attributes := [];
     Zkvm.rescale := false; Zkvm.n_bits := Some 24%nat |}.
Definition quantised : Zkvm.model :=
  {| Zkvm.m_base := 2; Zkvm.m_exponent := 18; Zkvm.nodes := [gemm_node (32 * 2 ^ 18); relu_node]; Zkvm.input_names := ["x"]; Zkvm.output_names := ["z"];
     Zkvm.topo_order := [0; 1]%nat; Zkvm.input_shapes := [("x", [1; 1]%Z)]; Zkvm.n_bits_config := [("g", 24%nat); ("r", 24%nat)] |}.
Lemma guest_narrow : (exists bounds, compute_bounds (2 ^ 18) (fun _ => None) ["x"] [gemm32; relu_after] = Some (bounds, [("r", 24%nat); ("g", 24%nat)])) /\
  exists c, Zkvm.from_quantized quantised = Some c /\ Zkvm.guest_n_bits c = Some [24; 19]%Z.
Proof.
  split.
  2:{ destruct (Zkvm.from_quantized quantised) as [c|] eqn:E; [|vm_compute in E; discriminate].
      exists c. split; [reflexivity|]. vm_compute in E. injection E as <-. vm_compute. reflexivity. }
  eexists. bits tt. unfold bias_bound, weight_at. cbn -[pow f64_max compute_n_bits max_abs max_list l1].
  replace (max_list [l1 [32]] * 1 + 0) with 32; [|rewrite l1_1; unfold max_list; cbn; rewrite Rabs_right, Rmax_right; lra].
  rewrite n_bits_24. destruct (Rlt_dec _ _) as [C|C]; [destruct (huge 32); [cbn; lra|exact C]|reflexivity].
Qed.
