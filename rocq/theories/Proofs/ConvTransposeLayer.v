(** ConvTranspose: from the sums to the layer; refusals. *)
From Coq Require Import List Arith Bool ZArith Znumtheory Lia.
From Verif Require Base.Array.
From Verif Require Import Spec.Numbers Spec.Shapes Spec.Tensors Spec.HonestProver Spec.Selection Spec.Conv Spec.ConvTranspose
  Model.Builder Model.Gadgets Model.Layers Model.Selection Model.ConvTranspose Model.ConvTransposeLayer
  Proofs.Builder Proofs.RangeCheck Proofs.Gadgets Proofs.Layers Proofs.Rescale Proofs.RescaleArray Proofs.ArithmeticProps Proofs.Tensors Proofs.Selection
  Proofs.Conv Proofs.Conv2 Proofs.ConvLayer Proofs.ConvTranspose.
Import ListNotations.
Local Open Scope Z_scope.

Lemma transposed_exists g eh ew x w b : transpose_operands g eh ew x w b -> exists y, well_formed y /\ transposed g eh ew x w b y.
Proof.
  intros (_ & _ & _ & _ & n & ch & h & v & m & kh & kw & DX & DW & _).
  set (d2 := spread h kh (top g) (bottom g) (down g) eh). set (d3 := spread v kw (left g) (right g) (across g) ew).
  exists {| dims := [n; m; d2; d3]; flat := map (tvalue x w b ch h v kh kw g) (coords4 n m d2 d3) |}. split.
  - unfold well_formed. cbn [dims flat]. rewrite map_length, coords4_length. unfold prod. cbn [fold_right]. lia.
  - exists n, ch, h, v, m, kh, kw. split; [auto|]. split; [auto|]. cbn [dims]. split; [reflexivity|].
    intros c0 c1 c2 c3 R. rewrite elem_in by auto. cbn [dims flat].
    repeat match goal with E : Shapes.in_range _ _ |- _ => unfold Shapes.in_range in E | E : Forall2 _ (_ :: _) _ |- _ => inversion E; clear E; subst end.
    replace (row_major [c0; c1; c2; c3] [n; m; d2; d3]) with (((c0 * m + c1) * d2 + c2) * d3 + c3)%nat
      by (unfold row_major; cbn [combine fold_left fst snd]; lia).
    rewrite nth_error_map. unfold coords4.
    pose proof (nth_error_list_prod (list_prod (list_prod (seq 0 n) (seq 0 m)) (seq 0 d2)) (seq 0 d3) ((c0 * m + c1) * d2 + c2) c3) as T.
    rewrite seq_length in T. rewrite T by lia. clear T.
    pose proof (nth_error_list_prod (list_prod (seq 0 n) (seq 0 m)) (seq 0 d2) (c0 * m + c1) c2) as T.
    rewrite seq_length in T. rewrite T by lia. clear T.
    pose proof (nth_error_list_prod (seq 0 n) (seq 0 m) c0 c1) as T.
    rewrite seq_length in T. rewrite T by lia. clear T.
    rewrite !nth_error_seq0 by lia. reflexivity.
Qed.

Section C.
Variables (p : Z) (c : nat) (F : nat -> list (list Z)) (k s : nat) (is_rescale : bool).
Hypothesis Hp : prime p.
Hypothesis Hc : (0 < c)%nat.
Hypothesis Hk : (k < 32)%nat.
Hypothesis Hs : (s < 64)%nat.
Hypothesis W1 : width_ok c k.
Hypothesis W2 : width_ok c (s + 1).
Hypothesis Big : 2 * (2 ^ Z.of_nat k * 2 ^ Z.of_nat (rounded c (s + 1)) + 2 ^ Z.of_nat (rounded c k)) <= p.

Lemma ct_layer_sound a g eh ew x w b y out : (k mod c = 0)%nat -> ((s + 1) mod c = 0)%nat ->
  transpose_operands g eh ew x w b -> ct_attributes a g eh ew w -> well_formed y -> transposed g eh ew x w b y ->
  Forall (layer_range k s is_rescale false) (flat y) ->
  accepts p (table_rows c F) (conv_transpose_layer p c a is_rescale k (s + 1) (encoded p x) (encoded p w) (encoded p b)) out <->
  out = encoded p (after_layer k is_rescale false y).
Proof.
  intros M1 M2 (WX & WW & S0 & S1 & n & ch & h & v & m & kh & kw & DX & DW & H0 & V0 & KH & KW & O0 & O1 & B) A WY TY R.
  unfold conv_transpose_layer.
  rewrite (ct_build_eq w b ch h v m kh kw eh ew g DW H0 V0 KH KW S0 S1 O0 O1 B a A). cbn [lift bind].
  rewrite (ct_sums_eq p x w b n ch h v m kh kw eh ew g WX WW DX DW H0 V0 KH KW S0 S1 O0 O1 B y WY TY). cbn [lift bind].
  rewrite accepts_bind. cbn [encoded flat dims]. unfold encoded, after_layer. cbn [dims flat]. rewrite map_map. split.
  - intros (o & G & Z0). apply (maybe_rescale_exact p c F k s is_rescale false (flat y)) in G; auto.
    cbn [accepts] in Z0. now subst.
  - intros ->. exists (map (fun v0 => enc p (layer_output k is_rescale false v0)) (flat y)). split; [|reflexivity].
    apply (maybe_rescale_exact p c F k s is_rescale false (flat y)); auto.
Qed.
Lemma ct_layer_run a g eh ew x w b y :
  transpose_operands g eh ew x w b -> ct_attributes a g eh ew w -> well_formed y -> transposed g eh ew x w b y ->
  Forall (layer_range k s is_rescale false) (flat y) ->
  run honest_hint (table_rowsb c F) (conv_transpose_layer p c a is_rescale k (s + 1) (encoded p x) (encoded p w) (encoded p b)) =
  Some (encoded p (after_layer k is_rescale false y)).
Proof.
  intros (WX & WW & S0 & S1 & n & ch & h & v & m & kh & kw & DX & DW & H0 & V0 & KH & KW & O0 & O1 & B) A WY TY R.
  unfold conv_transpose_layer.
  rewrite (ct_build_eq w b ch h v m kh kw eh ew g DW H0 V0 KH KW S0 S1 O0 O1 B a A). cbn [lift bind].
  rewrite (ct_sums_eq p x w b n ch h v m kh kw eh ew g WX WW DX DW H0 V0 KH KW S0 S1 O0 O1 B y WY TY). cbn [lift bind].
  rewrite run_bind. cbn [encoded flat dims]. rewrite (maybe_rescale_run p c F k s is_rescale false (flat y)) by auto.
  cbn [run]. unfold encoded, after_layer. cbn [dims flat]. now rewrite map_map.
Qed.
End C.

Lemma infer_ct_ok a g eh ew x w b y : transpose_operands g eh ew x w b -> ct_attributes a g eh ew w -> transposed g eh ew x w b y ->
  infer_conv_transpose a (dims x) (dims w) = Some (dims y).
Proof.
  intros (WX & WW & S0 & S1 & n & ch & h & v & m & kh & kw & DX & DW & H0 & V0 & KH & KW & O0 & O1 & B) A (n' & ch' & h' & v' & m' & k1 & k2 & D1 & D2 & D3 & _).
  rewrite D3. rewrite DX in D1. rewrite DW in D2. injection D1 as <- <- <- <-. injection D2 as <- <- <-.
  exact (infer_ct_eq x w b n ch h v m kh kw eh ew g DX DW H0 V0 KH KW S0 S1 O0 O1 B a A).
Qed.

(** With groups, each group has the channels of the kernel. *)
Definition with_group (a : ct_node) (q : nat) : ct_node :=
  {| kernel_attr := kernel_attr a; strides_attr := strides_attr a; pads_attr := pads_attr a; output_padding_attr := output_padding_attr a;
     dilations_attr := dilations_attr a; output_shape_attr := output_shape_attr a; group_attr := Some q |}.
Lemma infer_ct_groups a dx dw n ch rest q : (0 < q)%nat -> group_attr a = None ->
  infer_conv_transpose a dx dw = Some (n :: ch :: rest) -> infer_conv_transpose (with_group a q) dx dw = Some (n :: (ch * q)%nat :: rest).
Proof.
  intros Hq G E. unfold infer_conv_transpose in *. cbn [with_group kernel_attr strides_attr pads_attr output_padding_attr dilations_attr output_shape_attr group_attr].
  rewrite G in E. cbn [or_else] in E |- *. rewrite (proj2 (Nat.eqb_neq q 0)) by lia.
  destruct (2 <=? length dw)%nat; [|discriminate]. cbn [Array.guard Array.obind] in *. destruct (Array.aget dw 1) as [c1|]; [|discriminate].
  cbn [Array.obind Nat.eqb negb Array.guard] in *. rewrite Nat.mul_1_r in E.
  match type of E with context [Array.guard ?b] => destruct b end; [|discriminate]. cbn [Array.guard Array.obind] in *.
  destruct (Array.aget dx 0) as [n0|]; [|discriminate]. cbn [Array.obind] in *. destruct (output_shape_attr a).
  - destruct (length l =? _)%nat; [|discriminate]. cbn [Array.guard Array.obind] in *. injection E as <- <- <-. reflexivity.
  - do 4 (match type of E with context [Array.guard ?b] => destruct b; [|discriminate]; cbn [Array.guard Array.obind] in E |- * end).
    match type of E with context [Array.obind (Array.omap ?h ?l)] => destruct (Array.omap h l); [|discriminate] end. cbn [Array.obind] in *. injection E as <- <- <-. reflexivity.
Qed.

(** *** Refusals *)
Lemma existsb_zero l : In 0%nat l -> existsb (Nat.eqb 0) l = true.
Proof. intros I. apply existsb_exists. exists 0%nat. now split. Qed.
Lemma forallb_ones l : (exists d, In d l /\ d <> 1%nat) -> forallb (Nat.eqb 1) l = false.
Proof. intros (d & I & N). destruct (forallb _ l) eqn:Q; auto. rewrite forallb_forall in Q. apply Q in I. apply Nat.eqb_eq in I. congruence. Qed.

Lemma ct_build_inv a P : ct_build a = Some P ->
  kernel_attr a = Some (ct_kernel P) /\ length (ct_kernel P) = 2%nat /\ ~ In 0%nat (ct_kernel P) /\
  or_else (group_attr a) 1%nat = 1%nat /\ ct_group P = 1%nat /\
  (forall v d, dilations_attr a = Some v -> In d v -> d = 1%nat) /\
  (forall v, strides_attr a = Some v -> ~ In 0%nat v /\ length v = 2%nat) /\
  (forall v, pads_attr a = Some v -> length v = 4%nat) /\
  (forall v, output_padding_attr a = Some v -> length v = 2%nat).
Proof.
  unfold ct_build. destruct (kernel_attr a) as [v|]; [|discriminate]. cbn [Array.obind].
  destruct (Nat.eqb_spec (length v) 2) as [L|]; [|discriminate]. cbn [Array.guard Array.obind].
  destruct (existsb (Nat.eqb 0) v) eqn:Z0; [discriminate|]. cbn [negb Array.guard Array.obind].
  destruct (Nat.eqb_spec (or_else (group_attr a) 1%nat) 1) as [G|]; [|discriminate]. cbn [Array.guard Array.obind].
  destruct (forallb _ _) eqn:DL; [|discriminate]. cbn [Array.guard Array.obind].
  destruct (Nat.eqb_spec (length (or_else (strides_attr a) (repeat 1%nat (length v)))) 2) as [LS|]; [|discriminate]. cbn [Array.guard Array.obind].
  destruct (Nat.eqb_spec (length (or_else (dilations_attr a) (repeat 1%nat (length v)))) 2); [|discriminate]. cbn [Array.guard Array.obind].
  destruct (Nat.eqb_spec (length (or_else (output_padding_attr a) (repeat 0%nat (length v)))) 2) as [LO|]; [|discriminate]. cbn [Array.guard Array.obind].
  destruct (Nat.eqb_spec (length (or_else (pads_attr a) (repeat 0%nat (2 * length v)))) 4) as [LP|]; [|discriminate]. cbn [Array.guard Array.obind].
  destruct (existsb _ (or_else (strides_attr a) _)) eqn:ZS; [discriminate|]. cbn [negb Array.guard Array.obind].
  intros Q. injection Q as <-. cbn [ct_kernel ct_group].
  split; [reflexivity|]. split; [auto|]. split; [intros I; now rewrite existsb_zero in Z0|]. split; [auto|]. split; [auto|].
  split. { intros u d E I. rewrite E in DL. cbn [or_else] in DL. rewrite forallb_forall in DL. apply DL in I. now apply Nat.eqb_eq in I. }
  split. { intros u E. rewrite E in LS, ZS. cbn [or_else] in LS, ZS. split; auto. intros I. now rewrite existsb_zero in ZS. }
  split; intros u E; [rewrite E in LP|rewrite E in LO]; auto.
Qed.
Lemma ct_sums_inv p P x w b t : length (ct_kernel P) = 2%nat -> ct_group P = 1%nat -> ct_sums p P x w b = Some t ->
  length (dims x) = 4%nat /\ length (dims w) = 4%nat /\ nth_error (dims w) 0 = nth_error (dims x) 1 /\
  ct_kernel P = skipn 2 (dims w) /\ (flat b = [] \/ dims b = firstn 1 (skipn 1 (dims w))).
Proof.
  intros LK G. unfold ct_sums. destruct (Nat.eqb_spec (length (dims x)) 4) as [LX|]; [|discriminate]. cbn [Array.guard Array.obind].
  destruct (dims x) as [|n [|ci [|h [|v [|]]]]]; try discriminate LX. cbn [Array.aget nth_error Array.obind].
  destruct (ct_kernel P) as [|k1 [|k2 [|]]]; try discriminate LK. cbn [nth_error Array.obind].
  destruct (Nat.eqb_spec (length (dims w)) 4) as [LW|]; [|discriminate]. cbn [Array.guard Array.obind].
  destruct (dims w) as [|w0 [|w1 [|w2 [|w3 [|]]]]]; try discriminate LW. cbn [nth_error Array.obind skipn firstn].
  destruct (Nat.eqb_spec w0 ci) as [->|]; [|discriminate]. cbn [Array.guard Array.obind].
  destruct (Nat.eqb_spec w2 k1) as [->|]; [|discriminate]. destruct (Nat.eqb_spec w3 k2) as [->|]; [|discriminate]. cbn [andb Array.guard Array.obind].
  rewrite G, Nat.mul_1_r. unfold Array.aget.
  do 10 (match goal with |- Array.obind ?o _ = _ -> _ => destruct o; [|discriminate]; cbn [Array.obind] end).
  match goal with |- Array.obind ?o _ = _ -> _ => destruct o; [|discriminate]; cbn [Array.obind] end.
  match goal with |- Array.obind ?o _ = _ -> _ => destruct o eqn:BE; [|discriminate]; cbn [Array.obind] end.
  intros _. do 4 (split; [reflexivity|]). destruct (flat b) as [|z l]; [now left|]. right.
  destruct (dims b) as [|d0 [|]]; cbn in BE; try discriminate. destruct (Nat.eqb_spec d0 w1) as [E1|]; [now rewrite E1|discriminate].
Qed.
Lemma ct_refuses p c a is_rescale k n_bits x w b : ct_refused a x w b -> rejected p (conv_transpose_layer p c a is_rescale k n_bits x w b).
Proof.
  intros H T o. unfold conv_transpose_layer. destruct (ct_build a) as [P|] eqn:EB; [|cbn; tauto]. cbn [lift bind].
  destruct (ct_sums p P x w b) as [t|] eqn:ES; [|cbn; tauto]. exfalso.
  destruct (ct_build_inv a P EB) as (K & LK & KZ & G1 & G & DI & ST & PD & OP).
  destruct (ct_sums_inv p P x w b t LK G ES) as (LX & LW & CH & KW & BB).
  destruct H as [[H|(v & E & H)]|[(v & E & H)|[(v & d & E & H)|[(v & E & H)|[(v & E & H)|[(v & E & H)|[H|[H|[H|H]]]]]]]]].
  - congruence.
  - rewrite K in E. injection E as <-. destruct H as [H|[H|H]]; auto.
  - rewrite E in G1. cbn in G1. congruence.
  - destruct H as (I & N). now apply (DI v d) in E.
  - destruct (ST v E) as (Q1 & Q2). destruct H; auto.
  - apply PD in E. auto.
  - apply OP in E. auto.
  - auto.
  - auto.
  - auto.
  - destruct H as (H1 & H2). destruct BB; auto.
Qed.

(** *** Witness: output_shape is read by the shape inference only *)
Definition ct_plain (k : list nat) : ct_node :=
  {| kernel_attr := Some k; strides_attr := None; pads_attr := None; output_padding_attr := None; dilations_attr := None;
     output_shape_attr := None; group_attr := None |}.
Definition ct_with_shape (k o : list nat) : ct_node :=
  {| kernel_attr := Some k; strides_attr := None; pads_attr := None; output_padding_attr := None; dilations_attr := None;
     output_shape_attr := Some o; group_attr := None |}.
Lemma output_shape_ignored p c k n_bits : exists a x w b shape out, well_formed x /\ well_formed w /\
  infer_conv_transpose a (dims x) (dims w) = Some shape /\
  yields p (conv_transpose_layer p c a false k n_bits (encoded p x) (encoded p w) (encoded p b)) out /\
  well_formed out /\ dims out <> shape.
Proof.
  exists (ct_with_shape [3; 3]%nat [1; 1]%nat), (t4 [1; 1; 1; 1]%nat [2]), (t4 [1; 1; 3; 3]%nat [1; 2; 3; 4; 5; 6; 7; 8; 9]), no_bias, [1; 1; 1; 1]%nat.
  destruct (ct_sums p (ct_P 3 3 0 0 (square 1 0)) (encoded p (t4 [1; 1; 1; 1]%nat [2]))
    (encoded p (t4 [1; 1; 3; 3]%nat [1; 2; 3; 4; 5; 6; 7; 8; 9])) (encoded p no_bias)) as [t|] eqn:E; [|discriminate E].
  exists t. split; [reflexivity|]. split; [reflexivity|]. split; [reflexivity|].
  assert (EB : ct_build (ct_with_shape [3; 3]%nat [1; 1]%nat) = Some (ct_P 3 3 0 0 (square 1 0))) by reflexivity.
  split.
  - unfold conv_transpose_layer. rewrite EB. cbn [lift bind]. rewrite E. cbn [lift bind]. destruct t as [d f]. split; [intros; cbn; split; congruence|reflexivity].
  - injection E as <-. split; [reflexivity|discriminate].
Qed.
