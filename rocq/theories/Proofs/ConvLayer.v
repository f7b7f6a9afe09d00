(** Conv: from the sums to the layer; the convolution exists; refusals. *)
From Coq Require Import List Arith Bool ZArith Znumtheory Lia.
From Verif Require Base.Array.
From Verif Require Import Spec.Numbers Spec.Shapes Spec.Tensors Spec.HonestProver Spec.Selection Spec.Conv
  Model.Builder Model.Gadgets Model.Layers Model.Selection Model.Conv Model.ConvLayer
  Proofs.Builder Proofs.RangeCheck Proofs.Gadgets Proofs.Layers Proofs.Rescale Proofs.RescaleArray Proofs.ArithmeticProps Proofs.Tensors Proofs.Selection Proofs.Conv Proofs.Conv2.
Import ListNotations.
Local Open Scope Z_scope.

Lemma convolution_exists g x w b : conv_operands g x w b -> exists y, well_formed y /\ convolved g x w b y.
Proof.
  intros (_ & _ & _ & _ & _ & n & ch & h & v & m & kh & kw & DX & DW & _).
  set (d2 := positions h kh (top g) (bottom g) (down g)). set (d3 := positions v kw (left g) (right g) (across g)).
  exists {| dims := [n; m; d2; d3]; flat := map (value x w b ch kh kw g) (coords4 n m d2 d3) |}. split.
  - unfold well_formed. cbn [dims flat]. rewrite map_length, coords4_length. unfold prod. cbn [fold_right]. lia.
  - exists n, ch, h, v, m, kh, kw. split; [auto|]. split; [auto|]. cbn [dims]. split; [unfold output_shape; now rewrite DX, DW|].
    intros c0 c1 c2 c3 R. rewrite elem_in by auto. cbn [dims flat].
    repeat match goal with E : Shapes.in_range _ _ |- _ => unfold Shapes.in_range in E | E : Forall2 _ (_ :: _) _ |- _ => inversion E; clear E; subst end.
    replace (row_major [c0; c1; c2; c3] [n; m; d2; d3]) with (((c0 * m + c1) * d2 + c2) * d3 + c3)%nat
      by (unfold row_major; cbn [combine fold_left fst snd]; lia).
    rewrite nth_error_map. unfold coords4.
    pose proof (nth_error_list_prod (list_prod (list_prod (seq 0 n) (seq 0 m)) (seq 0 d2)) (seq 0 d3) ((c0 * m + c1) * d2 + c2) c3) as T.
    rewrite seq_length in T. rewrite T by lia. clear T.
    pose proof (nth_error_list_prod (list_prod (seq 0 n) (seq 0 m)) (seq 0 d2) (c0 * m + c1) c2) as T.
    rewrite seq_length in T. rewrite T by lia. clear T.
    pose proof (nth_error_list_prod (seq 0 n) (seq 0 m) c0 c1) as T.
    rewrite seq_length in T. rewrite T by lia. clear T.
    rewrite !nth_error_seq0 by lia. reflexivity.
Qed.


Lemma lift_accepts {A} p T (o : option A) a : accepts p T (lift o) a <-> o = Some a.
Proof. destruct o; cbn; split; congruence || tauto || (intros Q; now injection Q). Qed.

Section C.
Variables (p : Z) (c : nat) (F : nat -> list (list Z)) (k s : nat) (is_rescale is_relu : bool).
Hypothesis Hp : prime p.
Hypothesis Hc : (0 < c)%nat.
Hypothesis Hk : (k < 32)%nat.
Hypothesis Hs : (s < 64)%nat.
Hypothesis W1 : width_ok c k.
Hypothesis W2 : width_ok c (s + 1).
Hypothesis Big : 2 * (2 ^ Z.of_nat k * 2 ^ Z.of_nat (rounded c (s + 1)) + 2 ^ Z.of_nat (rounded c k)) <= p.

Lemma conv_layer_sound P g x w b y out : (k mod c = 0)%nat -> ((s + 1) mod c = 0)%nat ->
  conv_operands g x w b -> attributes P g w -> well_formed y -> convolved g x w b y ->
  Forall (layer_range k s is_rescale is_relu) (flat y) ->
  accepts p (table_rows c F) (conv_layer p c P is_rescale is_relu k (s + 1) (encoded p x) (encoded p w) (encoded p b)) out ->
  out = encoded p (after_layer k is_rescale is_relu y).
Proof.
  intros M1 M2 (WX & WW & B & S0 & S1 & n & ch & h & v & m & kh & kw & DX & DW & KH & KW & Q1 & Q2) A WY CY R.
  unfold conv_layer. rewrite accepts_bind. intros (t & E & G). apply lift_accepts in E.
  pose proof (conv_sound p x w b n ch h v m kh kw g P WX WW DX DW KH KW S0 S1 B A y t WY CY E) as ->.
  apply accepts_bind in G as (o & G & Z0). cbn [encoded flat dims] in G, Z0.
  apply (maybe_rescale_exact p c F k s is_rescale is_relu (flat y)) in G; auto.
  cbn [accepts] in Z0. subst. unfold encoded, after_layer. cbn [dims flat]. rewrite map_map. now rewrite <- ?Z0.
Qed.
Lemma conv_layer_run P g x w b y :
  conv_operands g x w b -> attributes P g w -> padding_within_kernel g w -> well_formed y -> convolved g x w b y ->
  Forall (layer_range k s is_rescale is_relu) (flat y) ->
  run honest_hint (table_rowsb c F) (conv_layer p c P is_rescale is_relu k (s + 1) (encoded p x) (encoded p w) (encoded p b)) =
  Some (encoded p (after_layer k is_rescale is_relu y)).
Proof.
  intros (WX & WW & B & S0 & S1 & n & ch & h & v & m & kh & kw & DX & DW & KH & KW & Q1 & Q2) A PK WY CY R.
  unfold conv_layer. rewrite run_bind.
  rewrite (conv_complete p x w b n ch h v m kh kw g P WX WW DX DW KH KW S0 S1 B A y WY CY PK Q1 Q2). cbn [lift run].
  rewrite run_bind. cbn [encoded flat dims]. rewrite (maybe_rescale_run p c F k s is_rescale is_relu (flat y)) by auto.
  cbn [run]. unfold encoded, after_layer. cbn [dims flat]. now rewrite map_map.
Qed.
End C.

Lemma infer_conv_ok P g x w b y : conv_operands g x w b -> attributes P g w -> convolved g x w b y ->
  infer_conv (dims x) (dims w) (Some (kernel_shape P)) (Some (strides P)) (Some (pads P)) (Some (dilations P)) = Some (dims y).
Proof.
  intros (WX & WW & B & S0 & S1 & n & ch & h & v & m & kh & kw & DX & DW & KH & KW & Q1 & Q2) A (?&?&?&?&?&?&?&_&_&E&_).
  rewrite E. exact (infer_conv_shape x w n ch h v m kh kw g P DX DW KH KW S0 S1 A Q1 Q2).
Qed.

(** *** Refusals *)
Definition none_rejected p c P is_rescale is_relu k n_bits x w b : conv_sums p P x w b = None ->
  rejected p (conv_layer p c P is_rescale is_relu k n_bits x w b).
Proof. intros E T o. unfold conv_layer. rewrite accepts_bind, E. intros (t & [] & _). Qed.

Lemma forallb_hd_false (l : list nat) : (exists d, In d l /\ d <> 1%nat) -> (hd 1 l =? 1)%nat = true -> forallb (Nat.eqb (hd 1%nat l)) l = false.
Proof.
  intros (d & Hd & N) E. apply Nat.eqb_eq in E. rewrite E. destruct (forallb _ l) eqn:Q; auto. rewrite forallb_forall in Q.
  apply Q in Hd. apply Nat.eqb_eq in Hd. congruence.
Qed.
Lemma conv_refuses p c P is_rescale is_relu k n_bits x w b :
  length (dims x) <> 4%nat \/ nth_error (groups P) 0 <> Some 1%nat \/ (exists d, In d (dilations P) /\ d <> 1%nat) \/
  In 0%nat (strides P) \/ (0 < length (pads P) < 4)%nat ->
  rejected p (conv_layer p c P is_rescale is_relu k n_bits x w b).
Proof.
  intros H. apply none_rejected. unfold conv_sums.
  destruct (set_default_params (dims x) P) as [P'|] eqn:D; [|reflexivity]. cbn [Array.obind].
  unfold set_default_params in D. destruct (length (dims x) <? 3)%nat eqn:L; [discriminate|]. cbn in D. injection D as <-.
  apply Nat.ltb_ge in L.
  unfold not_yet_implemented_conv. cbn [groups dilations].
  destruct (length (dims x) <? 2)%nat; [reflexivity|]. cbn [negb Array.guard Array.obind].
  unfold Array.aget. destruct (nth_error (groups P) 0) as [g|] eqn:G; [|reflexivity]. cbn [Array.obind].
  destruct (Nat.eqb_spec g 0); [reflexivity|]. cbn [negb Array.guard Array.obind].
  destruct (nth_error (dims x) 1); [|reflexivity]. cbn [Array.obind].
  destruct (_ mod g =? 0)%nat; [|reflexivity]. cbn [Array.guard Array.obind].
  destruct (Nat.ltb_spec 1 g); [reflexivity|]. cbn [negb Array.guard Array.obind].
  destruct (_ =? 1)%nat eqn:E1; [|reflexivity]. cbn [Array.guard Array.obind].
  destruct (forallb _ _) eqn:E2; [|reflexivity]. cbn [Array.guard Array.obind].
  destruct (Nat.leb_spec (length (dims x)) 3); [reflexivity|]. cbn [negb Array.guard Array.obind].
  destruct (Nat.leb_spec 5 (length (dims x))); [reflexivity|]. cbn [negb Array.guard Array.obind].
  destruct H as [H|[H|[H|[H|H]]]].
  - lia.
  - exfalso. apply H. f_equal. lia.
  - exfalso. destruct H as (d & Hd & N). destruct (dilations P) as [|d0 ds] eqn:DL; [contradiction|]. cbn [length Nat.eqb] in E1, E2.
    assert (Q : forallb (Nat.eqb (hd 1%nat (d0 :: ds))) (d0 :: ds) = false) by (apply forallb_hd_false; eauto). congruence.
  - unfold conv_shape_4. cbn [pads strides]. destruct (negb _); [|reflexivity]. cbn [Array.guard Array.obind].
    replace (forallb _ _) with false; [reflexivity|]. symmetry.
    destruct (strides P) as [|s0 ss] eqn:SS; [contradiction|]. cbn [length Nat.eqb].
    destruct (forallb _ (s0 :: ss)) eqn:Q; auto. rewrite forallb_forall in Q. apply Q in H. discriminate.
  - unfold conv_shape_4. cbn [pads]. destruct (pads P) as [|p0 ps] eqn:PS; [cbn in H; lia|]. cbn [length Nat.eqb]. cbn [length] in H.
    rewrite (proj2 (Nat.ltb_lt _ _)) by lia. reflexivity.
Qed.

(** *** Witnesses *)
Definition t4 (d : list nat) (l : list Z) : tensor Z := {| dims := d; flat := l |}.
Definition square (s pad : nat) : geometry := {| down := s; across := s; top := pad; left := pad; bottom := pad; right := pad |}.
Definition attrs (k : list nat) (s pad : nat) : conv_params :=
  {| dilations := [1; 1]%nat; kernel_shape := k; pads := [pad; pad; pad; pad]; strides := [s; s]; groups := [1]%nat |}.
Definition no_bias : tensor Z := t4 [0%nat] [].

Lemma wide_padding_refused : exists P g x w b shape, conv_operands g x w b /\ attributes P g w /\
  infer_conv (dims x) (dims w) (Some (kernel_shape P)) (Some (strides P)) (Some (pads P)) (Some (dilations P)) = Some shape /\
  shape = output_shape g x w /\
  forall p c is_rescale is_relu k n_bits, rejected p (conv_layer p c P is_rescale is_relu k n_bits (encoded p x) (encoded p w) (encoded p b)).
Proof.
  exists (attrs [1; 1]%nat 1 2), (square 1 2), (t4 [1; 1; 2; 2]%nat [1; 2; 3; 4]), (t4 [1; 1; 1; 1]%nat [7]), no_bias, [1; 1; 6; 6]%nat.
  split.
  { split; [reflexivity|]. split; [reflexivity|]. split; [left; reflexivity|]. split; [cbn; lia|]. split; [cbn; lia|].
    exists 1%nat, 1%nat, 2%nat, 2%nat, 1%nat, 1%nat, 1%nat. cbn. repeat split; lia. }
  split; [repeat split|]. split; [reflexivity|]. split; [reflexivity|].
  intros. apply none_rejected. reflexivity.
Qed.

Lemma conv_no_rescale p c P k n_bits x w b t : conv_sums p P x w b = Some t -> yields p (conv_layer p c P false false k n_bits x w b) t.
Proof.
  intros E. unfold conv_layer. rewrite E. destruct t as [d f]. split; [intros; cbn; split; congruence|reflexivity].
Qed.
Lemma malformed_accepted p c k n_bits :
  (exists P x w b shape out, well_formed x /\ well_formed w /\ kernel_shape P <> skipn 2 (dims w) /\
    infer_conv (dims x) (dims w) (Some (kernel_shape P)) (Some (strides P)) (Some (pads P)) (Some (dilations P)) = Some shape /\ dims out = shape /\
    yields p (conv_layer p c P false false k n_bits (encoded p x) (encoded p w) (encoded p b)) out) /\
  (exists P x w b shape out, well_formed x /\ well_formed w /\ nth_error (dims w) 1 <> nth_error (dims x) 1 /\
    infer_conv (dims x) (dims w) (Some (kernel_shape P)) (Some (strides P)) (Some (pads P)) (Some (dilations P)) = Some shape /\ dims out = shape /\
    yields p (conv_layer p c P false false k n_bits (encoded p x) (encoded p w) (encoded p b)) out).
Proof.
  split.
  - exists (attrs [1; 1]%nat 1 0), (t4 [1; 1; 2; 2]%nat [1; 2; 3; 4]), (t4 [1; 1; 2; 2]%nat [5; 6; 7; 8]), no_bias, [1; 1; 2; 2]%nat.
    destruct (conv_sums p (attrs [1; 1]%nat 1 0) (encoded p (t4 [1; 1; 2; 2]%nat [1; 2; 3; 4])) (encoded p (t4 [1; 1; 2; 2]%nat [5; 6; 7; 8])) (encoded p no_bias)) as [t|] eqn:E; [|discriminate E].
    exists t. split; [reflexivity|]. split; [reflexivity|]. split; [discriminate|]. split; [reflexivity|].
    split; [|now apply conv_no_rescale]. now injection E as <-.
  - exists (attrs [1; 1]%nat 1 0), (t4 [1; 1; 2; 2]%nat [1; 2; 3; 4]), (t4 [1; 2; 1; 1]%nat [5; 6]), no_bias, [1; 1; 2; 2]%nat.
    destruct (conv_sums p (attrs [1; 1]%nat 1 0) (encoded p (t4 [1; 1; 2; 2]%nat [1; 2; 3; 4])) (encoded p (t4 [1; 2; 1; 1]%nat [5; 6])) (encoded p no_bias)) as [t|] eqn:E; [|discriminate E].
    exists t. split; [reflexivity|]. split; [reflexivity|]. split; [discriminate|]. split; [reflexivity|].
    split; [|now apply conv_no_rescale]. now injection E as <-.
Qed.
