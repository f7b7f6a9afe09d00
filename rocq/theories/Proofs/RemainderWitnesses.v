(** Small models and proofs of the Remainder backend. *)
From Coq Require Import ZArith Znumtheory List Bool Lia String.
From Verif Require Import Base.Array Base.Pocklington Spec.Numbers Spec.Remainder Spec.RemainderCircuit Model.Remainder.
From Verif Require Import Proofs.RemainderSound Proofs.RemainderLayers.
Import ListNotations.
Local Open Scope string_scope.
Local Open Scope Z_scope.

Definition dense_layer n i o (w : list nat * list Z) (b : list Z) :=
  mkLayer n Gemm [i; n ++ "w"; n ++ "b"]%string [o] [1; 1]%nat None [((n ++ "w")%string, w); ((n ++ "b")%string, ([List.length b], b))] false false None [] [] None.
Definition relu_layer n i o bits := mkLayer n Relu [i] [o] [1]%nat (Some bits) [] false false None [] [] None.
Definition net shape ls o := mkModel ["x"] [("x", shape)] [o] ls 2 4 16.

(** Relu with a width. *)
Definition relu_model := net [1]%nat [relu_layer "t" "x" "y" 7] "y".
Definition relu_proof widths := mkProof [0] widths [(SLayer "t" "max", [0]); (SLayer "t" "di", [20]); (SLayer "t" "dz", [0])].

Lemma bn254_big : 2 ^ 200 < bn254_r. Proof. vm_compute. reflexivity. Qed.

Lemma widths_matter : exists m input pf observed,
  verify bn254_r m pf input = true /\
  forall pf', pf_observed pf' = observed -> verify bn254_r m pf' input = false.
Proof.
  exists relu_model, [-20], (relu_proof [("t", 9%nat)]), [("t", 8%nat)]. split; [vm_compute; reflexivity|].
  intros pf' Ho. destruct (verify bn254_r relu_model pf' [-20]) eqn:E; [|reflexivity]. exfalso.
  pose proof bn254_big as Hb.
  assert (B : 2 ^ 20 < bn254_r) by (vm_compute; reflexivity).
  destruct (relu_width bn254_r relu_model pf' [-20] 0 (relu_layer "t" "x" "y" 7) 8 "x" "y" bn254_prime B E) as (_ & xs & ys & Ex & _ & _ & H).
  - split; [reflexivity|]. repeat constructor; cbn; intuition congruence.
  - reflexivity.
  - unfold width_is. rewrite Ho. reflexivity.
  - reflexivity.
  - now left.
  - rewrite (input_value _ _ _ _ "x" E eq_refl) in Ex. cbn in Ex. injection Ex as <-.
    destruct (H 0%nat ltac:(cbn; lia)) as (_ & H0). cbn [at_ nth] in H0.
    assert (S : signed bn254_r (-20) = -20) by (vm_compute; reflexivity). rewrite S in H0. cbn in H0. lia.
Qed.

(** Two dense layers. *)
Definition two_model := net [1]%nat [dense_layer "a" "x" "y" ([1; 1]%nat, [48]) [0]; dense_layer "b" "y" "z" ([1; 1]%nat, [160]) [0]] "z".
Definition inv16 : Z := ((bn254_r * 15) + 1) / 16.
Definition honest := mkProof [150] [] [(SLayer "a" "q", [15]); (SLayer "a" "r", [0]); (SLayer "b" "q", [150]); (SLayer "b" "r", [0])].
Definition cheating := mkProof [140] [] [(SLayer "a" "q", [225 * inv16]); (SLayer "a" "r", [15]); (SLayer "b" "q", [140]); (SLayer "b" "r", [10])].

Ltac weights_tac :=
  let name := fresh in let shape := fresh in let data := fresh in let H := fresh in
  intros name shape data H; cbn [l_weights dense_layer hget relu_layer] in H;
  repeat match type of H with
  | (if String.eqb ?a ?b then _ else _) = _ => destruct (String.eqb_spec a b)
  end; try discriminate; injection H as <- <-;
  (split; [intros ? I; cbn in I; unfold i64; intuition lia|]);
  (split; [intros ? I; cbn in I; intuition (subst; lia)|]);
  intros _ ? ? ? N S; cbn in N; try (injection N as <-; discriminate); try (injection S as <- <- <-; cbn; lia); try discriminate.

Lemma two_outputs : exists m input pf pf',
  m_alpha m = 2 ^ Z.of_nat (m_exponent m) /\ (forall l, In l (m_layers m) -> l_op l = Gemm /\ weights_ok l) /\
  verify bn254_r m pf input = true /\ verify bn254_r m pf' input = true /\ pf_expected pf = [150] /\ pf_expected pf' = [140].
Proof.
  exists two_model, [5], honest, cheating. split; [reflexivity|]. split.
  { intros l [<-|[<-|[]]]; (split; [reflexivity|]); weights_tac. }
  repeat split; vm_compute; reflexivity.
Qed.

(** A transposition. *)
Definition transpose_layer n i o := mkLayer n Transpose [i] [o] [1]%nat None [] false false None [] [] None.
Lemma any_output : exists m input, (exists l, m_layers m = [l] /\ l_op l = Transpose) /\
  forall v, exists pf, pf_expected pf = [v] /\ verify bn254_r m pf input = true.
Proof.
  exists (net [1]%nat [transpose_layer "t" "x" "y"] "y"), [5]. split; [eexists; split; reflexivity|].
  intros v. exists (mkProof [v] [] [(SLayer "t" "out", [v])]). split; [reflexivity|].
  transitivity (if (v - v) mod bn254_r =? 0 then true else false).
  - cbv -[Z.sub Z.modulo bn254_r]. destruct ((v - v) mod bn254_r); reflexivity.
  - rewrite Z.sub_diag. reflexivity.
Qed.

(** A perceptron: two inputs, two hidden units, one output. *)
Definition mlp_model := net [2]%nat
  [dense_layer "a" "x" "h" ([2; 2]%nat, [48; -16; 16; 32]) [5; 0]; relu_layer "t" "h" "g" 9;
   dense_layer "b" "g" "z" ([2; 1]%nat, [28; 3]) [7]] "z".
Definition mlp_proof := mkProof [21] []
  [(SLayer "a" "q", [12; -11]); (SLayer "a" "r", [5; 0]);
   (SLayer "t" "max", [12; 0]); (SLayer "t" "di", [0; 11]); (SLayer "t" "dz", [12; 0]);
   (SLayer "b" "q", [21]); (SLayer "b" "r", [7])].

Lemma mlp_met :
  prime bn254_r /\ 2 ^ 200 < bn254_r /\ verify bn254_r mlp_model mlp_proof [5; -3] = true /\
  NoDup (map l_name (m_layers mlp_model)) /\ chained "x" (m_layers mlp_model) "z" /\ relu_guarded (m_layers mlp_model) /\
  (forall l, In l (m_layers mlp_model) -> weights_ok l) /\ infer 16 (m_layers mlp_model) [5; -3] = Some [21] /\ pf_expected mlp_proof = [21].
Proof.
  split; [exact bn254_prime|]. split; [exact bn254_big|]. split; [vm_compute; reflexivity|].
  split; [repeat constructor; cbn; intuition congruence|].
  split. { cbn. exists "h". split; [reflexivity|]. split; [reflexivity|]. exists "g". split; [reflexivity|]. split; [reflexivity|].
    exists "z". auto. }
  split; [cbn; repeat split; congruence|].
  split. { intros l [<-|[<-|[<-|[]]]]; weights_tac. }
  split; [vm_compute; reflexivity|reflexivity].
Qed.

(** One layer of every other kind, on a 2x2 image. *)
Definition image := [1; 2; 2]%nat.
Definition conv_layer := mkLayer "c" Conv ["x"; "w"; "b"] ["y"] [1; 2; 1]%nat None
  [("w", ([1; 1; 2; 2]%nat, [16; 32; 48; 64])); ("b", ([1]%nat, [9]))] false false None [1; 0; 0; 0]%nat [1; 1]%nat None.
Definition conv_model := net image [conv_layer] "y".
Definition conv_proof := mkProof [11; 30] [] [(SLayer "c" "q", [11; 30]); (SLayer "c" "r", [9; 9])].
Definition pool_layer := mkLayer "p" MaxPool ["x"] ["y"] [1; 1; 1]%nat (Some 6%nat) [] false false (Some [2; 2]%nat) [] [2; 2]%nat None.
Definition pool_model := net image [pool_layer] "y".
Definition pool_proof := mkProof [4] []
  [(SLayer "p" "max", [4]); (SDelta "p" 0, [3]); (SDelta "p" 1, [2]); (SDelta "p" 2, [1]); (SDelta "p" 3, [0])].
Definition norm_layer := mkLayer "n" BatchNorm ["x"; "m"; "a"] ["y"] image None [("m", ([1]%nat, [32])); ("a", ([1]%nat, [5]))] false false None [] [] None.
Definition norm_model := net image [norm_layer] "y".
Definition norm_proof := mkProof [2; 4; 6; 8] [] [(SLayer "n" "q", [2; 4; 6; 8]); (SLayer "n" "r", [5; 5; 5; 5])].
Definition add_layer := mkLayer "s" Add ["x"; "k"] ["y"] image None [("k", (image, [10; 20; 30; 40]))] false false None [] [] None.
Definition add_model := net image [add_layer] "y".
Definition add_proof := mkProof [11; 22; 33; 44] [] [(SLayer "s" "result", [11; 22; 33; 44])].

Lemma layers_met :
  verify bn254_r conv_model conv_proof [1; 2; 3; 4] = true /\ tensor_layout conv_model conv_proof [1; 2; 3; 4] 0 "x" = Some (CHW 1 2 2) /\
  layer_at conv_model 0 conv_layer /\
  verify bn254_r pool_model pool_proof [1; 2; 3; 4] = true /\ layer_at pool_model 0 pool_layer /\ width_set pool_proof pool_layer /\
  verify bn254_r norm_model norm_proof [1; 2; 3; 4] = true /\ layer_at norm_model 0 norm_layer /\
  verify bn254_r add_model add_proof [1; 2; 3; 4] = true /\ layer_at add_model 0 add_layer.
Proof.
  assert (N : forall (a : string), NoDup [a]) by (intros; repeat constructor; intros []).
  repeat split; try (vm_compute; reflexivity); try apply N. left. discriminate.
Qed.
Lemma layers_rejected :
  verify bn254_r conv_model conv_proof [1; 2; 3; 5] = false /\ verify bn254_r pool_model pool_proof [1; 2; 3; 5] = false /\
  verify bn254_r norm_model norm_proof [1; 2; 3; 5] = false /\ verify bn254_r add_model add_proof [1; 2; 3; 5] = false.
Proof. repeat split; vm_compute; reflexivity. Qed.
