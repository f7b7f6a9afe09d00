(** Small models for the honest prover of the Remainder backend. *)
From Coq Require Import ZArith Znumtheory List Bool Lia String.
From Verif Require Import Base.Array Base.Machine Base.Pocklington Spec.Numbers Spec.Remainder Spec.RemainderCircuit Spec.RemainderHonest
  Model.Remainder Model.RemainderWitness.
From Verif Require Import Proofs.RemainderArith Proofs.RemainderSound Proofs.RemainderLayers Proofs.RemainderMlp Proofs.RemainderImages Proofs.RemainderConv
  Proofs.RemainderWitnesses Proofs.RemainderHonestMain Proofs.RemainderHonestExact.
Import ListNotations.
Local Open Scope string_scope.
Local Open Scope Z_scope.

Definition reshape_to n i o shape := mkLayer n Reshape [i] [o] shape None [] false false None [] [] None.
Definition pool_to n i o shape strides := mkLayer n MaxPool [i] [o] shape None [] false false (Some [2; 2]%nat) [] strides None.
Definition conv_to n i o shape w := mkLayer n Conv [i; n ++ "w"]%string [o] shape None [((n ++ "w")%string, w)] false false None [] [1; 1]%nat None.
Definition relu_to n i o shape := mkLayer n Relu [i] [o] shape None [] false false None [] [] None.

(** Pooling after a reshape. *)
Definition reshaped_model := net [1; 4; 4]%nat [reshape_to "r" "x" "y" [4; 2; 2]%nat; pool_to "p" "y" "z" [4; 1; 1]%nat [2; 2]%nat] "z".
Definition grid := [1; 2; 3; 4; 5; 6; 7; 8; 9; 10; 11; 12; 13; 14; 15; 16].

(** Five channels of three pixels, flattened and given to a dense layer. *)
Definition wide_model := net [1; 1; 3]%nat
  [conv_to "c" "x" "f" [5; 1; 3]%nat ([5; 1; 1; 1]%nat, [16; 32; 48; 64; 80]); reshape_to "r" "f" "v" [15]%nat;
   dense_layer "d" "v" "z" ([15; 1]%nat, repeat 16 15) [0]] "z".

(** A constant named [result]. *)
Definition result_model := net [2]%nat
  [mkLayer "s" Add ["x"; "result"] ["y"] [2]%nat None [("result", ([2]%nat, [10; 20]))] false false None [] [] None] "y".

(** A convolutional network. *)
Definition cnn_model := net [1; 4; 4]%nat
  [conv_to "c" "x" "f" [1; 3; 3]%nat ([1; 1; 2; 2]%nat, [16; -32; 48; -16]); relu_to "t" "f" "g" [1; 3; 3]%nat;
   pool_to "p" "g" "h" [1; 2; 2]%nat [1; 1]%nat; reshape_to "r" "h" "v" [4]%nat;
   dense_layer "d" "v" "z" ([4; 1]%nat, [16; 32; 48; 64]) [7]] "z".

(** Two channels of two pixels, flattened and given to a dense layer. *)
Definition flat_model := net [1; 1; 2]%nat
  [conv_to "c" "x" "f" [2; 1; 2]%nat ([2; 1; 1; 1]%nat, [16; 160]); reshape_to "r" "f" "v" [4]%nat;
   dense_layer "d" "v" "z" ([4; 1]%nat, [0; 16; 0; 0]) [0]] "z".

(** A perceptron with two dense layers in a row. *)
Definition deep_model := net [2]%nat
  [dense_layer "a" "x" "h" ([2; 2]%nat, [48; -16; 16; 32]) [5; 0]; dense_layer "c" "h" "k" ([2; 2]%nat, [16; 3; -7; 32]) [1; 0];
   relu_layer "t" "k" "g" 9; dense_layer "b" "g" "z" ([2; 1]%nat, [28; 3]) [7]] "z".

Definition run (m : model) (input : list Z) : option (witness_data * proof) :=
  let* w := compute_witness m input in let* pf := generate_proof m w in Some (w, pf).
Lemma run_spec m input w pf : run m input = Some (w, pf) -> compute_witness m input = Some w /\ generate_proof m w = Some pf.
Proof.
  unfold run. intros H. destruct (compute_witness m input) as [w'|]; [|discriminate]. cbn [obind] in H.
  destruct (generate_proof m w') as [pf'|] eqn:E; [|discriminate]. injection H as <- <-. auto.
Qed.

Ltac nth_cases H k := first [(destruct k; discriminate H) |
  destruct k as [|k]; cbn [nth_error] in H; [injection H as <-|nth_cases H k]].
Ltac names_tac := repeat constructor; cbn; intuition congruence.
Ltac layers_in H := cbn [m_layers net cnn_model flat_model deep_model reshaped_model wide_model result_model] in H.
Ltac dense_tac := let k := fresh "k" in let H := fresh "H" in
  intros k ? ? ? ? ? ? ? ? H; layers_in H; nth_cases H k;
  let Hop := fresh in intros Hop; first [discriminate Hop |
  clear Hop; let Hx := fresh in let Hw := fresh in let Hd := fresh in let Hc := fresh in
  intros Hx Hw Hd Hc; cbn in Hx; injection Hx as <-; cbn in Hw; injection Hw as <-; cbn in Hd; injection Hd as <- <- <- <-;
  vm_compute in Hc; injection Hc as <-; reflexivity].
Ltac operand_tac := let k := fresh "k" in let H := fresh "H" in
  intros k ? H; layers_in H; nth_cases H k; intros [F|F]; discriminate F.
Ltac split_cases before E := first [(destruct before; discriminate E) |
  destruct before as [|? before]; cbn [app] in E; [injection E as <- <-|injection E as _ E; split_cases before E]].
Ltac images_tac := let before := fresh "before" in let E := fresh "E" in
  intros before ? ? ? E; layers_in E; split_cases before E;
  let Hop := fresh in intros Hop; first [discriminate Hop | let I := fresh in intros I; cbn in I; intuition (subst; easy)].
Ltac range_tac := let v := fresh in let H := fresh in intros v H; cbn in H; unfold i64; repeat (destruct H as [<-|H]; [lia|]); destruct H.

Lemma reshape_rejected : exists m input w pf,
  NoDup (map l_name (m_layers m)) /\ dense_sizes_agree m input /\ operand_sizes_agree m input /\ (forall v, In v input -> i64 v) /\
  compute_witness m input = Some w /\ generate_proof m w = Some pf /\ verify bn254_r m pf input = false.
Proof.
  destruct (run reshaped_model grid) as [(w, pf)|] eqn:E; [|vm_compute in E; discriminate].
  exists reshaped_model, grid, w, pf. split; [names_tac|]. split; [dense_tac|]. split; [operand_tac|]. split; [range_tac|].
  split; [now apply run_spec with pf|]. split; [now apply (run_spec _ grid)|].
  vm_compute in E. injection E as <- <-. vm_compute. reflexivity.
Qed.

Lemma wide_rejected : exists m input w pf,
  NoDup (map l_name (m_layers m)) /\ images_first m /\ operand_sizes_agree m input /\ (forall v, In v input -> i64 v) /\
  compute_witness m input = Some w /\ generate_proof m w = Some pf /\ verify bn254_r m pf input = false.
Proof.
  destruct (run wide_model [1; 2; 3]) as [(w, pf)|] eqn:E; [|vm_compute in E; discriminate].
  exists wide_model, [1; 2; 3], w, pf. split; [names_tac|]. split; [cbn [wide_model]; images_tac|]. split; [cbn [wide_model]; operand_tac|]. split; [range_tac|].
  split; [now apply run_spec with pf|]. split; [now apply (run_spec _ [1; 2; 3])|].
  vm_compute in E. injection E as <- <-. vm_compute. reflexivity.
Qed.

Lemma result_rejected : exists m input w pf,
  NoDup (map l_name (m_layers m)) /\ images_first m /\ dense_sizes_agree m input /\ (forall v, In v input -> i64 v) /\
  compute_witness m input = Some w /\ generate_proof m w = Some pf /\ verify bn254_r m pf input = false.
Proof.
  destruct (run result_model [1; 2]) as [(w, pf)|] eqn:E; [|vm_compute in E; discriminate].
  exists result_model, [1; 2], w, pf. split; [names_tac|]. split; [cbn [result_model]; images_tac|]. split; [cbn [result_model]; dense_tac|]. split; [range_tac|].
  split; [now apply run_spec with pf|]. split; [now apply (run_spec _ [1; 2])|].
  vm_compute in E. injection E as <- <-. vm_compute. reflexivity.
Qed.

Lemma cnn_met : exists pf, provable cnn_model grid /\ honest_proof cnn_model grid pf /\ pf_expected pf = [144] /\
  tensor_layout cnn_model pf grid 0 "x" = Some (CHW 1 4 4) /\ tensor_layout cnn_model pf grid 2 "g" = Some (HWC 3 3 1 1).
Proof.
  destruct (run cnn_model grid) as [(w, pf)|] eqn:E; [|vm_compute in E; discriminate].
  exists pf. split; [split; [names_tac|]; split; [split; [reflexivity|unfold i64; cbn; lia]|]; split; [range_tac|]; split; [images_tac|]; split; [dense_tac|operand_tac]|].
  split; [exists w; now apply run_spec|]. vm_compute in E. injection E as <- <-. repeat split; vm_compute; reflexivity.
Qed.

(** One layer of every other kind. *)
Lemma layers_run : 
  (exists w pf, compute_witness conv_model [1; 2; 3; 4] = Some w /\ generate_proof conv_model w = Some pf /\ pf_expected pf = [11; 30]) /\
  (exists w pf, compute_witness pool_model [1; 2; 3; 4] = Some w /\ generate_proof pool_model w = Some pf /\ pf_expected pf = [4]) /\
  (exists w pf, compute_witness norm_model [1; 2; 3; 4] = Some w /\ generate_proof norm_model w = Some pf /\ pf_expected pf = [2; 4; 6; 8]) /\
  (exists w pf, compute_witness add_model [1; 2; 3; 4] = Some w /\ generate_proof add_model w = Some pf /\ pf_expected pf = [11; 22; 33; 44]).
Proof.
  assert (R : forall m i e, option_map (fun wp => pf_expected (snd wp)) (run m i) = Some e ->
    exists w pf, compute_witness m i = Some w /\ generate_proof m w = Some pf /\ pf_expected pf = e).
  { intros m i e H. destruct (run m i) as [(w, pf)|] eqn:E; [|discriminate]. injection H as H. exists w, pf. apply run_spec in E. tauto. }
  repeat split; apply R; vm_compute; reflexivity.
Qed.

(** The flattening of two channels. *)
Lemma flat_disagrees : exists m conv reshape dense_l kernel input pf,
  m_layers m = [conv; reshape; dense_l] /\ l_op conv = Conv /\ l_op reshape = Reshape /\ l_op dense_l = Gemm /\
  hget (l_weights conv) "cw" = Some ([2; 1; 1; 1]%nat, kernel) /\
  provable m input /\ honest_proof m input pf /\ verify bn254_r m pf input = true /\
  dense (m_alpha m) dense_l (feature_maps (m_alpha m) conv (CHW 1 1 2) input kernel 2 1 1 1) = Some [2] /\ pf_expected pf = [10].
Proof.
  destruct (run flat_model [1; 2]) as [(w, pf)|] eqn:E; [|vm_compute in E; discriminate].
  assert (PR : provable flat_model [1; 2]).
  { split; [names_tac|]. split; [split; [reflexivity|unfold i64; cbn; lia]|]. split; [range_tac|]. split; [images_tac|]. split; [dense_tac|operand_tac]. }
  assert (HP : honest_proof flat_model [1; 2] pf) by (exists w; now apply run_spec).
  exists flat_model. do 3 eexists. exists [16; 160], [1; 2], pf. do 5 (split; [reflexivity|]). split; [exact PR|]. split; [exact HP|].
  split; [now apply accepted_honest|]. split; [vm_compute; reflexivity|].
  vm_compute in E. injection E as <- <-. reflexivity.
Qed.

Lemma deep_met : exists pf, provable deep_model [5; -3] /\ honest_proof deep_model [5; -3] pf /\ m_alpha deep_model = 2 ^ Z.of_nat (m_exponent deep_model) /\
  chained "x" (m_layers deep_model) "z" /\ (forall l, In l (m_layers deep_model) -> (l_op l = Gemm \/ l_op l = Relu) /\ weights_ok l) /\
  infer 16 (m_layers deep_model) [5; -3] = Some [28].
Proof.
  destruct (run deep_model [5; -3]) as [(w, pf)|] eqn:E; [|vm_compute in E; discriminate]. exists pf.
  split. { split; [names_tac|]. split; [split; [reflexivity|unfold i64; cbn; lia]|]. split; [range_tac|]. split; [cbn [deep_model]; images_tac|].
    split; [cbn [deep_model]; dense_tac|cbn [deep_model]; operand_tac]. }
  split; [exists w; now apply run_spec|]. split; [reflexivity|].
  split. { cbn. exists "h". split; [reflexivity|]. split; [reflexivity|]. exists "k". split; [reflexivity|]. split; [reflexivity|].
    exists "g". split; [reflexivity|]. split; [reflexivity|]. exists "z". auto. }
  split. { clear E. intros l Hl. cbn [m_layers deep_model net In] in Hl.
    destruct Hl as [<-|[<-|[<-|[<-|[]]]]]; (split; [(left; reflexivity) || (right; reflexivity)|]).
    - weights_tac.
    - weights_tac.
    - weights_tac.
    - weights_tac. }
  vm_compute. reflexivity.
Qed.
