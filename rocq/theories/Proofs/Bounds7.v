From Coq Require Import List Arith Bool Reals String ZArith Znumtheory Lia Lra.
From Verif Require Import Spec.Shapes Spec.Tensors Spec.RealOps Spec.Widths Model.Bounds Proofs.Bounds Proofs.Bounds2 Proofs.Bounds3 Proofs.Bounds4 Proofs.Bounds5 Proofs.Bounds6.
Import ListNotations.
Local Open Scope string_scope.
Local Open Scope nat_scope.
Local Open Scope R_scope.

Ltac bits n := unfold compute_bounds; cbn [bounds_loop]; unfold layer_bound, compute_layer_bound, input_bound, weight_at, map_get;
  cbn -[pow f64_max compute_n_bits max_abs max_list l1 Rmult Rplus Rinv Rdiv INR Rmax].
Ltac one_abs := cbn; unfold Rmax; repeat destruct (Rle_dec _ _); try lra.
Lemma max_abs_1 x : max_abs [x] = Rabs x.
Proof. unfold max_abs, max_list. cbn. rewrite Rmax_right; [reflexivity|apply Rabs_pos]. Qed.
Lemma l1_1 x : l1 [x] = Rabs x. Proof. unfold l1. cbn. lra. Qed.

(** A Constant node *)
Definition const_layers : list layer :=
  [ {| name := "c"; body := mk Constant [] ["c"]; weights := [] |};
    {| name := "m"; body := mk Mul ["x"; "c"] ["y"]; weights := [("c", vec [100])] |} ].
Definition const_env := env_of [("x", vec [1]); ("c", vec [100]); ("y", vec [100])].
Lemma const_narrow : ~ widths_suffice (fun alpha shapes env l => kind (body l) = Constant \/ supported alpha shapes env l).
Proof.
  intros H. specialize (H (2 ^ 18) (fun _ => None) ["x"] const_layers const_env [("y", 1); ("c", 1); ("x", 1)] [("m", 19%nat)] r18).
  destruct H with (l := nth 1 const_layers max_layer) as (k & Ek & G).
  - split; [split; [|split]|].
    + intros s t [<-|[]] [= <-]. entries. rewrite Rabs_R1. lra.
    + outs. { entries. exact I. } entries. exists 1, 100. cbn. repeat split; auto. lra.
    + apply env_all. entries; reflexivity.
    + ord.
  - repeat constructor; cbn; intuition discriminate.
  - constructor; [left; reflexivity|]. constructor; [right; exact I|constructor].
  - bits tt. rewrite Rmult_1_l, n_bits_19. destruct (Rlt_dec _ _) as [C|C]; [|reflexivity].
    destruct (huge 1); [cbn; lra|exact C].
  - cbn. auto.
  - reflexivity.
  - cbn in Ek. injection Ek as <-. specialize (G 0%nat "y" (vec [100]) eq_refl eq_refl). inversion G as [|? ? B _]; subst.
    specialize (B ltac:(discriminate)). rewrite Rabs_right in B; cbn in B; lra.
Qed.

(** A constant vector on the left of MatMul *)
Definition vm_layer : layer := {| name := "m"; body := mk MatMul ["c"; "x"] ["y"]; weights := [("c", vec [1; 1])] |}.
Definition ones : tensor R := {| dims := [2; 1]%nat; flat := [1; 1] |}.
Definition vm_env := env_of [("x", ones); ("c", vec [1; 1]); ("y", vec [2])].
Lemma vm_narrow : ~ widths_suffice (fun alpha shapes env l => kind (body l) = MatMul \/ supported alpha shapes env l).
Proof.
  intros H. specialize (H (2 ^ 18) (fun _ => None) ["x"] [vm_layer] vm_env [("y", 1); ("x", 1)] [("m", 19%nat)] r18).
  destruct H with (l := vm_layer) as (k & Ek & G).
  - split; [split; [|split]|].
    + intros s t [<-|[]] [= <-]. entries; rewrite Rabs_R1; lra.
    + outs. entries. exists (vec [1; 1]), ones, 0%nat, 0%nat, 0%nat. cbn. repeat split; try discriminate; try lia. unfold dot. cbn. lra.
    + apply env_all. entries; reflexivity.
    + ord.
  - repeat constructor. intros [].
  - repeat constructor.
  - bits tt. unfold max_list. cbn -[pow f64_max compute_n_bits]. rewrite ?l1_1, ?Rabs_R1.
    replace (Rmax (Rmax 0 (0 + 1)) (0 + 1) * 1) with 1 by one_abs.
    rewrite n_bits_19. destruct (Rlt_dec _ _) as [C|C]; [|reflexivity].
    destruct (huge 1); [cbn; lra|exact C].
  - left. reflexivity.
  - reflexivity.
  - cbn in Ek. injection Ek as <-. specialize (G 0%nat "y" (vec [2]) eq_refl eq_refl). inversion G as [|? ? B _]; subst.
    specialize (B ltac:(discriminate)). rewrite Rabs_right in B; cbn in B; lra.
Qed.

(** A division by a runtime tensor *)
Definition div_layers : list layer :=
  [ {| name := "d"; body := mk Div ["x"; "z"] ["q"]; weights := [] |};
    {| name := "r"; body := mk Relu ["q"] ["y"]; weights := [] |} ].
Definition div_env := env_of [("x", vec [1]); ("z", vec [/ 100]); ("q", vec [100]); ("y", vec [100])].
Lemma div_narrow : ~ widths_suffice (fun alpha shapes env l => kind (body l) = Div \/ supported alpha shapes env l).
Proof.
  intros H. specialize (H (2 ^ 18) (fun _ => None) ["x"; "z"] div_layers div_env [("y", 1); ("q", 1); ("z", 1); ("x", 1)] [("r", 19%nat)] r18).
  destruct H with (l := nth 1 div_layers max_layer) as (k & Ek & G).
  - split; [split; [|split]|].
    + intros s t [<-|[<-|[]]] [= <-]; entries; rewrite Rabs_right; lra.
    + outs. { entries. exists 1, (/ 100). cbn. repeat split; auto; lra. }
      entries. exists 100. split; [left; reflexivity|]. rewrite Rmax_right; lra.
    + apply env_all. entries; reflexivity.
    + ord.
  - repeat constructor; cbn; intuition discriminate.
  - constructor; [left; reflexivity|]. constructor; [right; exact I|constructor].
  - bits tt. replace (1 / 1) with 1 by lra. rewrite n_bits_19. destruct (Rlt_dec _ _) as [C|C]; [|reflexivity].
    destruct (huge 1); [cbn; lra|exact C].
  - cbn. auto.
  - reflexivity.
  - cbn in Ek. injection Ek as <-. specialize (G 0%nat "y" (vec [100]) eq_refl eq_refl). inversion G as [|? ? B _]; subst.
    specialize (B ltac:(discriminate)). rewrite Rabs_right in B; cbn in B; lra.
Qed.

(** Two layers with one name *)
Definition twice_layers : list layer :=
  [ {| name := ""; body := mk Mul ["x"; "c"] ["y"]; weights := [("c", vec [100])] |};
    {| name := ""; body := mk Relu ["x"] ["z"]; weights := [] |} ].
Definition twice_env := env_of [("x", vec [1]); ("c", vec [100]); ("y", vec [100]); ("z", vec [1])].
Lemma twice_narrow : exists n_bits,
  consistent ["x"] twice_layers twice_env /\ Forall (supported (2 ^ 18) (fun _ => None) twice_env) twice_layers /\
  option_map snd (compute_bounds (2 ^ 18) (fun _ => None) ["x"] twice_layers) = Some n_bits /\
  map_get "" n_bits = Some 19%nat /\
  ~ bits_hold (2 ^ 18) twice_env (mk Mul ["x"; "c"] ["y"]) 19.
Proof.
  eexists. split; [split; [split; [|split]|]|split; [|split; [|split]]].
  - intros s t [<-|[]] [= <-]. entries. rewrite Rabs_R1. lra.
  - outs. { entries. exists 1, 100. cbn. repeat split; auto. lra. }
    entries. exists 1. split; [left; reflexivity|]. rewrite Rmax_right; lra.
  - apply env_all. entries; reflexivity.
  - ord.
  - repeat constructor.
  - bits tt. rewrite max_abs_1, (Rabs_right 100), Rmult_1_l by lra.
    destruct (Rlt_dec _ _) as [C|C]; [destruct (huge 100); [cbn; lra|exact C]|].
    destruct (Rlt_dec _ _) as [C'|C']; [destruct (huge 1); [cbn; lra|exact C']|]. reflexivity.
  - unfold map_get. cbn -[compute_n_bits pow]. rewrite n_bits_19. reflexivity.
  - intros G. specialize (G 0%nat "y" (vec [100]) eq_refl eq_refl). inversion G as [|? ? B _]; subst.
    specialize (B ltac:(discriminate)). rewrite Rabs_right in B; cbn in B; lra.
Qed.
