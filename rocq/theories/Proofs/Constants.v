From Coq Require Import List Arith Bool ZArith QArith Qround Qabs Lqa String Lia.
From Verif Require Import Spec.Constants Model.Resize Model.Constants Proofs.Resize.
Import ListNotations.
Local Open Scope string_scope.
Local Open Scope nat_scope.

Lemma lookup_app {A} name (l m : list (string * A)) : lookup name (l ++ m)%list = match lookup name l with Some a => Some a | None => lookup name m end.
Proof. induction l as [|[n a] l IH]; cbn; auto. destruct (n =? name)%string; auto. Qed.
Lemma lookup_update {A} name n (f : A -> A) l : lookup name (update n f l) = if (n =? name)%string then option_map f (lookup name l) else lookup name l.
Proof.
  induction l as [|[k a] l IH]; cbn; [now destruct (_ =? _)%string|].
  destruct (String.eqb_spec k name) as [->|N].
  - rewrite (String.eqb_sym n name). destruct (name =? n)%string; reflexivity.
  - exact IH.
Qed.
Lemma wandb_layer name ws : forall acc, lookup name (fold_left (fun acc '(n, td) =>
    match lookup n acc with Some _ => acc | None => (acc ++ [(n, as_i64_vec td)])%list end) ws acc) =
  match lookup name acc with Some c => Some c | None => option_map as_i64_vec (lookup name ws) end.
Proof.
  induction ws as [|[n td] ws IH]; intros acc; cbn [fold_left]; [now destruct (lookup name acc)|]. rewrite IH. cbn [lookup].
  destruct (String.eqb_spec n name) as [->|N].
  - destruct (lookup name acc) as [c|] eqn:E; [now rewrite E|]. rewrite lookup_app, E. cbn [lookup]. rewrite String.eqb_refl. reflexivity.
  - destruct (lookup n acc); [reflexivity|]. rewrite lookup_app. cbn [lookup]. rewrite (proj2 (String.eqb_neq _ _)) by auto. now destruct (lookup name acc).
Qed.
Lemma wandb_lookup name layers : forall acc, lookup name (fold_left (fun acc l => fold_left (fun acc '(n, td) =>
    match lookup n acc with Some _ => acc | None => (acc ++ [(n, as_i64_vec td)])%list end) (weights l) acc) layers acc) =
  match lookup name acc with Some c => Some c | None => option_map as_i64_vec (lookup name (flat_map weights layers)) end.
Proof.
  induction layers as [|l r IH]; intros acc; cbn [fold_left flat_map]; [now destruct (lookup name acc)|].
  rewrite IH, wandb_layer, lookup_app. destruct (lookup name acc); auto. destruct (lookup name (weights l)); reflexivity.
Qed.
Lemma quantized_none alpha l name : lookup name (weights l) = None -> lookup name (weights (quantize_layer_weights alpha l)) = None.
Proof.
  cbn [weights quantize_layer_weights]. generalize (get_scale_plan (op_type l)). intros plan. revert plan. generalize (weights l).
  intros ws plan; revert ws. induction plan as [|[p k] r IH]; intros ws H; cbn [fold_left]; auto. apply IH.
  destruct (nth_error (inputs l) p); auto. rewrite lookup_update, H. now destruct (_ =? _)%string.
Qed.
Lemma constant_read alpha before l after name w : (forall l', In l' before -> lookup name (weights l') = None) ->
  lookup name (weights (quantize_layer_weights alpha l)) = Some w ->
  circuit_constant alpha (before ++ l :: after) name = Some (as_i64_vec w).
Proof.
  intros H E. unfold circuit_constant, build_wandb. rewrite wandb_lookup. cbn [lookup]. rewrite map_app, flat_map_app, lookup_app. cbn [map flat_map].
  assert (N : lookup name (flat_map weights (map (quantize_layer_weights alpha) before)) = None).
  { clear E. induction before as [|b r IH]; cbn [map flat_map lookup]; auto. rewrite lookup_app.
    rewrite quantized_none by (apply H; now left). apply IH. intros l' I. apply H. now right. }
  rewrite N, lookup_app, E. reflexivity.
Qed.
Lemma round_near q : nearest_int q (round_away q).
Proof.
  unfold nearest_int, round_away. apply Qabs_Qle_condition. destruct (Qle_bool 0 q).
  - pose proof (Qfloor_le (q + (1 # 2))). pose proof (Qlt_floor (q + (1 # 2))). rewrite inject_Z_plus in *. change (inject_Z 1) with 1%Q in *. lra.
  - pose proof (Qle_ceiling (q - (1 # 2))). pose proof (Qceiling_lt (q - (1 # 2))). rewrite inject_Z_minus in *. change (inject_Z 1) with 1%Q in *. lra.
Qed.
Lemma truncate_part q : int_part q (truncate q).
Proof.
  unfold int_part, truncate. destruct (Qle_bool 0 q) eqn:E.
  - left. apply Qle_bool_iff in E. split; auto. split; [apply Qfloor_le|apply Qlt_floor].
  - right. split; [|split; [apply Qceiling_lt|apply Qle_ceiling]].
    apply Qlt_le_weak, Qnot_le_lt. intros C. apply Qle_bool_iff in C. congruence.
Qed.

(** The position [pos] of the operator is in its plan with the power [k], and its name is at
    no other position of the plan. *)
Definition planned (l : layer_node) (name : string) (pos k : nat) : Prop :=
  In (pos, k) (get_scale_plan (op_type l)) /\ nth_error (inputs l) pos = Some name /\
  forall pos' k', In (pos', k') (get_scale_plan (op_type l)) -> nth_error (inputs l) pos' = Some name -> pos' = pos.
Lemma plan_skip alpha l name plan : (forall pos k, In (pos, k) plan -> nth_error (inputs l) pos <> Some name) -> forall ws,
  lookup name (fold_left (fun ws '(input_pos, scale_factor) =>
       match nth_error (inputs l) input_pos with
       | Some name => update name (quantize_weight (alpha ^ Z.of_nat scale_factor)) ws
       | None => ws
       end) plan ws) = lookup name ws.
Proof.
  induction plan as [|[p k] r IH]; intros H ws; cbn [fold_left]; auto. rewrite IH by (intros q j I; apply (H q j); now right).
  specialize (H p k (or_introl eq_refl)). destruct (nth_error (inputs l) p) as [n|]; auto. rewrite lookup_update.
  destruct (String.eqb_spec n name); [congruence|reflexivity].
Qed.
Lemma plan_nodup o : NoDup (map fst (get_scale_plan o)).
Proof. destruct o; cbn; repeat constructor; cbn; intuition discriminate. Qed.
Lemma quantized_planned alpha l name pos k w : planned l name pos k -> lookup name (weights l) = Some w ->
  lookup name (weights (quantize_layer_weights alpha l)) = Some (quantize_weight (alpha ^ Z.of_nat k) w).
Proof.
  intros (I & E & U) Ew. cbn [weights quantize_layer_weights]. pose proof (plan_nodup (op_type l)) as N.
  apply in_split in I as (a & b & P). rewrite P in *. rewrite map_app in N. cbn [map fst] in N. apply NoDup_remove_2 in N.
  rewrite fold_left_app. cbn [fold_left]. rewrite E. rewrite plan_skip.
  - rewrite lookup_update, String.eqb_refl, plan_skip, Ew; [reflexivity|].
    intros q j Iq C. specialize (U q j). rewrite U in Iq; auto; [|apply in_app_iff; now left].
    apply N. apply in_app_iff. left. apply (in_map fst) in Iq. exact Iq.
  - intros q j Iq C. specialize (U q j). rewrite U in Iq; auto; [|apply in_app_iff; right; now right].
    apply N. apply in_app_iff. right. apply (in_map fst) in Iq. exact Iq.
Qed.
Lemma quantized_unplanned alpha l name w : (forall pos k, In (pos, k) (get_scale_plan (op_type l)) -> nth_error (inputs l) pos <> Some name) ->
  lookup name (weights l) = Some w -> lookup name (weights (quantize_layer_weights alpha l)) = Some w.
Proof. intros H E. cbn [weights quantize_layer_weights]. rewrite plan_skip; auto. Qed.

Lemma constant_planned alpha before l after name pos k v : (forall l', In l' before -> lookup name (weights l') = None) ->
  planned l name pos k -> lookup name (weights l) = Some {| float_data := v; int_data := [] |} ->
  exists c, circuit_constant alpha (before ++ l :: after) name = Some c /\ at_scale alpha k v c.
Proof.
  intros H P E. pose proof (quantized_planned alpha _ _ _ _ _ P E) as Q. rewrite (constant_read alpha _ _ _ _ _ H Q). eexists. split; [reflexivity|].
  destruct v as [|q v]; cbn [quantize_weight float_data]; [constructor|]. unfold as_i64_vec. cbn [int_data map].
  unfold at_scale. constructor; [apply round_near|]. clear. induction v; cbn [map]; constructor; auto. apply round_near.
Qed.
Lemma constant_unplanned alpha before l after name v : (forall l', In l' before -> lookup name (weights l') = None) ->
  (forall pos k, In (pos, k) (get_scale_plan (op_type l)) -> nth_error (inputs l) pos <> Some name) ->
  lookup name (weights l) = Some {| float_data := v; int_data := [] |} ->
  exists c, circuit_constant alpha (before ++ l :: after) name = Some c /\ Forall2 int_part v c.
Proof.
  intros H P E. pose proof (quantized_unplanned alpha _ _ _ P E) as Q. rewrite (constant_read alpha _ _ _ _ _ H Q). eexists. split; [reflexivity|].
  unfold as_i64_vec. cbn [int_data float_data]. clear. induction v; cbn [map]; constructor; auto. apply truncate_part.
Qed.
Definition add_constants_scaled : Prop := forall alpha before l after name v,
  (forall l', In l' before -> lookup name (weights l') = None) ->
  op_type l = Op "Add" -> In name (inputs l) -> lookup name (weights l) = Some {| float_data := v; int_data := [] |} ->
  exists c, circuit_constant alpha (before ++ l :: after) name = Some c /\ at_scale alpha 1 v c.
Lemma add_constants_fail : ~ add_constants_scaled.
Proof.
  intros H. destruct (H 262144%Z [] {| op_type := Op "Add"; inputs := ["x"; "b"]; weights := [("b", {| float_data := [1 # 2]; int_data := [] |})] |} [] "b" [1 # 2])
    as (c & E & S); auto; [intros ? []|cbn; auto|].
  vm_compute in E. injection E as <-. inversion_clear S. vm_compute in H0. apply H0. reflexivity.
Qed.
Definition planned_constants_scaled : Prop := forall alpha layers l name pos k v,
  In l layers -> planned l name pos k -> lookup name (weights l) = Some {| float_data := v; int_data := [] |} ->
  exists c, circuit_constant alpha layers name = Some c /\ at_scale alpha k v c.
Lemma planned_constants_fail : ~ planned_constants_scaled.
Proof.
  intros H. set (w := [("b", {| float_data := [1 # 2]; int_data := [] |})]).
  destruct (H 262144%Z [{| op_type := Op "Add"; inputs := ["x"; "b"]; weights := w |}; {| op_type := MatMul; inputs := ["y"; "b"]; weights := w |}]
    {| op_type := MatMul; inputs := ["y"; "b"]; weights := w |} "b" 1 1 [1 # 2]) as (c & E & S).
  - cbn. auto.
  - split; [cbn; auto|]. split; [reflexivity|]. intros q j [[= <- <-]|[]] _. reflexivity.
  - reflexivity.
  - vm_compute in E. injection E as <-. inversion_clear S. vm_compute in H0. apply H0. reflexivity.
Qed.
