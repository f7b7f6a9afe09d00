From Coq Require Import List ZArith Lia Bool Arith.
From Verif Require Import Base.Array Base.Machine Spec.Serdes Model.Fields Model.Serdes.
Import ListNotations.
Local Open Scope list_scope.

(** ** Round trips *)
Lemma read_exact_app n a rest : length a = n -> read_exact n (a ++ rest) = Some (a, rest).
Proof.
  intros <-. unfold read_exact. rewrite app_length. destruct (Nat.leb_spec (length a) (length a + length rest)); [|lia].
  rewrite firstn_app, firstn_all, skipn_app, skipn_all, Nat.sub_diag. cbn. now rewrite app_nil_r.
Qed.
Lemma rt_num n : round_trips (fun v => 0 <= v < 256 ^ Z.of_nat n)%Z (ser_num n) (de_num n).
Proof.
  intros v rest H. unfold de_num, ser_num. rewrite read_exact_app by apply le_bytes_length. cbn [obind].
  now rewrite le_val_id.
Qed.
Lemma pow_8 : (256 ^ Z.of_nat 8 = U64)%Z. Proof. reflexivity. Qed.
Lemma rt_u64 : round_trips (fun v => 0 <= v < U64)%Z ser_u64 de_u64.
Proof. intros v rest H. apply rt_num. now rewrite pow_8. Qed.
Lemma rt_usize : round_trips usize_ok ser_usize de_usize.
Proof.
  intros v rest H. unfold ser_usize, de_usize. rewrite rt_u64 by (unfold usize_ok in H; lia). cbn [obind]. now rewrite Nat2Z.id.
Qed.
Lemma rt_times {T} (P : T -> Prop) ser de l rest : round_trips P ser de -> Forall P l ->
  de_times (length l) de (flat_map ser l ++ rest) = Some (l, rest).
Proof.
  intros RT F. induction F as [|x l Hx F IH]; [reflexivity|]. cbn [length de_times flat_map].
  rewrite <- app_assoc, RT by auto. cbn [obind]. rewrite IH. reflexivity.
Qed.
Lemma rt_array {T} (P : T -> Prop) ser de n : round_trips P ser de ->
  round_trips (fun l => length l = n /\ Forall P l) (ser_array ser) (de_array n de).
Proof. intros RT l rest (<- & F). now apply (rt_times P). Qed.
Lemma rt_bool : round_trips (fun _ => True) ser_bool de_bool.
Proof. intros [] rest _; reflexivity. Qed.
Lemma rt_unit : round_trips (fun _ => True) ser_unit de_unit.
Proof. intros [] rest _; reflexivity. Qed.
Lemma rt_vec {T} (P : T -> Prop) ser de : round_trips P ser de -> round_trips (vec_ok P) (ser_vec ser) (de_vec de).
Proof.
  intros RT l rest (L & F). unfold ser_vec, de_vec. rewrite <- app_assoc, rt_usize by auto. cbn [obind]. now apply (rt_times P).
Qed.
Lemma rt_field c : format_ok c -> round_trips (field_ok c) (ser_field c) (de_field c).
Proof.
  intros C x rest H. unfold ser_field, de_field. unfold format_ok, field_ok in *. rewrite (rt_num (ff_bytes c)) by lia. cbn [obind].
  destruct (Z.leb_spec (ff_modulus c) x); [lia|reflexivity].
Qed.
Lemma rt_pair {A B} PA PB (sa : A -> list Z) da (sb : B -> list Z) db : round_trips PA sa da -> round_trips PB sb db ->
  round_trips (fun v => PA (fst v) /\ PB (snd v)) (ser_pair sa sb) (de_pair da db).
Proof.
  intros RA RB (a & b) rest (Ha & Hb). unfold ser_pair, de_pair. cbn [fst snd] in *. rewrite <- app_assoc, RA by auto. cbn [obind].
  rewrite RB by auto. reflexivity.
Qed.
Lemma rt_option {T} (P : T -> Prop) ser de : round_trips P ser de ->
  round_trips (fun o => match o with Some v => P v | None => True end) (ser_option ser) (de_option de).
Proof.
  intros RT [v|] rest H; unfold ser_option, de_option.
  - rewrite <- app_assoc, rt_bool by auto. cbn [obind]. rewrite RT by auto. reflexivity.
  - rewrite rt_bool by auto. reflexivity.
Qed.
Lemma rt_string utf8 : round_trips (fun b => usize_ok (length b) /\ utf8 b = true) ser_string (de_string utf8).
Proof.
  intros b rest (L & U). unfold ser_string, de_string. rewrite <- app_assoc, rt_usize by auto. cbn [obind].
  rewrite read_exact_app by auto. cbn [obind]. now rewrite U.
Qed.
Lemma rt_variant {T} (P : T -> Prop) (ser : T -> list Z) (arms : list (list Z -> option (T * list Z))) idx arm v rest :
  (Z.of_nat idx < 256 ^ Z.of_nat 4)%Z -> nth_error arms idx = Some arm -> round_trips P ser arm -> P v ->
  de_variant arms (ser_variant idx (ser v) ++ rest) = Some (v, rest).
Proof.
  intros B E RT H. unfold de_variant, ser_variant, ser_u32, de_u32. rewrite <- app_assoc, (rt_num 4) by lia. cbn [obind].
  unfold aget. rewrite Nat2Z.id, E. cbn [obind]. now apply RT.
Qed.

Section Layered.
Variable c : field_format.
Hypothesis C : format_ok c.

Lemma rt_coef : round_trips (coef_ok c) (ser_coef c) (de_coef c).
Proof.
  intros [x| |id] rest H; unfold ser_coef, de_coef; rewrite <- ?app_assoc; unfold ser_u8, de_u8; rewrite (rt_num 1) by lia; cbn [obind Z.eqb Pos.eqb].
  - rewrite (rt_field c C) by exact H. reflexivity.
  - reflexivity.
  - rewrite rt_usize by exact H. reflexivity.
Qed.
Lemma rt_gate n : round_trips (gate_ok c n) (ser_gate c) (de_gate c n).
Proof.
  intros [i o k] rest (L & F & Ho & Hk). unfold ser_gate, de_gate. cbn [g_inputs g_output g_coef] in *. rewrite <- !app_assoc.
  rewrite (rt_array _ _ _ n rt_usize) by auto. cbn [obind]. rewrite rt_usize by auto. cbn [obind]. rewrite rt_coef by auto. reflexivity.
Qed.
Lemma rt_gate_custom : round_trips (gate_custom_ok c) (ser_gate_custom c) (de_gate_custom c).
Proof.
  intros [t i o k] rest (Ht & Hi & Ho & Hk). unfold ser_gate_custom, de_gate_custom. cbn [gc_type gc_inputs gc_output gc_coef] in *. rewrite <- !app_assoc.
  rewrite rt_usize by auto. cbn [obind]. rewrite (rt_vec _ _ _ rt_usize) by auto. cbn [obind]. rewrite rt_usize by auto. cbn [obind].
  rewrite rt_coef by auto. reflexivity.
Qed.
Lemma rt_allocation : round_trips allocation_ok ser_allocation de_allocation.
Proof.
  intros [i o] rest (Hi & Ho). unfold ser_allocation, de_allocation. cbn [al_input al_output] in *. rewrite <- app_assoc.
  rewrite rt_usize by auto. cbn [obind]. rewrite rt_usize by auto. reflexivity.
Qed.
Lemma rt_segment : round_trips (segment_ok c) (ser_segment c) (de_segment c).
Proof.
  intros [ni no ch mu ad co cu] rest (H1 & H2 & H3 & H4 & H5 & H6 & H7). unfold ser_segment, de_segment.
  cbn [sg_num_inputs sg_num_outputs sg_children sg_muls sg_adds sg_consts sg_customs] in *. rewrite <- !app_assoc.
  rewrite rt_usize by auto. cbn [obind]. rewrite rt_usize by auto. cbn [obind].
  rewrite (rt_vec _ _ _ (rt_pair _ _ _ _ _ _ rt_usize (rt_vec _ _ _ rt_allocation))) by auto. cbn [obind].
  rewrite (rt_vec _ _ _ (rt_gate 2)) by auto. cbn [obind]. rewrite (rt_vec _ _ _ (rt_gate 1)) by auto. cbn [obind].
  rewrite (rt_vec _ _ _ (rt_gate 0)) by auto. cbn [obind]. rewrite (rt_vec _ _ _ rt_gate_custom) by auto. reflexivity.
Qed.
Theorem rt_circuit : (ff_modulus c < 256 ^ Z.of_nat 32)%Z -> round_trips (circuit_ok c) (ser_circuit c) (de_circuit c).
Proof.
  intros B [np na ne sg li] rest (H1 & H2 & H3 & H4 & H5). unfold ser_circuit, de_circuit.
  cbn [c_num_public_inputs c_num_actual_outputs c_expected_zeroes c_segments c_layer_ids] in *. rewrite <- !app_assoc.
  rewrite rt_u64 by (unfold MAGIC, U64; lia). cbn [obind]. rewrite Z.eqb_refl. cbn [negb].
  unfold ser_u256, de_u256. rewrite (rt_num 32) by (unfold format_ok in C; lia). cbn [obind]. rewrite Z.eqb_refl. cbn [negb].
  rewrite rt_usize by auto. cbn [obind]. rewrite rt_usize by auto. cbn [obind]. rewrite rt_usize by auto. cbn [obind].
  rewrite (rt_vec _ _ _ rt_segment) by auto. cbn [obind]. rewrite (rt_vec _ _ _ rt_usize) by auto. reflexivity.
Qed.

Lemma rt_pgate n : round_trips (pgate_ok c n) (ser_pgate c) (de_pgate c n).
Proof.
  intros [i o k t] rest (L & F & Ho & Hk & Hp & Ht). unfold ser_pgate, de_pgate. cbn [pg_inputs pg_output pg_coef pg_type] in *. subst t. rewrite <- !app_assoc.
  rewrite <- L at 1. rewrite (rt_times _ _ _ _ _ rt_usize F). cbn [obind]. rewrite rt_usize by auto. cbn [obind].
  destruct k as [x| |id]; rewrite <- ?app_assoc; unfold ser_u8, de_u8; rewrite (rt_num 1) by lia; cbn [obind Z.eqb Pos.eqb].
  - rewrite (rt_field c C) by exact Hk. reflexivity.
  - reflexivity.
  - subst n. rewrite Hp. cbn [Nat.ltb Nat.leb]. rewrite rt_usize by exact Hk. reflexivity.
Qed.
Lemma rt_layer : round_trips (layer_ok c) (ser_layer c) (de_layer c).
Proof.
  intros [i o mu ad co un] rest (H1 & H2 & H3 & H4 & H5 & H6). unfold ser_layer, de_layer.
  cbn [ly_input_var_num ly_output_var_num ly_mul ly_add ly_const ly_uni] in *. rewrite <- !app_assoc.
  rewrite rt_usize by auto. cbn [obind]. rewrite rt_usize by auto. cbn [obind].
  rewrite (rt_vec _ _ _ (rt_pgate 2)) by auto. cbn [obind]. rewrite (rt_vec _ _ _ (rt_pgate 1)) by auto. cbn [obind].
  rewrite (rt_vec _ _ _ (rt_pgate 0)) by auto. cbn [obind]. rewrite (rt_vec _ _ _ (rt_pgate 1)) by auto. reflexivity.
Qed.
Theorem rt_flat sentinel : length sentinel = 32 -> round_trips (flat_ok c) (ser_flat c sentinel) (de_flat c sentinel).
Proof.
  intros LS [z ls] rest (H1 & H2). unfold ser_flat, de_flat. cbn [fc_expected_zeros fc_layers] in *. rewrite <- !app_assoc.
  rewrite rt_u64 by (unfold CIRCUIT_VERSION, U64; lia). cbn [obind]. rewrite Z.eqb_refl. cbn [guard obind].
  rewrite read_exact_app by auto. cbn [obind]. unfold bytes_eqb. destruct (list_eq_dec Z.eq_dec sentinel sentinel); [|congruence].
  cbn [guard obind]. rewrite rt_usize by auto. cbn [obind]. rewrite (rt_vec _ _ _ rt_layer) by auto. reflexivity.
Qed.
End Layered.

Section Whir.
Context {Node Msg F Path : Type}.
Variables (ser_node : Node -> list Z) (de_node : list Z -> option (Node * list Z)).
Variables (ser_msg : Msg -> list Z) (de_msg : list Z -> option (Msg * list Z)).
Variables (ser_f : F -> list Z) (de_f : list Z -> option (F * list Z)).
Variables (ser_path : Path -> list Z) (de_path : list Z -> option (Path * list Z)).
Variables (PN : Node -> Prop) (PM : Msg -> Prop) (PF : F -> Prop) (PP : Path -> Prop).
Hypothesis RN : round_trips PN ser_node de_node.
Hypothesis RM : round_trips PM ser_msg de_msg.
Hypothesis RF : round_trips PF ser_f de_f.
Hypothesis RP : round_trips PP ser_path de_path.
Lemma rt_bounded {T} max (P : T -> Prop) ser de : (max < U64)%Z -> round_trips P ser de ->
  round_trips (bounded_ok max P) (ser_vec ser) (de_bounded max de).
Proof.
  intros B RT l rest (L & Fl). unfold ser_vec, de_bounded, ser_usize. rewrite <- app_assoc, rt_u64 by lia. cbn [obind].
  destruct (Z.ltb_spec max (Z.of_nat (length l))); [lia|]. rewrite Nat2Z.id. now apply (rt_times P).
Qed.
Theorem rt_opening : round_trips (opening_ok PN PM PF PP) (ser_opening ser_node ser_msg ser_f ser_path) (de_opening de_node de_msg de_f de_path).
Proof.
  intros [rc sm ood pn fp rq] rest (H1 & H2 & H3 & H4 & H5 & H6). unfold ser_opening, de_opening.
  cbn [wo_round_commitments wo_sumcheck_messages wo_ood_evaluations wo_pow_nonces wo_final_poly wo_round_query_proofs] in *.
  rewrite <- !app_assoc.
  rewrite (rt_bounded MAX_ROUNDS _ _ _ eq_refl RN) by auto. cbn [obind].
  rewrite (rt_bounded MAX_SUMCHECK _ _ _ eq_refl RM) by auto. cbn [obind].
  rewrite (rt_bounded MAX_ROUNDS _ _ _ eq_refl (rt_bounded MAX_SUMCHECK _ _ _ eq_refl RF)) by auto. cbn [obind].
  rewrite (rt_bounded MAX_ROUNDS _ _ _ eq_refl rt_u64) by auto. cbn [obind].
  rewrite (rt_bounded MAX_FINAL_POLY _ _ _ eq_refl RF) by auto. cbn [obind].
  rewrite (rt_bounded MAX_ROUNDS _ _ _ eq_refl (rt_bounded MAX_QUERIES_PER_ROUND _ _ _ eq_refl RP)) by auto. reflexivity.
Qed.
End Whir.

(** ** Streaming and truncation *)
Lemma st_read n s q a r : read_exact n s = Some (a, r) -> read_exact n (s ++ q) = Some (a, r ++ q).
Proof.
  unfold read_exact. destruct (Nat.leb_spec n (length s)); [|discriminate]. intros [= <- <-].
  rewrite app_length. destruct (Nat.leb_spec n (length s + length q)); [|lia].
  rewrite firstn_app, skipn_app. replace (n - length s) with 0 by lia. cbn. now rewrite app_nil_r.
Qed.
Ltac stream1 St := match goal with
  | H : obind (?d ?s) _ = Some _ |- _ =>
      destruct (d s) as [(?x & ?t)|] eqn:?E; [|discriminate H]; cbn [obind] in H
  end.
Lemma st_bind {A B} (d : decoder A) (k : A -> decoder B) : streams d -> (forall a, streams (k a)) ->
  streams (fun s => let* (a, s) := d s in k a s).
Proof.
  intros Sd Sk s q v r H. destruct (d s) as [(a & t)|] eqn:E; [|discriminate]. cbn [obind] in H.
  rewrite (Sd _ q _ _ E). cbn [obind]. now apply Sk.
Qed.
Lemma st_ret {A} (a : A) : streams (fun s => Some (a, s)).
Proof. intros s q v r [= <- <-]. reflexivity. Qed.
Lemma st_fail {A} : streams (fun _ => @None (A * list Z)).
Proof. intros s q v r [=]. Qed.
Lemma st_if {A} (b : bool) (d e : decoder A) : streams d -> streams e -> streams (fun s => if b then d s else e s).
Proof. destruct b; auto. Qed.
Lemma st_guard {A} (b : bool) (d : decoder A) : streams d -> streams (fun s => let* _ := guard b in d s).
Proof. intros S. destruct b; [exact S|apply st_fail]. Qed.
Lemma st_exact n : streams (read_exact n).
Proof. intros s q v r H. now apply st_read. Qed.
Lemma st_num n : streams (de_num n).
Proof. apply (st_bind (read_exact n) (fun b s => Some (le_val b, s)) (st_exact n)). intros a. apply st_ret. Qed.
Lemma st_usize : streams de_usize.
Proof. apply (st_bind de_u64 (fun v s => Some (Z.to_nat v, s)) (st_num 8)). intros a. apply st_ret. Qed.
Lemma st_times {T} n (de : decoder T) : streams de -> streams (de_times n de).
Proof.
  intros S. induction n as [|n IH]; [apply st_ret|]. cbn [de_times].
  apply (st_bind de (fun x s => let* (l, s) := de_times n de s in Some (x :: l, s)) S). intros x.
  apply (st_bind (de_times n de) (fun l s => Some (x :: l, s)) IH). intros l. apply st_ret.
Qed.
Lemma st_vec {T} (de : decoder T) : streams de -> streams (de_vec de).
Proof. intros S. apply (st_bind de_usize (fun len s => de_times len de s) st_usize). intros n. now apply st_times. Qed.
Lemma st_bool : streams de_bool.
Proof. apply (st_bind de_u8 (fun u s => Some (negb (u =? 0)%Z, s)) (st_num 1)). intros a. apply st_ret. Qed.
Lemma st_field c : streams (de_field c).
Proof.
  apply (st_bind (de_num (ff_bytes c)) (fun v s => if (ff_modulus c <=? v)%Z then None else Some (v, s)) (st_num _)).
  intros a. apply st_if; [apply st_fail|apply st_ret].
Qed.
Lemma st_pair {A B} (da : decoder A) (db : decoder B) : streams da -> streams db -> streams (de_pair da db).
Proof.
  intros SA SB. apply (st_bind da (fun a s => let* (b, s) := db s in Some ((a, b), s)) SA). intros a.
  apply (st_bind db (fun b s => Some ((a, b), s)) SB). intros b. apply st_ret.
Qed.
Lemma st_option {T} (de : decoder T) : streams de -> streams (de_option de).
Proof.
  intros S. apply (st_bind de_bool (fun h s => if h then let* (v, s) := de s in Some (Some v, s) else Some (None, s)) st_bool).
  intros h. apply (st_if h (fun s => let* (v, s) := de s in Some (Some v, s))); [|apply st_ret].
  apply (st_bind de (fun v s => Some (Some v, s)) S). intros v. apply st_ret.
Qed.
Lemma st_string utf8 : streams (de_string utf8).
Proof.
  apply (st_bind de_usize (fun len s => let* (buf, s) := read_exact len s in if utf8 buf then Some (buf, s) else None) st_usize).
  intros n. apply (st_bind (read_exact n) (fun buf s => if utf8 buf then Some (buf, s) else None) (st_exact n)).
  intros b. apply st_if; [apply st_ret|apply st_fail].
Qed.
Lemma st_variant {T} (arms : list (decoder T)) : Forall streams arms -> streams (de_variant arms).
Proof.
  intros F. apply (st_bind de_u32 (fun i s => let* arm := aget arms (Z.to_nat i) in arm s) (st_num 4)). intros i.
  unfold aget. destruct (nth_error arms (Z.to_nat i)) as [arm|] eqn:E; [|apply st_fail]. cbn [obind].
  apply nth_error_In in E. rewrite Forall_forall in F. now apply F.
Qed.

Ltac st := lazymatch goal with
  | |- streams (fun s => obind (guard ?b) _) => apply (st_guard b); st
  | |- streams (fun s => obind (@?d s) (fun '(a, s') => @?k a s')) => apply (st_bind d k); [cbv beta; st|intros; cbv beta; st]
  | |- streams (fun s => Some (_, s)) => apply st_ret
  | |- streams (fun s => None) => apply st_fail
  | |- streams (fun s => if ?b then @?d s else @?e s) => apply (st_if b d e); cbv beta; st
  | |- streams (fun s => ?d s) => change (streams d); st
  | |- streams de_usize => apply st_usize
  | |- streams de_u64 => apply (st_num 8)
  | |- streams de_u8 => apply (st_num 1)
  | |- streams (de_num _) => apply st_num
  | |- streams de_u256 => apply (st_num 32)
  | |- streams (de_vec _) => apply st_vec; st
  | |- streams (de_times _ _) => apply st_times; st
  | |- streams (de_array ?n ?d) => apply (st_times n d); st
  | |- streams (de_pair _ _) => apply st_pair; st
  | |- streams (de_field _) => apply st_field
  | |- streams (read_exact _) => apply st_exact
  | |- _ => auto
  end.
Section Layered2.
Variable c : field_format.
Lemma st_coef : streams (de_coef c). Proof. unfold de_coef. st. Qed.
Lemma st_gate n : streams (de_gate c n). Proof. pose proof st_coef. unfold de_gate. st. Qed.
Lemma st_gate_custom : streams (de_gate_custom c). Proof. pose proof st_coef. unfold de_gate_custom. st. Qed.
Lemma st_allocation : streams de_allocation. Proof. unfold de_allocation. st. Qed.
Lemma st_segment : streams (de_segment c).
Proof. pose proof st_gate. pose proof st_gate_custom. pose proof st_allocation. unfold de_segment. st. Qed.
Theorem st_circuit : streams (de_circuit c).
Proof. pose proof st_segment. unfold de_circuit. st. Qed.
Lemma st_pgate n : streams (de_pgate c n). Proof. unfold de_pgate. st. Qed.
Lemma st_layer : streams (de_layer c). Proof. pose proof st_pgate. unfold de_layer. st. Qed.
Theorem st_flat sentinel : streams (de_flat c sentinel). Proof. pose proof st_layer. unfold de_flat. st. Qed.
End Layered2.

Section Whir2.
Context {Node Msg F Path : Type}.
Variables (de_node : list Z -> option (Node * list Z)) (de_msg : list Z -> option (Msg * list Z)).
Variables (de_f : list Z -> option (F * list Z)) (de_path : list Z -> option (Path * list Z)).
Hypothesis SN : streams de_node.
Hypothesis SM : streams de_msg.
Hypothesis SF : streams de_f.
Hypothesis SP : streams de_path.
Lemma st_bounded {T} max (d : decoder T) : streams d -> streams (de_bounded max d).
Proof. intros S. unfold de_bounded. st. Qed.
Theorem st_opening : streams (de_opening de_node de_msg de_f de_path).
Proof.
  pose proof (st_bounded MAX_ROUNDS de_node SN). pose proof (st_bounded MAX_SUMCHECK de_msg SM).
  pose proof (st_bounded MAX_ROUNDS _ (st_bounded MAX_SUMCHECK _ SF)). pose proof (st_bounded MAX_ROUNDS de_u64 (st_num 8)).
  pose proof (st_bounded MAX_FINAL_POLY _ SF). pose proof (st_bounded MAX_ROUNDS _ (st_bounded MAX_QUERIES_PER_ROUND _ SP)).
  unfold de_opening. st.
Qed.
End Whir2.

Theorem truncation {T} (P : T -> Prop) ser (de : decoder T) : round_trips P ser de -> streams de -> rejects_truncation P ser de.
Proof.
  intros RT S v p q H E Q. destruct (de p) as [(w & r)|] eqn:D; [|reflexivity]. exfalso.
  pose proof (S p q w r D) as D'. rewrite <- E in D'. pose proof (RT v [] H) as R. rewrite app_nil_r in R.
  rewrite R in D'. injection D' as _ D'. symmetry in D'. apply app_eq_nil in D'. tauto.
Qed.

(** A multiplication gate whose coefficient is a public input is written but cannot be
    read; a gate with a special type is read back as another gate. *)
Lemma public_mul_lost c g id rest : length (pg_inputs g) = 2 -> Forall usize_ok (pg_inputs g) -> usize_ok (pg_output g) ->
  pg_coef g = PublicInput id -> de_pgate c 2 (ser_pgate c g ++ rest) = None.
Proof.
  intros L F Ho E. unfold ser_pgate, de_pgate. rewrite E, <- !app_assoc. rewrite <- L at 1. rewrite (rt_times _ _ _ _ _ rt_usize F). cbn [obind].
  rewrite rt_usize by auto. cbn [obind]. unfold ser_u8, de_u8. rewrite (rt_num 1) by lia. reflexivity.
Qed.
Lemma type_lost c n g v rest : format_ok c -> length (pg_inputs g) = n -> Forall usize_ok (pg_inputs g) -> usize_ok (pg_output g) ->
  pg_coef g = Constant v -> field_ok c v ->
  de_pgate c n (ser_pgate c g ++ rest) = Some ({| pg_inputs := pg_inputs g; pg_output := pg_output g; pg_coef := Constant v; pg_type := 0 |}, rest).
Proof.
  intros C L F Ho E V.
  pose proof (rt_pgate c C n {| pg_inputs := pg_inputs g; pg_output := pg_output g; pg_coef := Constant v; pg_type := 0 |} rest) as H.
  unfold ser_pgate in *. cbn [pg_inputs pg_output pg_coef] in H. rewrite E. apply H. unfold pgate_ok. cbn [pg_inputs pg_output pg_coef pg_type coef_ok]. auto 10.
Qed.
Lemma both {T} (P : T -> Prop) ser de : round_trips P ser de -> streams de -> round_trips P ser de /\ streams de /\ rejects_truncation P ser de.
Proof. intros R S. repeat split; auto. now apply truncation. Qed.
Lemma st_unit : streams de_unit. Proof. exact (st_ret tt). Qed.
Theorem primitives_ok :
  (forall n, round_trips (fun v => 0 <= v < 256 ^ Z.of_nat n)%Z (ser_num n) (de_num n) /\ streams (de_num n)) /\
  (round_trips usize_ok ser_usize de_usize /\ streams de_usize) /\
  (round_trips (fun _ => True) ser_bool de_bool /\ streams de_bool) /\ (round_trips (fun _ => True) ser_unit de_unit /\ streams de_unit) /\
  (forall utf8, round_trips (fun b => usize_ok (length b) /\ utf8 b = true) ser_string (de_string utf8) /\ streams (de_string utf8)).
Proof.
  repeat split; intros; try (apply rt_num); try apply st_num; try apply rt_usize; try apply st_usize; try apply rt_bool; try apply st_bool;
  try apply rt_unit; try apply st_unit; try apply rt_string; try apply st_string.
Qed.
Theorem containers_ok {A B} (P : A -> Prop) (Q : B -> Prop) sa (da : decoder A) sb (db : decoder B) :
  round_trips P sa da -> streams da -> round_trips Q sb db -> streams db ->
  (round_trips (vec_ok P) (ser_vec sa) (de_vec da) /\ streams (de_vec da)) /\
  (forall n, round_trips (fun l => length l = n /\ Forall P l) (ser_array sa) (de_array n da) /\ streams (de_array n da)) /\
  (round_trips (fun v => P (fst v) /\ Q (snd v)) (ser_pair sa sb) (de_pair da db) /\ streams (de_pair da db)) /\
  (round_trips (vec_ok (fun v => P (fst v) /\ Q (snd v))) (ser_map sa sb) (de_map da db) /\ streams (de_map da db)) /\
  (round_trips (fun o => match o with Some v => P v | None => True end) (ser_option sa) (de_option da) /\ streams (de_option da)).
Proof.
  intros RA SA RB SB. split; [split; [now apply rt_vec|now apply st_vec]|]. split; [intros n; split; [now apply rt_array|now apply (st_times n da)]|].
  split; [split; [now apply rt_pair|now apply st_pair]|]. split; [split; [now apply rt_vec, rt_pair|now apply st_vec, st_pair]|].
  split; [now apply rt_option|now apply st_option].
Qed.

(** ** Headers *)
Lemma de_num_inv n s v r : Forall is_byte s -> de_num n s = Some (v, r) -> s = le_bytes n v ++ r /\ Forall is_byte r.
Proof.
  intros HB. unfold de_num, read_exact. destruct (Nat.leb_spec n (length s)) as [L|]; [|discriminate]. cbn [obind].
  intros E. injection E as <- <-. rewrite <- (firstn_skipn n s) in HB. apply Forall_app in HB as (H1 & H2).
  split; auto. pose proof (le_bytes_val (firstn n s) H1) as Q. rewrite firstn_length, Nat.min_l in Q by auto.
  rewrite Q. symmetry. apply firstn_skipn.
Qed.
Lemma circuit_header c s g r : Forall is_byte s -> de_circuit c s = Some (g, r) ->
  exists tl, s = le_bytes 8 MAGIC ++ le_bytes 32 (ff_modulus c) ++ tl.
Proof.
  intros HB. unfold de_circuit. destruct (de_u64 s) as [(m, s1)|] eqn:E1; [|discriminate]. cbn [obind].
  destruct (de_num_inv 8 s m s1 HB E1) as (-> & HB1).
  destruct (Z.eqb_spec m MAGIC) as [ -> |]; [|discriminate]. cbn [negb].
  destruct (de_u256 s1) as [(p, s2)|] eqn:E2; [|discriminate]. cbn [obind].
  destruct (de_num_inv 32 s1 p s2 HB1 E2) as (-> & HB2).
  destruct (Z.eqb_spec p (ff_modulus c)) as [ -> |]; [|discriminate]. intros _. exists s2. reflexivity.
Qed.
Lemma read_exact_inv n s a r : read_exact n s = Some (a, r) -> s = a ++ r.
Proof. unfold read_exact. destruct (n <=? length s); [|discriminate]. intros [= <- <-]. symmetry. apply firstn_skipn. Qed.
Lemma flat_header c sentinel s g r : Forall is_byte s -> de_flat c sentinel s = Some (g, r) ->
  exists tl, s = le_bytes 8 CIRCUIT_VERSION ++ sentinel ++ tl.
Proof.
  intros HB. unfold de_flat. destruct (de_u64 s) as [(m, s1)|] eqn:E1; [|discriminate]. cbn [obind].
  destruct (de_num_inv 8 s m s1 HB E1) as (-> & HB1).
  destruct (Z.eqb_spec m CIRCUIT_VERSION) as [ -> |]; [|discriminate]. cbn [obind guard].
  destruct (read_exact 32 s1) as [(b, s2)|] eqn:E2; [|discriminate]. cbn [obind].
  unfold bytes_eqb. destruct (list_eq_dec Z.eq_dec b sentinel) as [ -> |]; [|discriminate]. intros _. exists s2.
  now rewrite (read_exact_inv _ _ _ _ E2).
Qed.
