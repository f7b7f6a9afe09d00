From Coq Require Import List ZArith QArith Bool String Arith Lia.
From Verif Require Import Base.Array Base.Machine Spec.Serdes Spec.Zkvm Model.Serdes Model.Zkvm Proofs.Serdes.
From Verif Require Spec.RealOps Model.Io.
Import ListNotations.
Local Open Scope list_scope.
Local Open Scope Z_scope.

Lemma rt_u32 : round_trips is_u32 write_u32 read_u32.
Proof. intros v rest H. apply (rt_num 4). exact H. Qed.
Lemma rt_u64' : round_trips is_u64 write_u64 read_u64.
Proof. intros v rest H. apply (rt_num 8). exact H. Qed.
Lemma rt_i64 : round_trips is_i64 write_i64 read_i64.
Proof.
  intros v rest H. unfold write_i64, read_i64.
  assert (E : le_bytes 8 v = le_bytes 8 (v mod 2 ^ 64)).
  { pose proof (le_bytes_val (le_bytes 8 v) (le_bytes_bytes 8 v)) as E. rewrite le_bytes_length, le_val_bytes in E. rewrite <- E. reflexivity. }
  rewrite E. pose proof (rt_num 8 (v mod 2 ^ 64) rest) as R. unfold ser_num in R. rewrite R; [|apply Z.mod_pos_bound; reflexivity].
  cbn [obind]. unfold is_i64 in H. destruct (Z.leb_spec 0 v).
  - rewrite Z.mod_small by lia. destruct (Z.leb_spec (2 ^ 63) v); [lia|reflexivity].
  - replace (v mod 2 ^ 64) with (v + 2 ^ 64) by (rewrite <- (Z.mod_small (v + 2 ^ 64) (2 ^ 64)) by lia; rewrite <- (Z_mod_plus_full v 1 (2 ^ 64)); f_equal; lia).
    destruct (Z.leb_spec (2 ^ 63) (v + 2 ^ 64)); [|lia]. f_equal. f_equal. lia.
Qed.
Lemma rt_list P w r : round_trips P w r -> round_trips (vec32 P) (write_list w) (read_list r).
Proof.
  intros RT l rest [L F]. unfold write_list, read_list. rewrite <- app_assoc, rt_u32 by (unfold is_u32; lia). cbn [obind].
  rewrite Nat2Z.id. apply (rt_times P); assumption.
Qed.
Lemma rt_u8 : round_trips (fun v => 0 <= v < 256) (fun v => [v]) read_u8.
Proof. intros v rest H. unfold read_u8, de_num, read_exact. cbn. f_equal. f_equal. lia. Qed.
Lemma rt_layer : round_trips desc_ok encode_layer decode_layer.
Proof.
  intros l rest (H1 & H2 & H3 & H4 & H5 & H6 & H7 & H8). unfold encode_layer, decode_layer.
  rewrite <- !app_assoc.
  rewrite rt_u8 by exact H1. cbn [obind]. rewrite rt_u8 by (destruct (needs_rescale l); lia). cbn [obind].
  rewrite rt_u32 by exact H2. cbn [obind].
  rewrite (rt_list is_u32) by (exact rt_u32 || assumption). cbn [obind].
  rewrite (rt_list is_i64) by (exact rt_i64 || assumption). cbn [obind].
  rewrite (rt_list is_u32) by (exact rt_u32 || assumption). cbn [obind].
  rewrite (rt_list is_i64) by (exact rt_i64 || assumption). cbn [obind].
  rewrite (rt_list is_i64) by (exact rt_i64 || assumption). cbn [obind].
  rewrite (rt_list is_i64) by (exact rt_i64 || assumption). cbn [obind].
  destruct l as [? [|]]; reflexivity.
Qed.
Lemma decode_encode m rest : canonical_ok m -> decode (encode m ++ rest) = Some m.
Proof.
  intros (H1 & H2 & H3 & H4 & H5 & H6). unfold encode, decode. rewrite <- !app_assoc.
  rewrite rt_u64' by assumption. cbn [obind]. rewrite rt_u32 by assumption. cbn [obind]. rewrite rt_u64' by assumption. cbn [obind].
  rewrite (rt_list is_u32) by (exact rt_u32 || assumption). cbn [obind]. rewrite rt_u32 by (unfold is_u32; lia). cbn [obind].
  rewrite Nat2Z.id, (rt_times desc_ok _ _ (layers m) rest rt_layer H6). destruct m. reflexivity.
Qed.

(** *** The output determines the model *)
Lemma guest_length al ls : forall prev nb, guest_loop al ls prev = Some nb -> List.length nb = List.length ls.
Proof.
  induction ls as [|l ls IH]; intros prev nb H; cbn in H; [injection H as <-; reflexivity|].
  destruct (guest_layer al l prev) as [[b n]|]; [|discriminate]. cbn in H. destruct (guest_loop al ls n) as [r|] eqn:E; [|discriminate].
  injection H as <-. cbn. f_equal. eapply IH, E.
Qed.
Definition de_pair_nb : decoder (desc * Z) := fun s => let* (l, s) := decode_layer s in let* (n, s) := read_u32 s in Some ((l, n), s).
Lemma rt_layer_nb : round_trips (fun x => desc_ok (fst x) /\ is_u32 (snd x)) (fun '(l, nb) => encode_layer l ++ write_u32 nb) de_pair_nb.
Proof.
  intros [l nb] rest [H1 H2]. unfold de_pair_nb. rewrite <- app_assoc, rt_layer by exact H1. cbn [obind]. rewrite rt_u32 by exact H2. reflexivity.
Qed.
Definition de_output : decoder (canonical * list Z) := fun s =>
  let* (_, s) := read_exact 8 s in
  let* (ba, s) := read_u64 s in
  let* (ex, s) := read_u32 s in
  let* (al, s) := read_u64 s in
  let* (dims, s) := read_list read_u32 s in
  let* (n, s) := read_u32 s in
  let* (ls, s) := de_times (Z.to_nat n) de_pair_nb s in
  Some (({| base := ba; exponent := ex; alpha := al; input_dims := dims; layers := map fst ls |}, map snd ls), s).
Lemma combine_map {A B} (l : list A) (r : list B) : List.length r = List.length l -> map fst (combine l r) = l /\ map snd (combine l r) = r.
Proof. revert r. induction l as [|a l IH]; intros [|b r] H; cbn in *; try discriminate; auto. injection H as H. destruct (IH r H) as [-> ->]. auto. Qed.
Lemma output_read m nb rest : canonical_ok m -> List.length nb = List.length (layers m) -> Forall is_u32 nb ->
  de_output (canonical_output m nb ++ rest) = Some ((m, nb), rest).
Proof.
  intros (H1 & H2 & H3 & H4 & H5 & H6) L Hn. unfold canonical_output, de_output. rewrite <- !app_assoc.
  rewrite read_exact_app by reflexivity. cbn [obind].
  rewrite rt_u64' by assumption. cbn [obind]. rewrite rt_u32 by assumption. cbn [obind]. rewrite rt_u64' by assumption. cbn [obind].
  rewrite (rt_list is_u32) by (exact rt_u32 || assumption). cbn [obind]. rewrite rt_u32 by (unfold is_u32; lia). cbn [obind].
  rewrite Nat2Z.id. replace (List.length (layers m)) with (List.length (combine (layers m) nb)) by (rewrite combine_length; lia).
  assert (F : Forall (fun x => desc_ok (fst x) /\ is_u32 (snd x)) (combine (layers m) nb)).
  { apply Forall_forall. intros [l n] Hin. split; [apply in_combine_l in Hin|apply in_combine_r in Hin]; cbn;
      [exact (proj1 (Forall_forall _ _) H6 l Hin)|exact (proj1 (Forall_forall _ _) Hn n Hin)]. }
  rewrite (rt_times _ _ _ _ rest rt_layer_nb F). cbn [obind].
  destruct (combine_map (layers m) nb L) as [-> ->]. destruct m. reflexivity.
Qed.
Lemma n_bits_range b : 0 <= b <= u64_max -> is_u32 (compute_n_bits_int b).
Proof.
  intros H. unfold compute_n_bits_int, integer_log2_ceil, is_u32. destruct (b =? 0); [lia|]. destruct (Z.leb_spec b 1); [lia|].
  assert (Z.log2 (b - 1) < 64) by (apply Z.log2_lt_pow2; unfold u64_max in H; lia).
  pose proof (Z.log2_nonneg (b - 1)). lia.
Qed.
Lemma sat_add a b : 0 <= a -> 0 <= b -> 0 <= saturating_add a b <= u64_max.
Proof. intros. unfold saturating_add, u64_max. lia. Qed.
Lemma max_u64_nonneg l : forall a, 0 <= a -> 0 <= fold_left Z.max l a.
Proof. induction l as [|x l IH]; intros a H; cbn; [exact H|]. apply IH. lia. Qed.
Lemma l1_nonneg w c : 0 <= max_channel_l1 w c.
Proof. unfold max_channel_l1. destruct c, w; try lia; apply max_u64_nonneg; lia. Qed.
Lemma bias_nonneg w : 0 <= bias_max_abs w. Proof. apply max_u64_nonneg. lia. Qed.
Lemma guest_u32 al l prev b n : is_u64 al -> is_u64 prev -> guest_layer al l prev = Some (b, n) -> is_u32 b /\ is_u64 n.
Proof.
  intros Ha Hp H. unfold guest_layer in H.
  assert (D : forall x q, 0 <= x -> div_u64 x al = Some q -> 0 <= q).
  { intros x q Hx E. unfold div_u64 in E. destruct (Z.eqb_spec al 0); [discriminate|]. injection E as <-. apply Z.div_pos; unfold is_u64 in Ha; lia. }
  assert (P0 : 0 <= prev) by (unfold is_u64 in Hp; lia).
  assert (Z0 : is_u32 0) by (unfold is_u32; lia).
  assert (NP : is_u32 (compute_n_bits_int prev)) by (apply n_bits_range; unfold is_u64 in Hp; unfold u64_max; lia).
  destruct ((op_type l =? 5) || (op_type l =? 4))%bool.
  { destruct (div_u64 prev al) as [q|] eqn:E1; [|discriminate]. destruct (div_u64 (bias_max_abs (bias_data l)) al) as [b'|] eqn:E2; [|discriminate].
    injection H as <- <-. split; [|exact Ha]. apply n_bits_range, sat_add.
    - unfold saturating_mul. apply D in E1; [|exact P0]. pose proof (l1_nonneg (weight_data l) (match weight_dims l with d :: _ :: _ => Z.to_nat d | _ => 1%nat end)). unfold u64_max. nia.
    - eapply D, E2. apply bias_nonneg. }
  destruct (op_type l =? 8).
  { destruct (div_u64 _ al) as [q|] eqn:E1 in H; [|discriminate]. destruct (div_u64 (bias_max_abs (bias_data l)) al) as [b'|] eqn:E2; [|discriminate].
    injection H as <- <-. split; [|exact Ha]. apply n_bits_range, sat_add.
    - unfold saturating_mul. apply D in E1; [unfold u64_max; nia|]. destruct (weight_data l); [unfold is_u64 in Ha; lia|apply max_u64_nonneg; lia].
    - eapply D, E2. apply bias_nonneg. }
  repeat match type of H with (if ?c then _ else _) = _ => destruct c end; injection H as <- <-; auto.
Qed.
Lemma guest_all_u32 al ls : is_u64 al -> forall prev nb, is_u64 prev -> guest_loop al ls prev = Some nb -> Forall is_u32 nb.
Proof.
  intros Ha. induction ls as [|l ls IH]; intros prev nb Hp H; cbn in H; [injection H as <-; constructor|].
  destruct (guest_layer al l prev) as [[b n]|] eqn:E; [|discriminate]. cbn in H. destruct (guest_loop al ls n) as [r|] eqn:E'; [|discriminate].
  injection H as <-. destruct (guest_u32 _ _ _ _ _ Ha Hp E). constructor; [assumption|]. eapply IH; eassumption.
Qed.

(** *** What decoding delivers is well formed *)
Definition delivers {T} (P : T -> Prop) (d : decoder T) : Prop := forall s v r, Forall is_byte s -> d s = Some (v, r) -> P v /\ Forall is_byte r.
Lemma dl_num n : delivers (fun v => 0 <= v < 256 ^ Z.of_nat n) (de_num n).
Proof.
  intros s v r Hs H. unfold de_num, read_exact in H. destruct (Nat.leb_spec n (List.length s)); [|discriminate]. cbn in H. injection H as <- <-.
  assert (F : Forall is_byte (firstn n s)) by (apply Forall_forall; intros x Hx; apply (proj1 (Forall_forall _ _) Hs); rewrite <- (firstn_skipn n s); apply in_or_app; auto).
  split; [|apply Forall_forall; intros x Hx; apply (proj1 (Forall_forall _ _) Hs); rewrite <- (firstn_skipn n s); apply in_or_app; auto].
  pose proof (le_val_range _ F) as R. rewrite firstn_length_le in R by assumption. exact R.
Qed.
Lemma dl_times {T} (P : T -> Prop) d : delivers P d -> forall n, delivers (fun l => List.length l = n /\ Forall P l) (de_times n d).
Proof.
  intros D. induction n as [|n IH]; intros s v r Hs H; cbn in H; [injection H as <- <-; auto|].
  destruct (d s) as [[x s1]|] eqn:E; [|discriminate]. cbn in H. destruct (D _ _ _ Hs E) as [Px Hs1].
  destruct (de_times n d s1) as [[l s2]|] eqn:E2; [|discriminate]. cbn in H. injection H as <- <-.
  destruct (IH _ _ _ Hs1 E2) as [[L F] H2]. split; [|exact H2]. cbn. auto.
Qed.
Lemma dl_i64 : delivers is_i64 read_i64.
Proof.
  intros s v r Hs H. unfold read_i64 in H. destruct (de_num 8 s) as [[x s1]|] eqn:E; [|discriminate]. cbn [obind] in H. injection H as <- <-.
  destruct (dl_num 8 _ _ _ Hs E) as [Px Hs1]. split; [|exact Hs1]. change (256 ^ Z.of_nat 8) with (2 ^ 64) in Px. cbv beta in Px. unfold is_i64.
  change (Z.pow_pos 2 63) with (2 ^ 63). change (Z.pow_pos 2 64) with (2 ^ 64). destruct (Z.leb_spec (2 ^ 63) x); lia.
Qed.
Lemma dl_list P r : delivers P r -> delivers (vec32 P) (read_list r).
Proof.
  intros D s v q Hs H. unfold read_list in H. destruct (read_u32 s) as [[n s1]|] eqn:E; [|discriminate]. cbn [obind] in H.
  destruct (dl_num 4 _ _ _ Hs E) as [Pn Hs1]. destruct (dl_times P r D _ _ _ _ Hs1 H) as [[L F] H2]. split; [|exact H2].
  split; [|exact F]. rewrite L. change (256 ^ Z.of_nat 4) with (2 ^ 32) in Pn. cbv beta in Pn. lia.
Qed.
Lemma dl_layer : delivers desc_ok decode_layer.
Proof.
  intros s v q Hs H. unfold decode_layer in H.
  destruct (read_u8 s) as [[x0 s0]|] eqn:E0; [|discriminate]. cbn [obind] in H. destruct (dl_num 1 _ _ _ Hs E0) as [P0 H0].
  destruct (read_u8 s0) as [[x1 s1]|] eqn:E1; [|discriminate]. cbn [obind] in H. destruct (dl_num 1 _ _ _ H0 E1) as [P1 H1].
  destruct (read_u32 s1) as [[x2 s2]|] eqn:E2; [|discriminate]. cbn [obind] in H. destruct (dl_num 4 _ _ _ H1 E2) as [P2 H2].
  destruct (read_list read_u32 s2) as [[x3 s3]|] eqn:E3; [|discriminate]. cbn [obind] in H. destruct (dl_list is_u32 _ (dl_num 4) _ _ _ H2 E3) as [P3 H3].
  destruct (read_list read_i64 s3) as [[x4 s4]|] eqn:E4; [|discriminate]. cbn [obind] in H. destruct (dl_list _ _ dl_i64 _ _ _ H3 E4) as [P4 H4].
  destruct (read_list read_u32 s4) as [[x5 s5]|] eqn:E5; [|discriminate]. cbn [obind] in H. destruct (dl_list is_u32 _ (dl_num 4) _ _ _ H4 E5) as [P5 H5].
  destruct (read_list read_i64 s5) as [[x6 s6]|] eqn:E6; [|discriminate]. cbn [obind] in H. destruct (dl_list _ _ dl_i64 _ _ _ H5 E6) as [P6 H6].
  destruct (read_list read_i64 s6) as [[x7 s7]|] eqn:E7; [|discriminate]. cbn [obind] in H. destruct (dl_list _ _ dl_i64 _ _ _ H6 E7) as [P7 H7].
  destruct (read_list read_i64 s7) as [[x8 s8]|] eqn:E8; [|discriminate]. cbn [obind] in H. destruct (dl_list _ _ dl_i64 _ _ _ H7 E8) as [P8 H8].
  injection H as <- <-. split; [|exact H8]. unfold desc_ok. cbn. auto 10.
Qed.
Lemma decode_ok s m : Forall is_byte s -> decode s = Some m -> canonical_ok m.
Proof.
  intros Hs H. unfold decode in H.
  destruct (read_u64 s) as [[x0 s0]|] eqn:E0; [|discriminate]. cbn [obind] in H. destruct (dl_num 8 _ _ _ Hs E0) as [P0 H0].
  destruct (read_u32 s0) as [[x1 s1]|] eqn:E1; [|discriminate]. cbn [obind] in H. destruct (dl_num 4 _ _ _ H0 E1) as [P1 H1].
  destruct (read_u64 s1) as [[x2 s2]|] eqn:E2; [|discriminate]. cbn [obind] in H. destruct (dl_num 8 _ _ _ H1 E2) as [P2 H2].
  destruct (read_list read_u32 s2) as [[x3 s3]|] eqn:E3; [|discriminate]. cbn [obind] in H. destruct (dl_list is_u32 _ (dl_num 4) _ _ _ H2 E3) as [P3 H3].
  destruct (read_u32 s3) as [[x4 s4]|] eqn:E4; [|discriminate]. cbn [obind] in H. destruct (dl_num 4 _ _ _ H3 E4) as [P4 H4].
  destruct (de_times _ decode_layer s4) as [[x5 s5]|] eqn:E5; [|discriminate]. cbn [obind] in H. destruct (dl_times _ _ dl_layer _ _ _ _ H4 E5) as [[L F] H5].
  injection H as <-. unfold canonical_ok. cbn. change (256 ^ Z.of_nat 4) with (2 ^ 32) in P4. cbv beta in P4. repeat split; auto; try apply P0; try apply P1; try apply P2; try apply P3. rewrite L. lia.
Qed.
(** Equal hashes: equal models, or a collision between the two outputs. *)
Lemma output_inj m1 m2 n1 n2 : canonical_ok m1 -> canonical_ok m2 -> guest_n_bits m1 = Some n1 -> guest_n_bits m2 = Some n2 ->
  canonical_output m1 n1 = canonical_output m2 n2 -> m1 = m2.
Proof.
  intros O1 O2 G1 G2 E. assert (A1 : is_u64 (alpha m1)) by apply O1. assert (A2 : is_u64 (alpha m2)) by apply O2.
  pose proof (output_read m1 n1 [] O1 (guest_length _ _ _ _ G1) (guest_all_u32 _ _ A1 _ _ A1 G1)) as R1.
  pose proof (output_read m2 n2 [] O2 (guest_length _ _ _ _ G2) (guest_all_u32 _ _ A2 _ _ A2 G2)) as R2.
  rewrite E, R2 in R1. injection R1. auto.
Qed.
Lemma hash_binds sha s1 s2 h : Forall is_byte s1 -> Forall is_byte s2 ->
  verify_compilation sha s1 = Some h -> verify_compilation sha s2 = Some h ->
  exists m1 n1 m2 n2, decode s1 = Some m1 /\ decode s2 = Some m2 /\ guest_n_bits m1 = Some n1 /\ guest_n_bits m2 = Some n2 /\
    (m1 = m2 \/ canonical_output m1 n1 <> canonical_output m2 n2 /\ sha (canonical_output m1 n1) = sha (canonical_output m2 n2)).
Proof.
  intros B1 B2 V1 V2. unfold verify_compilation in *.
  destruct (decode s1) as [m1|] eqn:D1; [|discriminate]. destruct (decode s2) as [m2|] eqn:D2; [|discriminate]. cbn [obind] in V1, V2.
  destruct (guest_n_bits m1) as [n1|] eqn:G1; [|discriminate]. destruct (guest_n_bits m2) as [n2|] eqn:G2; [|discriminate].
  cbn [obind] in V1, V2.
  exists m1, n1, m2, n2. do 4 (split; [reflexivity || assumption|]).
  destruct (list_eq_dec Z.eq_dec (canonical_output m1 n1) (canonical_output m2 n2)) as [E|E];
    [left; apply (output_inj m1 m2 n1 n2); auto; [exact (decode_ok _ _ B1 D1)|exact (decode_ok _ _ B2 D2)]|right; split; [exact E|congruence]].
Qed.
(** The guest fails exactly on truncated bytes and on a scale of zero with a layer that divides by it. *)
Definition divides (l : desc) : bool := (op_type l =? 4) || (op_type l =? 5) || (op_type l =? 8).
Lemma guest_layer_total al l prev : guest_layer al l prev = None <-> al = 0 /\ divides l = true.
Proof.
  unfold guest_layer, divides, div_u64. cbv zeta. generalize (op_type l) as o. intros o.
  destruct (o =? 5) eqn:E5; [|destruct (o =? 4) eqn:E4]; cbn [orb].
  1-2: rewrite ?orb_true_r; destruct (Z.eqb_spec al 0); cbn; intuition (discriminate || lia).
  destruct (o =? 8) eqn:E8; [destruct (Z.eqb_spec al 0); cbn; intuition (discriminate || lia)|].
  split; [|intros [_ F]; discriminate].
  repeat match goal with |- (if ?c then _ else _) = None -> _ => destruct c end; discriminate.
Qed.
Lemma guest_total al ls : forall prev, guest_loop al ls prev = None <-> al = 0 /\ existsb divides ls = true.
Proof.
  induction ls as [|l ls IH]; intros prev; cbn; [split; [discriminate|intros [_ F]; discriminate]|].
  destruct (guest_layer al l prev) as [[b n]|] eqn:E; cbn.
  - assert (N : ~ (al = 0 /\ divides l = true)) by (intros C; apply (guest_layer_total al l prev) in C; congruence).
    destruct (guest_loop al ls n) as [r|] eqn:E'; cbn.
    + split; [discriminate|]. intros [A B]. apply orb_true_iff in B. destruct B as [B|B]; [tauto|].
      assert (C : guest_loop al ls n = None) by (apply IH; auto). congruence.
    + apply IH in E'. destruct E' as [A B]. rewrite B, orb_true_r. tauto.
  - apply guest_layer_total in E. destruct E as [A B]. rewrite B. tauto.
Qed.

(** ** What the canonical form forgets, and what it keeps *)
Lemma canonical_layer_widths a b : name a = name b /\ op a = op b /\ inputs a = inputs b /\ outputs a = outputs b /\ weights a = weights b /\
  attributes a = attributes b /\ rescale a = rescale b -> canonical_layer a = canonical_layer b.
Proof.
  destruct a, b. cbn. intros (-> & -> & -> & -> & -> & -> & ->). reflexivity.
Qed.
Lemma omap_ext {A B} (f : A -> option B) l r : Forall2 (fun a b => f a = f b) l r -> omap f l = omap f r.
Proof. induction 1 as [|a b l r H _ IH]; [reflexivity|]. cbn. rewrite H, IH. reflexivity. Qed.
Lemma widths_forgotten m1 m2 : same_but_widths m1 m2 -> from_quantized m1 = from_quantized m2.
Proof.
  destruct m1, m2. unfold same_but_widths, from_quantized. cbn. intros (-> & -> & -> & _ & -> & -> & F).
  rewrite (omap_ext canonical_layer _ nodes0); [reflexivity|].
  clear -F. induction F; constructor; auto using canonical_layer_widths.
Qed.
Lemma op_code_inj a b c : op_code a = Some c -> op_code b = Some c -> a = b.
Proof. destruct a, b; cbn; intros E F; try discriminate; try reflexivity; rewrite <- E in F; discriminate. Qed.
Lemma map_u32 l r : map as_u32 l = map as_u32 r -> Forall2 (fun x y => x mod 2 ^ 32 = y mod 2 ^ 32) l r.
Proof. revert r. induction l as [|a l IH]; intros [|b r] H; cbn in H; try discriminate; constructor; injection H; auto. Qed.
Lemma extract_same a b i : extract a i = extract b i -> same_constant (constant_at a i) (constant_at b i).
Proof.
  unfold extract, same_constant, constant_at.
  assert (D : forall t, data_of t = entries t) by reflexivity.
  destruct (nth_error (inputs a) i) as [s|]; [destruct (get s (weights a)) as [t|]|];
    (destruct (nth_error (inputs b) i) as [s'|]; [destruct (get s' (weights b)) as [t'|]|]);
    intros H; try exact I; injection H as H1 H2; rewrite ?D in *; auto using map_u32.
  all: split; [|auto].
  all: match goal with H : map as_u32 ?d = [] |- _ => destruct d; [reflexivity|discriminate] | H : [] = map as_u32 ?d |- _ => destruct d; [reflexivity|discriminate] end.
Qed.
Lemma canonical_layer_alike a b d : canonical_layer a = Some d -> canonical_layer b = Some d -> alike a b.
Proof.
  unfold canonical_layer. destruct (op_code (op a)) as [ca|] eqn:Ea; [|discriminate]. destruct (op_code (op b)) as [cb|] eqn:Eb; [|discriminate].
  cbn [obind]. destruct (extract a 1) as [a1 a2] eqn:X1. destruct (extract a 2) as [a3 a4] eqn:X2.
  destruct (extract b 1) as [b1 b2] eqn:Y1. destruct (extract b 2) as [b3 b4] eqn:Y2. intros [= <-] [= E1 E2 E3 E4 E5 E6 E7 E8 E9].
  subst. split; [eapply op_code_inj; eassumption|]. split; [auto|]. split; [symmetry; exact E3|]. split; apply extract_same; congruence.
Qed.
Lemma omap_nth {A B} (f : A -> option B) l r : omap f l = Some r -> forall i y, nth_error r i = Some y <-> exists x, nth_error l i = Some x /\ f x = Some y.
Proof.
  revert r. induction l as [|a l IH]; intros r H i y; cbn in H.
  - injection H as <-. destruct i; cbn; split; try discriminate; intros (x & E & _); discriminate.
  - destruct (f a) as [b|] eqn:E; [|discriminate]. cbn in H. destruct (omap f l) as [r'|] eqn:E'; [|discriminate]. injection H as <-.
    destruct i as [|i]; cbn; [|apply (IH _ eq_refl)]. split; [intros [= <-]; eauto|]. intros (x & [= <-] & F). congruence.
Qed.
Lemma from_quantized_inv m c : from_quantized m = Some c ->
  base c = m_base m /\ exponent c = m_exponent m /\ alpha c = m_base m ^ m_exponent m /\
  forall i d, nth_error (layers c) i = Some d <->
    exists j n, nth_error (topo_order m) i = Some j /\ nth_error (nodes m) j = Some n /\ canonical_layer n = Some d.
Proof.
  unfold from_quantized. destruct (_ <? _); [|discriminate]. cbn [obind].
  destruct (omap canonical_layer (nodes m)) as [ls|] eqn:E; [|discriminate]. cbn [obind].
  unfold guard. destruct (_ =? _)%nat; [|discriminate]. cbn [obind]. destruct (distinct_below _ _ _); [|discriminate]. cbn [obind].
  destruct (omap _ (topo_order m)) as [o|] eqn:F; [|discriminate]. cbn [obind]. intros [= <-]. cbn.
  do 3 (split; [reflexivity|]). intros i d. rewrite (omap_nth _ _ _ F i d). split.
  - intros (j & H1 & H2). apply (omap_nth _ _ _ E j d) in H2 as (n & H2 & H3). eauto.
  - intros (j & n & H1 & H2 & H3). exists j. split; [exact H1|]. apply (omap_nth _ _ _ E j d). eauto.
Qed.
Lemma kept m1 m2 c : from_quantized m1 = Some c -> from_quantized m2 = Some c ->
  m_base m1 = m_base m2 /\ m_exponent m1 = m_exponent m2 /\
  forall i a j, nth_error (topo_order m1) i = Some j -> nth_error (nodes m1) j = Some a ->
    exists k b, nth_error (topo_order m2) i = Some k /\ nth_error (nodes m2) k = Some b /\ alike a b.
Proof.
  intros H1 H2. apply from_quantized_inv in H1 as I1. apply from_quantized_inv in H2 as (B2 & E2 & _ & I2).
  destruct I1 as (B1 & E1 & _ & I1). split; [congruence|]. split; [congruence|]. intros i a j Hj Ha.
  assert (D : exists d, canonical_layer a = Some d).
  { unfold from_quantized in H1. destruct (_ <? _); [|discriminate]. cbn [obind] in H1.
    destruct (omap canonical_layer (nodes m1)) as [ls|] eqn:E; [|discriminate].
    destruct (canonical_layer a) as [d|] eqn:Ed; [eauto|exfalso]. clear -E Ha Ed.
    revert ls j E Ha. generalize (nodes m1) as l. induction l as [|x l IH]; intros ls [|j] E Ha; cbn in *; try discriminate.
    - injection Ha as ->. rewrite Ed in E. discriminate.
    - destruct (canonical_layer x); [|discriminate]. cbn in E. destruct (omap canonical_layer l) eqn:E'; [|discriminate]. eapply IH; eauto. }
  destruct D as [d Ed]. assert (Hd : nth_error (layers c) i = Some d) by (apply I1; eauto).
  apply I2 in Hd as (k & b & K1 & K2 & K3). exists k, b. split; [exact K1|]. split; [exact K2|]. eapply canonical_layer_alike; eassumption.
Qed.
