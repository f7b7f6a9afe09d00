(** Instances, and what goes wrong *)
From Coq Require Import List ZArith Bool Arith Lia.
From Verif Require Import Base.Array Base.Machine Model.Io Spec.Io Proofs.Crc Proofs.Io Proofs.Bundle.
Import ListNotations.
Local Open Scope list_scope.

(** A store-only zstd *)
Definition toy_zstd : zstd := {| zenc := fun x => ZSTD_MAGIC ++ x;
  zstream := fun l => if bytes_eqb (firstn 4 l) ZSTD_MAGIC then (skipn 4 l, true) else ([], match l with [] => true | _ => false end) |}.
Lemma toy_zstd_ok : zstd_ok toy_zstd.
Proof. intros x. split; reflexivity. Qed.
(** msgpack's one-byte integers *)
Definition small_int : codec Z := {|
  encode := fun v => if ((0 <=? v) && (v <? 128))%Z then Some [v] else None;
  decode := fun l => match l with b :: _ => if ((0 <=? b) && (b <? 128))%Z then Some (b, 1) else None | [] => None end |}.
Lemma small_int_ok : codec_ok small_int.
Proof.
  split.
  - intros v b E. cbn in *. destruct ((0 <=? v) && (v <? 128))%Z eqn:R; [|discriminate]. injection E as <-. now rewrite R.
  - intros [|b l] v k E; cbn in *; [discriminate|]. destruct ((0 <=? b) && (b <? 128))%Z; [|discriminate]. injection E as <- <-. split; auto. lia.
Qed.
(** a manifest without content: the empty map *)
Definition no_manifest_data : manifest Empty_set Empty_set := {| metadata := None; version := None |}.
Definition empty_map : codec (manifest Empty_set Empty_set) := {|
  encode := fun _ => Some [0x80]%Z; decode := fun l => match l with b :: _ => if (b =? 0x80)%Z then Some (no_manifest_data, 1) else None | [] => None end |}.
Lemma empty_map_ok : codec_ok empty_map.
Proof.
  split.
  - intros [[[]|] [[]|]] b E. cbn in E. injection E as <-. reflexivity.
  - intros [|b l] v k E; cbn in *; [discriminate|]. destruct (b =? 0x80)%Z; [|discriminate]. injection E as <- <-. split; auto. lia.
Qed.
Definition exact_buffering : buffering := {| ahead_plain := fun _ k => k; ahead_zstd := fun p _ => length p |}.
Lemma exact_buffering_ok : buffering_ok exact_buffering.
Proof. intros p k. cbn. lia. Qed.
Definition whole (b : bytes) : list bytes := match b with [] => [] | _ => [b] end.
Lemma whole_ok : cut_ok whole.
Proof. intros [|a b]; cbn; split; auto. - now rewrite app_nil_r. - constructor; auto. discriminate. Qed.
Definition root : fs := fun p => match p with [] => Some Dir | _ => None end.
Lemma root_tree : tree root.
Proof. intros n d H. cbn in H. tauto. Qed.
Definition target : path := [7].

(** ** Reading from a file and from memory *)
Definition long_head : bytes := ENVELOPE_MAGIC ++ le_bytes 4 0 ++ le_bytes 8 2 ++ le_bytes 4 (crc32c [5%Z]).
Lemma file_bytes_differ :
  deserialize_from_bytes toy_zstd small_int [5%Z] = Some 5%Z /\ deserialize_content toy_zstd exact_buffering small_int [5%Z] = None /\
  deserialize_from_bytes toy_zstd small_int (long_head ++ [5%Z]) = None /\ deserialize_content toy_zstd exact_buffering small_int (long_head ++ [5%Z]) = Some 5%Z.
Proof. repeat split; vm_compute; reflexivity. Qed.
(** ** Corrupted or truncated headers *)
Definition seven : bytes := write_envelope [7%Z] false.
Definition seven_flipped : bytes := 0x4A%Z :: 0x52%Z :: skipn 2 seven.
Lemma header_flip : serialize_to_bytes toy_zstd small_int 7%Z false = Some seven /\ burst 1 seven seven_flipped /\
  deserialize_from_bytes toy_zstd small_int seven_flipped = Some 74%Z /\ deserialize_content toy_zstd exact_buffering small_int seven_flipped = Some 74%Z.
Proof.
  split; [vm_compute; reflexivity|]. split.
  - split; [vm_compute; reflexivity|]. split; [intros E; apply (f_equal (fun l => nth 1 l 0%Z)) in E; vm_compute in E; discriminate|].
    exists 8. intros i Hi. unfold bit. destruct (Nat.eq_dec (i / 8) 1) as [E|E].
    + rewrite E. pose proof (Nat.div_mod i 8 ltac:(lia)) as D. rewrite E in D. assert (L : i mod 8 < 8) by (apply Nat.mod_upper_bound; lia).
      assert (N : i mod 8 <> 0) by lia. change (nth 1 seven 0%Z) with 83%Z. change (nth 1 seven_flipped 0%Z) with 82%Z.
      destruct (i mod 8) as [|[|[|[|[|[|[|[|k]]]]]]]]; try lia; reflexivity.
    + destruct (i / 8) as [|[|k]]; [reflexivity|tauto|]. reflexivity.
  - split; vm_compute; reflexivity.
Qed.
Lemma truncated_header : deserialize_from_bytes toy_zstd small_int (firstn 3 seven) = Some 74%Z.
Proof. vm_compute. reflexivity. Qed.

(** ** The checksum of a file covers only what was read *)
Definition unshift (t : Z) : Z := if Z.testbit t 31 then Z.lxor 1 (2 * Z.lxor t POLY) else (2 * t)%Z.
Lemma shift_unshift t : word t -> shift (unshift t) = t /\ word (unshift t).
Proof.
  intros W. assert (Low : forall x, word x -> Z.testbit x 31 = false -> word (2 * x)).
  { intros x Wx B. unfold word in *. assert (x < 2 ^ 31)%Z; [|lia]. destruct (Z.lt_ge_cases x (2 ^ 31)) as [L|L]; auto. exfalso.
    assert (Q' : Z.log2 x = 31%Z) by (apply Z.log2_unique; [lia|]; change (Z.succ 31) with 32%Z; lia). rewrite <- Q', Z.bit_log2 in B by lia. discriminate. }
  unfold unshift. destruct (Z.testbit t 31) eqn:T.
  - destruct word_poly as (Wp & Tp). assert (Wx : word (Z.lxor t POLY)) by now apply word_lxor.
    assert (Bx : Z.testbit (Z.lxor t POLY) 31 = false) by (rewrite Z.lxor_spec, T, Tp; reflexivity). split.
    + rewrite shift_lxor. change (shift 1) with POLY. rewrite Z.lxor_comm, Z.lxor_assoc, Z.lxor_nilpotent. apply Z.lxor_0_r.
    + apply word_lxor; [unfold word; lia|]. now apply Low.
  - split; [|now apply Low]. rewrite <- (Z.lxor_0_l (2 * t)), shift_lxor. change (shift 0) with 0%Z. apply Z.lxor_0_l.
Qed.
Lemma iter_unshift n : forall t, word t -> iter n shift (iter n unshift t) = t /\ word (iter n unshift t).
Proof.
  assert (Comm : forall k f s, iter k f (f s) = f (iter k f s)) by (induction k; intros; cbn; auto).
  induction n as [|n IH]; intros t W; [auto|]. destruct (IH t W) as (E & W'). destruct (shift_unshift (iter n unshift t) W') as (E1 & W1).
  cbn [iter]. rewrite (Comm n unshift t). split; auto. now rewrite E1.
Qed.
Lemma lxor_add a b : (0 <= a < 256)%Z -> (0 <= b)%Z -> Z.lxor a (2 ^ 8 * b) = (a + 256 * b)%Z.
Proof.
  intros Ha Hb. change 256%Z with (2 ^ 8)%Z in *. rewrite <- Z.add_nocarry_lxor; auto. apply Z.bits_inj'. intros i Hi. rewrite Z.land_spec, Z.bits_0.
  rewrite (Z.mul_comm (2 ^ 8)). destruct (Z.lt_ge_cases i 8) as [L|L].
  - rewrite (Z.mul_pow2_bits_low b 8 i) by auto. apply andb_false_r.
  - replace (Z.testbit a i) with false; auto. symmetry. destruct (Z.eq_dec a 0) as [-> |N]; [apply Z.bits_0|]. apply Z.bits_above_log2; [lia|].
    apply Z.log2_lt_pow2; [lia|]. apply Z.lt_le_trans with (2 ^ 8)%Z; [lia|]. apply Z.pow_le_mono_r; lia.
Qed.
Lemma crc_bytes l : Forall is_byte l -> forall s, fold_left crc_byte l s = iter (8 * length l) shift (Z.lxor s (le_val l)).
Proof.
  assert (Iter_app : forall a b f s, iter (a + b) f s = iter b f (iter a f s)) by (induction a; intros; cbn; auto).
  assert (Skip : forall k s w, iter k shift (Z.lxor s (2 ^ Z.of_nat k * w)) = Z.lxor (iter k shift s) w).
  { induction k as [|k IH]; intros s w; [now rewrite Z.pow_0_r, Z.mul_1_l|]. rewrite Nat2Z.inj_succ, Z.pow_succ_r, <- Z.mul_assoc by lia. cbn [iter]. rewrite shift_lxor. apply IH. }
  induction 1 as [|b l Hb Hl IH]; intros s; [cbn; now rewrite Z.lxor_0_r|]. cbn [fold_left length le_val].
  rewrite IH. replace (8 * S (length l)) with (8 + 8 * length l) by lia. rewrite Iter_app. f_equal. unfold crc_byte.
  rewrite <- lxor_add by (auto; apply le_val_range; auto). rewrite <- Z.lxor_assoc. symmetry. apply (Skip 8).
Qed.
(** Four bytes give any checksum *)
Lemma crc_choose pre t : Forall is_byte pre -> word t -> exists q, length q = 4 /\ Forall is_byte q /\ crc32c (pre ++ q) = t.
Proof.
  intros Hp Wt. set (s := fold_left crc_byte pre (Z.lxor 0 ONES)).
  assert (Ws : word s) by (unfold s; rewrite crc_bits by auto; apply steps_word, word_lxor; [unfold word; lia|apply word_ones]).
  assert (Wt' : word (Z.lxor t ONES)) by (apply word_lxor; auto; apply word_ones).
  destruct (iter_unshift 32 _ Wt') as (E & W). set (u := iter 32 unshift (Z.lxor t ONES)) in *.
  exists (le_bytes 4 (Z.lxor s u)). split; [apply le_bytes_length|]. split; [apply le_bytes_bytes|].
  unfold crc32c, crc32c_append. rewrite fold_left_app. fold s. rewrite crc_bytes by apply le_bytes_bytes. rewrite le_bytes_length.
  rewrite le_val_id by (apply word_lxor; auto). rewrite <- Z.lxor_assoc, Z.lxor_nilpotent, Z.lxor_0_l.
  change (8 * 4) with 32. rewrite E, Z.lxor_assoc, Z.lxor_nilpotent. apply Z.lxor_0_r.
Qed.

(** msgpack for an optional byte string: nil, or bin 32 with its big-endian length *)
Definition be4 (n : Z) : bytes := rev (le_bytes 4 n).
Definition opt_bytes : codec (option bytes) := {|
  encode := fun v => match v with
    | None => Some [0xC0]%Z
    | Some d => if (Z.of_nat (length d) <? U32)%Z then Some (0xC6%Z :: be4 (Z.of_nat (length d)) ++ d) else None end;
  decode := fun l => match l with
    | b :: r => if (b =? 0xC0)%Z then Some (None, 1)
      else if (b =? 0xC6)%Z then
        if length r <? 4 then None else
        let n := le_val (rev (firstn 4 r)) in
        if (Z.of_nat (length (skipn 4 r)) <? n)%Z then None else Some (Some (firstn (Z.to_nat n) (skipn 4 r)), 5 + Z.to_nat n)
      else None
    | [] => None end |}.
Lemma be4_length n : length (be4 n) = 4.
Proof. unfold be4. now rewrite rev_length, le_bytes_length. Qed.
Lemma opt_bytes_ok : codec_ok opt_bytes.
Proof.
  split.
  - intros [d|] b E; cbn [encode opt_bytes] in E.
    + destruct (Z.ltb_spec (Z.of_nat (length d)) U32) as [L|]; [|discriminate]. assert (b = 0xC6%Z :: be4 (Z.of_nat (length d)) ++ d) as -> by congruence. cbn [decode opt_bytes].
      change (0xC6 =? 0xC0)%Z with false. change (0xC6 =? 0xC6)%Z with true. cbv iota. rewrite app_length, be4_length.
      replace (4 + length d <? 4) with false by (symmetry; apply Nat.ltb_ge; lia).
      rewrite firstn_pre, skipn_pre by apply be4_length. unfold be4 at 1 2 3. rewrite rev_involutive.
      rewrite le_val_id by (unfold U32 in L; change (256 ^ Z.of_nat 4)%Z with (2 ^ 32)%Z; lia). rewrite Z.ltb_irrefl, Nat2Z.id, firstn_all. cbn [length]. rewrite app_length, be4_length. reflexivity.
    + injection E as <-. reflexivity.
  - intros [|b r] v k E; cbn [decode opt_bytes] in *; [discriminate|]. cbn [app].
    destruct (b =? 0xC0)%Z; [injection E as <- <-; cbn; split; auto; lia|]. destruct (b =? 0xC6)%Z; [|discriminate].
    destruct (Nat.ltb_spec (length r) 4) as [|L4]; [discriminate|]. cbv zeta in *. set (n := le_val (rev (firstn 4 r))) in *.
    destruct (Z.ltb_spec (Z.of_nat (length (skipn 4 r))) n) as [|Ln]; [discriminate|]. injection E as <- <-. split; [cbn [length]; rewrite skipn_length in Ln; lia|].
    intros q. rewrite app_length. replace (length r + length q <? 4) with false by (symmetry; apply Nat.ltb_ge; lia).
    assert (Ef : firstn 4 (r ++ q) = firstn 4 r) by (rewrite firstn_app; replace (4 - length r) with 0 by lia; cbn [firstn]; apply app_nil_r).
    assert (Es : skipn 4 (r ++ q) = skipn 4 r ++ q) by (rewrite skipn_app; replace (4 - length r) with 0 by lia; reflexivity).
    rewrite Ef, Es. fold n. rewrite app_length. replace (Z.of_nat (length (skipn 4 r) + length q) <? n)%Z with false by (symmetry; apply Z.ltb_ge; lia).
    rewrite firstn_app. replace (Z.to_nat n - length (skipn 4 r)) with 0 by lia. cbn [firstn]. now rewrite app_nil_r.
Qed.
(** a reader that reads blocks of [B] bytes *)
Definition blocks (B : nat) : buffering := {| ahead_plain := fun p k => (k + B - 1) / B * B; ahead_zstd := fun p _ => length p |}.
Lemma blocks_ok B : 0 < B -> buffering_ok (blocks B).
Proof. intros H p k. cbn. pose proof (Nat.div_mod (k + B - 1) B ltac:(lia)). pose proof (Nat.mod_upper_bound (k + B - 1) B ltac:(lia)). lia. Qed.
Lemma file_burst_missed B : 5 <= B -> (Z.of_nat B < U32 - 1)%Z -> exists d data payload', serialize_to_bytes toy_zstd opt_bytes (Some d) false = Some data /\
  Forall is_byte payload' /\ burst 8 (skipn HEADER_LEN data) payload' /\
  deserialize_content toy_zstd (blocks B) opt_bytes (firstn HEADER_LEN data ++ payload') = Some None.
Proof.
  intros HB HU. unfold U32 in HU. set (body := be4 (Z.of_nat (B - 1)) ++ repeat 0%Z (B - 5)).
  assert (Lb : length body = B - 1) by (unfold body; rewrite app_length, be4_length, repeat_length; lia).
  assert (Bb : Forall is_byte body).
  { unfold body. apply Forall_app. split; [apply Forall_rev, le_bytes_bytes|]. apply Forall_forall. intros x I. apply repeat_spec in I as ->. unfold is_byte. lia. }
  assert (BC : is_byte 0xC6 /\ is_byte 0xC0) by (unfold is_byte; lia). destruct BC as (BC6 & BC0).
  destruct (crc_choose (0xC6%Z :: body) (crc32c (0xC0%Z :: body))) as (q & Lq & Bq & Eq); [constructor; auto|apply crc_word; constructor; auto|].
  set (d := repeat 0%Z (B - 5) ++ q). assert (Ld : length d = B - 1) by (unfold d; rewrite app_length, repeat_length; lia).
  assert (En : encode opt_bytes (Some d) = Some (0xC6%Z :: body ++ q)).
  { cbn [encode opt_bytes]. rewrite Ld. replace (Z.of_nat (B - 1) <? U32)%Z with true by (symmetry; apply Z.ltb_lt; unfold U32; lia).
    unfold body, d. now rewrite <- app_assoc. }
  set (p := 0xC6%Z :: body ++ q) in *. exists d, (write_envelope p false), (0xC0%Z :: body ++ q).
  assert (Bp : Forall is_byte p) by (constructor; auto; apply Forall_app; auto).
  assert (Lp : length p = B + 4) by (unfold p; cbn [length]; rewrite app_length; lia).
  split; [unfold serialize_to_bytes, obind; change (@Some (list Z) d) with (@Some bytes d) in *; rewrite En; reflexivity|]. split; [constructor; auto; apply Forall_app; auto|].
  rewrite envelope_split, skipn_pre, firstn_pre by apply head_length. split.
  - split; [reflexivity|]. split; [intros E; injection E; lia|]. exists 0. intros i [H|H]; [lia|]. unfold bit, p. f_equal.
    assert (1 <= i / 8) by (apply Nat.div_le_lower_bound; lia). destruct (i / 8); [lia|reflexivity].
  - rewrite file_envelope; [|auto|unfold fits, U64; lia]. cbv zeta. change 0xC0%Z with 192%Z in *.
    rewrite firstn_all2 by (cbn [length]; rewrite Lp, app_length; lia).
    change (decode opt_bytes (192%Z :: body ++ q)) with (Some (@None bytes, 1)). cbn [obind fst snd blocks ahead_plain].
    replace ((1 + B - 1) / B * B) with B by (replace (1 + B - 1) with B by lia; rewrite Nat.div_same by lia; lia).
    replace (firstn B (192%Z :: body ++ q)) with (192%Z :: body).
    + replace (crc32c p) with (crc32c (192%Z :: body)) by (rewrite <- Eq; reflexivity). now rewrite Z.eqb_refl.
    + replace B with (S (length body)) by lia. cbn [firstn]. f_equal. symmetry. now apply firstn_pre.
Qed.

(** ** Bundles *)
Notation toy_write := (write_bundle_with_vk toy_zstd empty_map whole (fun _ => 0)).
Notation toy_read := (read_bundle toy_zstd exact_buffering empty_map).
Lemma toy_payload m : payload_ok toy_zstd empty_map m false.
Proof.
  intros b E. cbn in E. injection E as <-. cbn. split; [|unfold fits; cbn; unfold U64; lia]. constructor; auto. unfold is_byte. lia.
Qed.
(** a circuit that starts like a zstd frame, stored as it is *)
Lemma frame_circuit : let r := toy_write (start root []) target (ZSTD_MAGIC ++ [1%Z]) [2%Z] None no_manifest_data false in
  snd r = true /\ option_map b_circuit (toy_read (now (fst r)) target) = Some [1%Z].
Proof. split; vm_compute; reflexivity. Qed.
(** the last write of a compressed circuit fails *)
Lemma lost_flush : let r := toy_write (start root [false; false; true]) target [5%Z] [2%Z] None no_manifest_data true in
  snd r = true /\ option_map b_circuit (toy_read (now (fst r)) target) = Some [].
Proof. split; vm_compute; reflexivity. Qed.
(** the circuit file exists before it has content *)
Lemma early_circuit : let r := toy_write (start root []) target [5%Z] [2%Z] None no_manifest_data false in
  snd r = true /\ exists s, In s (history (fst r)) /\ read_circuit_blob toy_zstd s target = Some [].
Proof.
  split; [vm_compute; reflexivity|]. set (h := history _). exists (nth 1 h root). split; [|vm_compute; reflexivity].
  apply nth_In. vm_compute. lia.
Qed.
(** power loss: a file of which nothing has reached the disk *)
Lemma unsynced_circuit : let r := toy_write (start root []) target [5%Z] [2%Z] None no_manifest_data false in
  snd r = true /\ exists s, reduced (now (fst r)) s /\ option_map b_circuit (toy_read s target) = Some [].
Proof.
  split; [vm_compute; reflexivity|]. set (s1 := now _). exists (put s1 (CIRCUIT :: target) (Some (File []))). split.
  - intros p. unfold put. destruct (path_eqb p (CIRCUIT :: target)) eqn:E; [|auto]. right. exists [5%Z], 0. split; [|reflexivity].
    unfold path_eqb in E. destruct (list_eq_dec Nat.eq_dec p (CIRCUIT :: target)) as [-> |]; [|discriminate]. vm_compute. reflexivity.
  - vm_compute. reflexivity.
Qed.
(** a failed write leaves a directory, and no later write succeeds *)
Lemma failed_residue : let r := toy_write (start root [false; false; true]) target [5%Z] [2%Z] None no_manifest_data false in
  snd r = false /\ now (fst r) target = Some Dir /\ now (fst r) (CIRCUIT :: target) = Some (File []) /\
  forall f, snd (toy_write (start (now (fst r)) f) target [5%Z] [2%Z] None no_manifest_data false) = false.
Proof.
  split; [vm_compute; reflexivity|]. split; [vm_compute; reflexivity|]. split; [vm_compute; reflexivity|]. intros f.
  set (s := now _). assert (D : s target <> None) by (vm_compute; discriminate).
  destruct (write_existing toy_zstd empty_map whole (fun _ => 0) target [5%Z] [2%Z] None no_manifest_data false s f D) as (w & E). now rewrite E.
Qed.

(** ** The statements of the properties *)
Lemma round_trip_met : zstd_ok toy_zstd /\ codec_ok opt_bytes /\ buffering_ok (blocks 4) /\
  let v := Some [1; 2; 3]%Z in payload_ok toy_zstd opt_bytes v true /\
  exists data, serialize_to_bytes toy_zstd opt_bytes v true = Some data /\ length data = 32 /\
  deserialize_from_bytes toy_zstd opt_bytes data = Some v /\ deserialize_content toy_zstd (blocks 4) opt_bytes (data ++ [9%Z]) = Some v.
Proof.
  split; [apply toy_zstd_ok|]. split; [apply opt_bytes_ok|]. split; [apply blocks_ok; lia|]. cbv zeta. split.
  - intros m E. vm_compute in E. injection E as <-. split; [|vm_compute; reflexivity]. repeat constructor; unfold is_byte; lia.
  - eexists. split; [vm_compute; reflexivity|]. repeat split; vm_compute; reflexivity.
Qed.
Lemma burst_met : let v := Some [1; 2; 3]%Z in exists data payload', serialize_to_bytes toy_zstd opt_bytes v false = Some data /\
  Forall is_byte payload' /\ burst 32 (skipn HEADER_LEN data) payload' /\ payload_ok toy_zstd opt_bytes v false.
Proof.
  cbv zeta. eexists. exists [198; 0; 255; 254; 7; 1; 2; 3]%Z. split; [vm_compute; reflexivity|]. split; [repeat constructor; unfold is_byte; lia|]. split.
  - apply (crc_four _ _ [0; 0; 3]%Z [255; 254; 7]%Z [198; 0]%Z [1; 2; 3]%Z); [vm_compute; reflexivity|reflexivity|reflexivity|cbn; lia|discriminate].
  - intros m E. vm_compute in E. injection E as <-. split; [|vm_compute; reflexivity]. repeat constructor; unfold is_byte; lia.
Qed.
Lemma file_burst_refuted : forall B, 5 <= B -> (Z.of_nat B < U32 - 1)%Z -> exists (z : zstd) (cd : codec (option bytes)), zstd_ok z /\ codec_ok cd /\ buffering_ok (blocks B) /\
  exists d data payload', serialize_to_bytes z cd (Some d) false = Some data /\
  Forall is_byte payload' /\ burst 8 (skipn HEADER_LEN data) payload' /\
  deserialize_content z (blocks B) cd (firstn HEADER_LEN data ++ payload') = Some None.
Proof.
  intros B H1 H2. exists toy_zstd, opt_bytes. split; [apply toy_zstd_ok|]. split; [apply opt_bytes_ok|]. split; [apply blocks_ok; lia|]. now apply file_burst_missed.
Qed.
Lemma header_refuted : exists (z : zstd) (buf : buffering) (cd : codec Z) data data', zstd_ok z /\ buffering_ok buf /\ codec_ok cd /\
  serialize_to_bytes z cd 7%Z false = Some data /\ burst 1 data data' /\ deserialize_from_bytes z cd data' = Some 74%Z /\ deserialize_content z buf cd data' = Some 74%Z.
Proof.
  exists toy_zstd, exact_buffering, small_int, seven, seven_flipped. split; [apply toy_zstd_ok|]. split; [apply exact_buffering_ok|]. split; [apply small_int_ok|]. apply header_flip.
Qed.
Lemma truncated_refuted : exists (z : zstd) (cd : codec Z) data, zstd_ok z /\ codec_ok cd /\ payload_ok z cd 7%Z false /\
  serialize_to_bytes z cd 7%Z false = Some data /\ deserialize_from_bytes z cd (firstn 3 data) = Some 74%Z.
Proof.
  exists toy_zstd, small_int, seven. split; [apply toy_zstd_ok|]. split; [apply small_int_ok|]. split; [|split; [apply header_flip|apply truncated_header]].
  intros m E. vm_compute in E. injection E as <-. split; [|vm_compute; reflexivity]. repeat constructor; unfold is_byte; lia.
Qed.
Lemma agree_refuted : exists (z : zstd) (buf : buffering) (cd : codec Z) short long, zstd_ok z /\ buffering_ok buf /\ codec_ok cd /\
  Forall is_byte short /\ Forall is_byte long /\
  deserialize_from_bytes z cd short = Some 5%Z /\ deserialize_content z buf cd short = None /\
  deserialize_from_bytes z cd long = None /\ deserialize_content z buf cd long = Some 5%Z.
Proof.
  exists toy_zstd, exact_buffering, small_int, [5%Z], (long_head ++ [5%Z]). split; [apply toy_zstd_ok|]. split; [apply exact_buffering_ok|]. split; [apply small_int_ok|].
  assert (B5 : Forall is_byte [5%Z]) by (repeat constructor; unfold is_byte; lia). split; auto. split; [|apply file_bytes_differ].
  apply Forall_app. split; auto. unfold long_head. rewrite !Forall_app. split; [repeat constructor; unfold is_byte; lia|]. repeat split; apply le_bytes_bytes.
Qed.
Lemma written_agree {T} (z : zstd) (buf : buffering) (cd : codec T) : zstd_ok z -> buffering_ok buf -> codec_ok cd ->
  forall v data rest, payload_ok z cd v false -> serialize_to_bytes z cd v false = Some data ->
  deserialize_content z buf cd (data ++ rest) = deserialize_from_bytes z cd (data ++ rest).
Proof. intros Zo Bo Co v data rest P E. now rewrite (file_round_trip z buf cd Bo Co v data rest), (bytes_round_trip z cd Zo Co v false data rest). Qed.
Lemma raw_agree' {T} (z : zstd) (buf : buffering) (cd : codec T) content : 20 <= length content ->
  firstn 4 content <> ENVELOPE_MAGIC -> firstn 4 content <> ZSTD_MAGIC -> deserialize_content z buf cd content = deserialize_from_bytes z cd content.
Proof.
  intros L N1 N2. apply raw_agree; auto. unfold detect_format.
  assert (E1 : bytes_eqb (firstn 4 content) ENVELOPE_MAGIC = false) by (apply not_true_iff_false; now rewrite bytes_eqb_spec).
  assert (E2 : bytes_eqb (firstn 4 content) ZSTD_MAGIC = false) by (apply not_true_iff_false; now rewrite bytes_eqb_spec).
  now rewrite E1, E2, !andb_false_r.
Qed.
Lemma envelope_agree {T} (z : zstd) (buf : buffering) (cd : codec T) content h : parse_header content = Some h -> firstn 4 content = ENVELOPE_MAGIC ->
  compressed h = false -> payload_len h = Z.of_nat (length content - 20) ->
  (forall v k, decode cd (skipn 20 content) = Some (v, k) -> length content - 20 <= ahead_plain buf (skipn 20 content) k) ->
  deserialize_content z buf cd content = deserialize_from_bytes z cd content.
Proof.
  intros Hh Em Hc Hl All. assert (L : 20 <= length content).
  { unfold parse_header, HEADER_LEN in Hh. destruct (Nat.ltb_spec (length content) 20); [discriminate|auto]. }
  unfold deserialize_content, deserialize_from_bytes. unfold HEADER_LEN. replace (length content <? 20) with false by (symmetry; apply Nat.ltb_ge; auto).
  assert (D : detect_format content = Envelope).
  { unfold detect_format. rewrite Em. rewrite (proj2 (Nat.leb_le 4 _)) by lia. reflexivity. }
  assert (D' : detect_format (firstn 20 content) = Envelope).
  { unfold detect_format. rewrite firstn_length, firstn_firstn. change (Nat.min 4 20) with 4. rewrite Nat.min_l by lia. rewrite Em. reflexivity. }
  rewrite D, D'. assert (P : parse_header (firstn 20 content) = parse_header content).
  { unfold parse_header, HEADER_LEN. rewrite firstn_length. rewrite Nat.min_l by lia. change (20 <? 20) with false. replace (length content <? 20) with false by (symmetry; apply Nat.ltb_ge; auto).
    assert (R : forall a b, b <= 20 -> range (firstn 20 content) a b = range content a b).
    { intros a b Hb. unfold range. rewrite skipn_firstn_comm, firstn_firstn. f_equal. lia. }
    rewrite !R by lia. reflexivity. }
  rewrite P, Hh. cbn [obind]. rewrite Hc, Hl. rewrite skipn_length, Z.min_id, Nat2Z.id, Z.ltb_irrefl.
  rewrite (firstn_all2 (skipn 20 content)) by (rewrite skipn_length; lia). unfold verify_crc, value.
  destruct (decode cd (skipn 20 content)) as [(v, k)|] eqn:E; cbn [obind fst snd option_map].
  - rewrite (firstn_all2 (skipn 20 content)) by (rewrite skipn_length; exact (All v k eq_refl)). now rewrite E.
  - rewrite ?E; now destruct (_ =? _)%Z.
Qed.

Lemma bundle_round_trip {M V} (z : zstd) (buf : buffering) (cd : codec (manifest M V)) cut flushed : zstd_ok z -> buffering_ok buf -> codec_ok cd -> cut_ok cut ->
  forall dir circuit solver vk m (c : bool) s0 f w, tree s0 -> s0 dir = None -> payload_ok z cd m false -> c = false \/ f = [] ->
  stored_ok circuit c -> stored_ok solver c -> (forall v, vk = Some v -> stored_ok v c) ->
  write_bundle_with_vk z cd cut flushed (start s0 f) dir circuit solver vk m c = (w, true) ->
  let s := now w in
  read_bundle z buf cd s dir = Some {| b_circuit := circuit; b_solver := solver; b_vk := vk; b_metadata := metadata m; b_version := version m |} /\
  read_circuit_blob z s dir = Some circuit /\ read_vk_only z s dir = vk /\ bundle_has_vk s dir = match vk with Some _ => true | None => false end /\
  read_bundle_metadata z buf cd s dir = Some (metadata m, version m).
Proof.
  intros Zo Bo Co Ko dir circuit solver vk m c s0 f w Tr Fr P Mo O1 O2 O3 E s.
  destruct (write_spec z buf cd cut flushed Co Ko dir circuit solver vk m c s0 Tr Fr P f w true Mo E) as (_ & A & _). destruct (A eq_refl) as (_ & Done).
  exact (read_complete z buf cd Zo Bo Co dir circuit solver vk m c P s O1 O2 O3 Done).
Qed.
Lemma write_succeeds {M V} (z : zstd) (cd : codec (manifest M V)) cut flushed : cut_ok cut ->
  forall dir circuit solver vk m (c : bool) s0, tree s0 -> s0 dir = None -> parent_ok s0 dir = true -> encode cd m <> None ->
  exists w, write_bundle_with_vk z cd cut flushed (start s0 []) dir circuit solver vk m c = (w, true).
Proof. exact (write_total z cd cut flushed). Qed.
Lemma write_undone' {M V} (z : zstd) (cd : codec (manifest M V)) cut flushed : cut_ok cut ->
  forall dir circuit solver vk m (c : bool) s0, tree s0 -> s0 dir = None -> parent_ok s0 dir = true -> encode cd m = None ->
  exists w, write_bundle_with_vk z cd cut flushed (start s0 []) dir circuit solver vk m c = (w, false) /\ same (now w) s0.
Proof. exact (write_undone z cd cut flushed). Qed.
Lemma crash_safe {M V} (z : zstd) (buf : buffering) (cd : codec (manifest M V)) cut flushed : codec_ok cd -> cut_ok cut ->
  forall dir circuit solver vk m (c : bool) s0 f w ok, tree s0 -> s0 dir = None -> payload_ok z cd m false -> c = false \/ f = [] ->
  write_bundle_with_vk z cd cut flushed (start s0 f) dir circuit solver vk m c = (w, ok) ->
  (forall s, In s (history w) -> untouched s0 dir s /\ (read_bundle z buf cd s dir = None \/ complete z cd dir circuit solver vk m c s)) /\
  (ok = true -> untouched s0 dir (now w) /\ complete z cd dir circuit solver vk m c (now w)) /\
  (ok = false -> untouched s0 dir (now w) /\ read_bundle z buf cd (now w) dir = None).
Proof.
  intros Co Ko dir circuit solver vk m c s0 f w ok Tr Fr P Mo E.
  destruct (write_spec z buf cd cut flushed Co Ko dir circuit solver vk m c s0 Tr Fr P f w ok Mo E) as (H & A & B).
  split; [|auto]. intros s I. rewrite Forall_forall in H. exact (H s I).
Qed.
Lemma crash_reader {M V} (z : zstd) (buf : buffering) (cd : codec (manifest M V)) cut flushed : zstd_ok z -> buffering_ok buf -> codec_ok cd -> cut_ok cut ->
  forall dir circuit solver vk m (c : bool) s0 f w ok, tree s0 -> s0 dir = None -> payload_ok z cd m false -> c = false \/ f = [] ->
  stored_ok circuit c -> stored_ok solver c -> (forall v, vk = Some v -> stored_ok v c) ->
  write_bundle_with_vk z cd cut flushed (start s0 f) dir circuit solver vk m c = (w, ok) ->
  forall s, In s (history w) -> read_bundle z buf cd s dir = None \/
  read_bundle z buf cd s dir = Some {| b_circuit := circuit; b_solver := solver; b_vk := vk; b_metadata := metadata m; b_version := version m |}.
Proof.
  intros Zo Bo Co Ko dir circuit solver vk m c s0 f w ok Tr Fr P Mo O1 O2 O3 E s I.
  destruct (crash_safe z buf cd cut flushed Co Ko dir circuit solver vk m c s0 f w ok Tr Fr P Mo E) as (H & _). destruct (H s I) as (_ & [R|D]); auto.
  right. exact (proj1 (read_complete z buf cd Zo Bo Co dir circuit solver vk m c P s O1 O2 O3 D)).
Qed.
Lemma bundle_met : tree root /\ root [7] = None /\ payload_ok toy_zstd empty_map no_manifest_data false /\
  stored_ok [1; 2; 3]%Z false /\ exists w, write_bundle_with_vk toy_zstd empty_map whole (fun _ => 0) (start root []) [7] [1; 2; 3]%Z [4%Z] (Some [5; 6]%Z) no_manifest_data false = (w, true) /\
  length (history w) = 9 /\ now w [CIRCUIT; 7] = Some (File [1; 2; 3]%Z) /\ now w [VK; 7] = Some (File [5; 6]%Z).
Proof.
  split; [apply root_tree|]. split; [reflexivity|]. split; [apply toy_payload|]. split; [right; discriminate|].
  eexists. split; [apply surjective_pairing|]. repeat split; vm_compute; reflexivity.
Qed.
Lemma surj {A} (r : A * bool) b : snd r = b -> r = (fst r, b).
Proof. destruct r. cbn. congruence. Qed.
Lemma mapped {A B} (f : A -> B) o b : option_map f o = Some b -> exists a, o = Some a /\ f a = b.
Proof. destruct o; cbn; [|discriminate]. intros E. injection E as <-. eauto. Qed.
Lemma frame_refuted : exists (z : zstd) (buf : buffering) (cd : codec (manifest Empty_set Empty_set)) cut flushed, zstd_ok z /\ buffering_ok buf /\ codec_ok cd /\ cut_ok cut /\
  exists dir circuit solver m s0 w b, tree s0 /\ s0 dir = None /\ write_bundle_with_vk z cd cut flushed (start s0 []) dir circuit solver None m false = (w, true) /\
  read_bundle z buf cd (now w) dir = Some b /\ b_circuit b <> circuit.
Proof.
  exists toy_zstd, exact_buffering, empty_map, whole, (fun _ => 0). split; [apply toy_zstd_ok|]. split; [apply exact_buffering_ok|]. split; [apply empty_map_ok|]. split; [apply whole_ok|].
  destruct frame_circuit as (E & R). apply mapped in R as (b & R & C). exists target; do 5 eexists. exists b. split; [apply root_tree|]. split; [reflexivity|]. split; [exact (surj _ _ E)|].
  split; [exact R|]. rewrite C. discriminate.
Qed.
Lemma flush_refuted : exists (z : zstd) (buf : buffering) (cd : codec (manifest Empty_set Empty_set)) cut flushed, zstd_ok z /\ buffering_ok buf /\ codec_ok cd /\ cut_ok cut /\
  exists dir circuit solver m s0 f w b, tree s0 /\ s0 dir = None /\ write_bundle_with_vk z cd cut flushed (start s0 f) dir circuit solver None m true = (w, true) /\
  read_bundle z buf cd (now w) dir = Some b /\ b_circuit b <> circuit.
Proof.
  exists toy_zstd, exact_buffering, empty_map, whole, (fun _ => 0). split; [apply toy_zstd_ok|]. split; [apply exact_buffering_ok|]. split; [apply empty_map_ok|]. split; [apply whole_ok|].
  destruct lost_flush as (E & R). apply mapped in R as (b & R & C). exists target; do 6 eexists. exists b. split; [apply root_tree|]. split; [reflexivity|]. split; [exact (surj _ _ E)|].
  split; [exact R|]. rewrite C. discriminate.
Qed.
Lemma circuit_reader_refuted : exists (z : zstd) (cd : codec (manifest Empty_set Empty_set)) cut flushed, zstd_ok z /\ codec_ok cd /\ cut_ok cut /\
  exists dir circuit solver m s0 w, tree s0 /\ s0 dir = None /\ stored_ok circuit false /\ write_bundle_with_vk z cd cut flushed (start s0 []) dir circuit solver None m false = (w, true) /\
  exists s circuit', In s (history w) /\ read_circuit_blob z s dir = Some circuit' /\ circuit' <> circuit.
Proof.
  exists toy_zstd, empty_map, whole, (fun _ => 0). split; [apply toy_zstd_ok|]. split; [apply empty_map_ok|]. split; [apply whole_ok|].
  destruct early_circuit as (E & s & I & R). exists target; do 5 eexists. split; [apply root_tree|]. split; [reflexivity|]. split; [|split; [exact (surj _ _ E)|]].
  - right. discriminate.
  - exists s, []. split; [exact I|]. split; [exact R|]. discriminate.
Qed.
Lemma power_loss_refuted : exists (z : zstd) (buf : buffering) (cd : codec (manifest Empty_set Empty_set)) cut flushed, zstd_ok z /\ buffering_ok buf /\ codec_ok cd /\ cut_ok cut /\
  exists dir circuit solver m s0 w s b, tree s0 /\ s0 dir = None /\ stored_ok circuit false /\ write_bundle_with_vk z cd cut flushed (start s0 []) dir circuit solver None m false = (w, true) /\
  reduced (now w) s /\ read_bundle z buf cd s dir = Some b /\ b_circuit b <> circuit.
Proof.
  exists toy_zstd, exact_buffering, empty_map, whole, (fun _ => 0). split; [apply toy_zstd_ok|]. split; [apply exact_buffering_ok|]. split; [apply empty_map_ok|]. split; [apply whole_ok|].
  destruct unsynced_circuit as (E & s & D & R). apply mapped in R as (b & R & C). exists target; do 5 eexists. exists s, b. split; [apply root_tree|]. split; [reflexivity|]. split; [|split; [exact (surj _ _ E)|]].
  - right. discriminate.
  - split; [exact D|]. split; [exact R|]. rewrite C. discriminate.
Qed.
Lemma cleanup_refuted : exists (z : zstd) (cd : codec (manifest Empty_set Empty_set)) cut flushed, zstd_ok z /\ codec_ok cd /\ cut_ok cut /\
  exists dir circuit solver m s0 f w, tree s0 /\ s0 dir = None /\ write_bundle_with_vk z cd cut flushed (start s0 f) dir circuit solver None m false = (w, false) /\
  now w dir <> s0 dir /\ forall f', exists w', write_bundle_with_vk z cd cut flushed (start (now w) f') dir circuit solver None m false = (w', false).
Proof.
  exists toy_zstd, empty_map, whole, (fun _ => 0). split; [apply toy_zstd_ok|]. split; [apply empty_map_ok|]. split; [apply whole_ok|].
  destruct failed_residue as (E & D & _ & L). exists target; do 6 eexists. split; [apply root_tree|]. split; [|split; [exact (surj _ _ E)|]]; [reflexivity|]. split.
  - rewrite D. discriminate.
  - intros f'. eexists. exact (surj _ _ (L f')).
Qed.
