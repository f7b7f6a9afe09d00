From Coq Require Import List ZArith Bool Arith Lia.
From Verif Require Import Base.Array Base.Machine Model.Io Spec.Io Proofs.Crc.
Import ListNotations.
Local Open Scope list_scope.

Lemma bytes_eqb_spec a b : bytes_eqb a b = true <-> a = b.
Proof. unfold bytes_eqb. destruct (list_eq_dec Z.eq_dec a b); split; intros; auto; try discriminate; tauto. Qed.
Lemma obind_some {A B} (x : A) (f : A -> option B) : (let* y := Some x in f y) = f x.
Proof. reflexivity. Qed.

(** ** Envelopes *)
Definition head_of (payload : bytes) (c : bool) : bytes :=
  ENVELOPE_MAGIC ++ le_bytes 4 (if c then 1 else 0)%Z ++ le_bytes 8 (Z.of_nat (length payload)) ++ le_bytes 4 (crc32c payload).
Lemma envelope_split payload c : write_envelope payload c = head_of payload c ++ payload.
Proof. unfold write_envelope, head_of. now rewrite <- !app_assoc. Qed.
Lemma head_length payload c : length (head_of payload c) = HEADER_LEN.
Proof. unfold head_of. rewrite !app_length, !le_bytes_length. reflexivity. Qed.
Lemma range_app (a b c : bytes) from to : length a = from -> length b = to - from -> range (a ++ b ++ c) from to = b.
Proof.
  intros L M. unfold range. rewrite skipn_app, skipn_all2 by lia. replace (from - length a) with 0 by lia. cbn [app skipn].
  rewrite firstn_app, firstn_all2 by lia. replace (to - from - length b) with 0 by lia. cbn. apply app_nil_r.
Qed.
Lemma parse_head payload c rest : Forall is_byte payload -> fits payload ->
  parse_header (head_of payload c ++ rest) = Some {| compressed := c; payload_len := Z.of_nat (length payload); crc32 := crc32c payload |}.
Proof.
  intros HB HF. unfold parse_header. rewrite app_length, head_length.
  replace (HEADER_LEN + length rest <? HEADER_LEN) with false by (symmetry; apply Nat.ltb_ge; lia). f_equal.
  unfold head_of. rewrite <- !app_assoc.
  rewrite (range_app ENVELOPE_MAGIC) by (rewrite ?le_bytes_length; reflexivity).
  rewrite (app_assoc ENVELOPE_MAGIC). rewrite (range_app (ENVELOPE_MAGIC ++ _)) by (rewrite ?app_length, ?le_bytes_length; reflexivity).
  rewrite (app_assoc (ENVELOPE_MAGIC ++ _)). rewrite (range_app ((ENVELOPE_MAGIC ++ _) ++ _)) by (rewrite ?app_length, ?le_bytes_length; reflexivity).
  rewrite !le_val_id.
  - destruct c; reflexivity.
  - pose proof (crc_word payload HB) as W. unfold word in W. exact W.
  - unfold fits, U64 in HF. change (256 ^ Z.of_nat 8)%Z with (2 ^ 64)%Z. lia.
  - destruct c; cbn; lia.
Qed.
Lemma detect_head payload c rest : detect_format (head_of payload c ++ rest) = Envelope.
Proof. unfold detect_format, head_of. rewrite <- !app_assoc. cbn [ENVELOPE_MAGIC app length firstn Nat.leb andb]. reflexivity. Qed.
Lemma firstn_pre {A} (a b : list A) n : length a = n -> firstn n (a ++ b) = a.
Proof. intros <-. rewrite firstn_app, firstn_all, Nat.sub_diag. cbn. apply app_nil_r. Qed.
Lemma skipn_pre {A} (a b : list A) n : length a = n -> skipn n (a ++ b) = b.
Proof. intros <-. rewrite skipn_app, skipn_all, Nat.sub_diag. reflexivity. Qed.

Section Codec.
Variables (z : zstd) (buf : buffering).
Context {T : Type} (cd : codec T).
Hypotheses (ZOK : zstd_ok z) (BOK : buffering_ok buf) (COK : codec_ok cd).

(** What reading an envelope with payload [p] amounts to, whatever the payload *)
Lemma from_bytes_envelope hp c payload rest : Forall is_byte hp -> fits hp -> length payload = length hp ->
  deserialize_from_bytes z cd (head_of hp c ++ payload ++ rest) =
  if (crc32c payload =? crc32c hp)%Z then let* m := (if c then decompress_bytes z payload else Some payload) in value (decode cd m) else None.
Proof.
  intros HB HF L. unfold deserialize_from_bytes. rewrite detect_head, parse_head by auto. rewrite obind_some. cbn [payload_len crc32 compressed].
  rewrite !app_length, head_length.
  replace (Z.of_nat _ <? Z.of_nat _)%Z with false by (symmetry; apply Z.ltb_ge; lia).
  rewrite Nat2Z.id, skipn_pre by apply head_length. rewrite firstn_pre by auto. reflexivity.
Qed.
Lemma encode_decode v m : encode cd v = Some m -> value (decode cd m) = Some v.
Proof. intros E. rewrite (proj1 COK v m E). reflexivity. Qed.
Lemma serialize_inv v c data : serialize_to_bytes z cd v c = Some data ->
  exists m, encode cd v = Some m /\ data = write_envelope (if c then zenc z m else m) c.
Proof. unfold serialize_to_bytes. destruct (encode cd v) as [m|]; [cbn; intros E; inversion E; eauto|discriminate]. Qed.
Local Notation payload_ok := (Spec.Io.payload_ok z cd).
Lemma bytes_round_trip v c data rest : payload_ok v c -> serialize_to_bytes z cd v c = Some data -> deserialize_from_bytes z cd (data ++ rest) = Some v.
Proof.
  intros HP E. apply serialize_inv in E as (m & Em & ->). destruct (HP m Em) as (HB & HF). rewrite envelope_split, <- app_assoc.
  rewrite from_bytes_envelope by auto. rewrite Z.eqb_refl. destruct c; cbn [obind].
  - unfold decompress_bytes. rewrite (proj1 (ZOK m)). cbn. now apply encode_decode.
  - now apply encode_decode.
Qed.
Lemma file_envelope hp c payload : Forall is_byte hp -> fits hp -> 
  deserialize_content z buf cd (head_of hp c ++ payload) =
  let taken := firstn (length hp) payload in
  let* r := (if c then let* r := decode cd (fst (zstream z taken)) in Some (fst r, ahead_zstd buf taken (snd r))
             else let* r := decode cd taken in Some (fst r, ahead_plain buf taken (snd r))) in
  if (crc32c (firstn (snd r) taken) =? crc32c hp)%Z then Some (fst r) else None.
Proof.
  intros HB HF. unfold deserialize_content. rewrite app_length, head_length.
  replace (HEADER_LEN + length payload <? HEADER_LEN) with false by (symmetry; apply Nat.ltb_ge; lia).
  rewrite firstn_pre by apply head_length. pose proof (detect_head hp c []) as D. pose proof (parse_head hp c [] HB HF) as P. rewrite app_nil_r in D, P.
  cbv zeta. rewrite D, P. rewrite obind_some. cbn [payload_len crc32 compressed].
  rewrite skipn_pre by apply head_length.
  assert (Q : firstn (Z.to_nat (Z.min (Z.of_nat (length hp)) (Z.of_nat (length payload)))) payload = firstn (length hp) payload).
  { rewrite <- Nat2Z.inj_min, Nat2Z.id. destruct (Nat.le_ge_cases (length hp) (length payload)) as [L|L].
    - now rewrite Nat.min_l. - rewrite Nat.min_r by auto. rewrite firstn_all. now rewrite firstn_all2. }
  rewrite Q. destruct c; reflexivity.
Qed.
Lemma file_round_trip v data rest : payload_ok v false -> serialize_to_bytes z cd v false = Some data -> deserialize_content z buf cd (data ++ rest) = Some v.
Proof.
  intros HP E. apply serialize_inv in E as (m & Em & ->). destruct (HP m Em) as (HB & HF). rewrite envelope_split, <- app_assoc.
  rewrite file_envelope by auto. cbv zeta. rewrite firstn_pre by auto. rewrite (proj1 COK v m Em). cbn [obind fst snd].
  rewrite firstn_all2 by apply BOK. rewrite Z.eqb_refl. reflexivity.
Qed.
Lemma file_round_trip_zstd v m data rest : payload_ok v true -> encode cd v = Some m -> serialize_to_bytes z cd v true = Some data ->
  length (zenc z m) <= ahead_zstd buf (zenc z m) (length m) -> deserialize_content z buf cd (data ++ rest) = Some v.
Proof.
  intros HP Em E A. apply serialize_inv in E as (m' & Em' & ->). rewrite Em in Em'. injection Em' as <-. destruct (HP m Em) as (HB & HF). rewrite envelope_split, <- app_assoc.
  rewrite file_envelope by auto. cbv zeta. rewrite firstn_pre by auto. rewrite (proj1 (ZOK m)). cbn [fst]. rewrite (proj1 COK v m Em). cbn [obind fst snd].
  rewrite firstn_all2 by auto. rewrite Z.eqb_refl. reflexivity.
Qed.
(** ** Corruption and truncation *)
Lemma bytes_burst v c data payload' : payload_ok v c -> serialize_to_bytes z cd v c = Some data -> Forall is_byte payload' ->
  burst 32 (skipn HEADER_LEN data) payload' -> deserialize_from_bytes z cd (firstn HEADER_LEN data ++ payload') = None.
Proof.
  intros HP E HB' HU. apply serialize_inv in E as (m & Em & ->). destruct (HP m Em) as (HB & HF). rewrite envelope_split in *.
  rewrite skipn_pre in HU by apply head_length. rewrite firstn_pre by apply head_length. pose proof (proj1 HU) as L.
  rewrite <- (app_nil_r payload'). rewrite from_bytes_envelope by auto.
  assert (N : crc32c payload' <> crc32c (if c then zenc z m else m)) by (intros Q; exact (crc_burst _ _ HB HB' HU (eq_sym Q))).
  now apply Z.eqb_neq in N as ->.
Qed.
Lemma file_burst v (c : bool) data payload' : payload_ok v c -> serialize_to_bytes z cd v c = Some data -> Forall is_byte payload' ->
  burst 32 (skipn HEADER_LEN data) payload' ->
  (forall r k, decode cd (if c then fst (zstream z payload') else payload') = Some (r, k) -> length payload' <= if c then ahead_zstd buf payload' k else ahead_plain buf payload' k) ->
  deserialize_content z buf cd (firstn HEADER_LEN data ++ payload') = None.
Proof.
  intros HP E HB' HU All. apply serialize_inv in E as (m & Em & ->). destruct (HP m Em) as (HB & HF). rewrite envelope_split in *.
  rewrite skipn_pre in HU by apply head_length. rewrite firstn_pre by apply head_length. pose proof (proj1 HU) as L.
  rewrite file_envelope by auto. cbv zeta. rewrite (firstn_all2 payload') by lia.
  assert (N : crc32c payload' <> crc32c (if c then zenc z m else m)) by (intros Q; exact (crc_burst _ _ HB HB' HU (eq_sym Q))).
  apply Z.eqb_neq in N. destruct c; cbn [obind] in *.
  - destruct (decode cd (fst (zstream z payload'))) as [(r, k)|] eqn:D; [|reflexivity]. cbn [obind fst snd]. rewrite firstn_all2 by now apply (All r k). now rewrite N.
  - destruct (decode cd payload') as [(r, k)|] eqn:D; [|reflexivity]. cbn [obind fst snd]. rewrite firstn_all2 by now apply (All r k). now rewrite N.
Qed.
Lemma bytes_truncated v c data n : payload_ok v c -> serialize_to_bytes z cd v c = Some data -> 4 <= n < length data ->
  deserialize_from_bytes z cd (firstn n data) = None.
Proof.
  intros HP E Hn. apply serialize_inv in E as (m & Em & ->). destruct (HP m Em) as (HB & HF). rewrite envelope_split in *.
  set (p := if c then zenc z m else m) in *. rewrite app_length, head_length in Hn. unfold deserialize_from_bytes.
  assert (D : detect_format (firstn n (head_of p c ++ p)) = Envelope).
  { unfold detect_format. rewrite firstn_length, app_length, head_length. replace (4 <=? Nat.min n (HEADER_LEN + length p)) with true by (symmetry; apply Nat.leb_le; unfold HEADER_LEN; lia).
    rewrite firstn_firstn, Nat.min_l by lia. unfold head_of. rewrite <- !app_assoc. cbn [ENVELOPE_MAGIC app firstn]. reflexivity. }
  rewrite D. destruct (Nat.lt_ge_cases n HEADER_LEN) as [S|S].
  - unfold parse_header. rewrite firstn_length, app_length, head_length. replace (_ <? HEADER_LEN) with true by (symmetry; apply Nat.ltb_lt; lia). reflexivity.
  - rewrite firstn_app, head_length, firstn_all2 by (rewrite head_length; auto). rewrite parse_head by auto. rewrite obind_some. cbn [payload_len].
    rewrite app_length, head_length, firstn_length. replace (Z.of_nat _ <? Z.of_nat _)%Z with true; auto. symmetry. apply Z.ltb_lt. lia.
Qed.
Lemma prefix_fails v m n : encode cd v = Some m -> n < length m -> decode cd (firstn n m) = None.
Proof.
  intros Em Hn. destruct (decode cd (firstn n m)) as [(v', k)|] eqn:E; auto. exfalso.
  destruct (proj2 COK _ _ _ E) as (Hk & Q). specialize (Q (skipn n m)). rewrite firstn_skipn, (proj1 COK v m Em) in Q. injection Q as <- <-.
  rewrite firstn_length in Hk. lia.
Qed.
Lemma file_truncated v data n : payload_ok v false -> serialize_to_bytes z cd v false = Some data -> n < length data ->
  deserialize_content z buf cd (firstn n data) = None.
Proof.
  intros HP E Hn. apply serialize_inv in E as (m & Em & ->). destruct (HP m Em) as (HB & HF). rewrite envelope_split in *.
  rewrite app_length, head_length in Hn. destruct (Nat.lt_ge_cases n HEADER_LEN) as [S|S].
  - unfold deserialize_content. rewrite firstn_length, app_length, head_length. replace (_ <? HEADER_LEN) with true by (symmetry; apply Nat.ltb_lt; lia). reflexivity.
  - rewrite firstn_app, head_length, firstn_all2 by (rewrite head_length; auto). rewrite file_envelope by auto. cbv zeta.
    rewrite firstn_firstn, Nat.min_r by lia. rewrite (prefix_fails v m) by (auto; lia). reflexivity.
Qed.
(** a plain file whose value ends with its payload *)
Lemma raw_agree content : HEADER_LEN <= length content -> detect_format content = RawMsgpack ->
  deserialize_content z buf cd content = deserialize_from_bytes z cd content.
Proof.
  intros L D. unfold deserialize_content, deserialize_from_bytes. rewrite D. replace (_ <? HEADER_LEN) with false by (symmetry; apply Nat.ltb_ge; auto).
  assert (D' : detect_format (firstn HEADER_LEN content) = detect_format content).
  { unfold detect_format. rewrite firstn_length, firstn_firstn. unfold HEADER_LEN in *. change (Nat.min 4 20) with 4. rewrite Nat.min_l by lia.
    rewrite !(proj2 (Nat.leb_le 4 _)) by lia. reflexivity. }
  rewrite D', D. reflexivity.
Qed.
End Codec.
