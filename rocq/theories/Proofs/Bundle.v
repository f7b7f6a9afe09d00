From Coq Require Import List ZArith Bool Arith Lia.
From Verif Require Import Base.Array Base.Machine Model.Io Spec.Io Proofs.Crc Proofs.Io.
Import ListNotations.
Local Open Scope list_scope.

Lemma path_eqb_refl p : path_eqb p p = true.
Proof. unfold path_eqb. destruct (list_eq_dec Nat.eq_dec p p); tauto. Qed.
Lemma path_eqb_neq p q : p <> q -> path_eqb p q = false.
Proof. unfold path_eqb. destruct (list_eq_dec Nat.eq_dec p q); tauto. Qed.
Lemma put_same s p n : put s p n p = n.
Proof. unfold put. now rewrite path_eqb_refl. Qed.
Lemma put_other s p n q : q <> p -> put s p n q = s q.
Proof. intros H. unfold put. now rewrite path_eqb_neq. Qed.
Lemma path_dec (p q : path) : p = q \/ p <> q.
Proof. destruct (list_eq_dec Nat.eq_dec p q); auto. Qed.
Lemma cons_neq n (d : path) : n :: d <> d.
Proof. intros E. apply (f_equal (@length nat)) in E. cbn in E. lia. Qed.
Lemma put_put s p a b : same (put (put s p a) p b) (put s p b).
Proof. intros q. unfold put. now destruct (path_eqb q p). Qed.
Lemma same_put s t p n : same s t -> same (put s p n) (put t p n).
Proof. intros H q. unfold put. now destruct (path_eqb q p). Qed.
Lemma same_trans s t u : same s t -> same t u -> same s u.
Proof. intros H G q. now rewrite H. Qed.

Definition grow (P : fs -> Prop) (w w' : world) : Prop := exists h, history w' = history w ++ h /\ Forall P h.
Lemma grow_refl P w w' : history w' = history w -> grow P w w'.
Proof. intros H. exists []. now rewrite app_nil_r. Qed.
Lemma grow_trans P a b c : grow P a b -> grow P b c -> grow P a c.
Proof. intros (h & E & H) (k & F & G). exists (h ++ k). rewrite F, E, app_assoc. split; auto. now apply Forall_app. Qed.
Lemma grow_mono (P Q : fs -> Prop) w w' : (forall s, P s -> Q s) -> grow P w w' -> grow Q w w'.
Proof. intros I (h & E & H). exists h. split; auto. eapply Forall_impl; eauto. Qed.

Lemma call_cases w op w' ok : call w op = (w', ok) -> faults w' = tl (faults w) /\
  ((ok = true /\ exists s, op (now w) = Some s /\ now w' = s /\ history w' = history w ++ [s]) \/
   (ok = false /\ now w' = now w /\ history w' = history w /\ (faults w = [] -> op (now w) = None))).
Proof.
  unfold call. destruct (hd false (faults w)) eqn:H.
  - intros E. inversion E; subst; cbn. split; auto. right. repeat split; auto. intros F. rewrite F in H. discriminate.
  - destruct (op (now w)) as [s|] eqn:O; intros E; inversion E; subst; cbn; (split; [reflexivity|]); [left; eauto|right; auto].
Qed.

(** ** Appending *)
Lemma append_all_spec p base : forall chunks w c0 w' ok, same (now w) (put base p (Some (File c0))) -> append_all w p chunks = (w', ok) ->
  exists done rest, chunks = done ++ rest /\ same (now w') (put base p (Some (File (c0 ++ concat done)))) /\ (ok = true <-> rest = []) /\
    grow (fun s => exists d r, chunks = d ++ r /\ same s (put base p (Some (File (c0 ++ concat d))))) w w' /\
    (faults w = [] -> ok = true /\ faults w' = []).
Proof.
  induction chunks as [|c chunks IH]; intros w c0 w' ok S E; cbn [append_all] in E.
  - inversion E; subst. exists [], []. cbn. rewrite app_nil_r. split; [reflexivity|]. split; [exact S|]. split; [tauto|]. split; [now apply grow_refl|auto].
  - destruct (call w (fun s => append s p c)) as (w1, b) eqn:Ec. apply call_cases in Ec as (F & [(-> & s & Op & N & H)|(-> & N & H & O)]).
    + assert (Es : same s (put base p (Some (File (c0 ++ c))))).
      { unfold append in Op. rewrite S, put_same in Op. injection Op as <-. eapply same_trans; [apply same_put, S|]. apply put_put. }
      assert (S1 : same (now w1) (put base p (Some (File (c0 ++ c))))) by (now rewrite N).
      destruct (IH _ _ _ _ S1 E) as (done & rest & -> & S' & Hok & G & FF). exists (c :: done), rest. cbn [concat app]. rewrite app_assoc.
      split; [reflexivity|]. split; [exact S'|]. split; [exact Hok|]. split.
      * apply grow_trans with w1; [exists [s]; split; auto; constructor; auto; exists [c], (done ++ rest); cbn; rewrite app_nil_r; auto|].
        revert G. apply grow_mono. intros t (d & r & Q & St). exists (c :: d), r. cbn. rewrite Q, app_assoc. auto.
      * intros Fw. rewrite Fw in F. cbn in F. auto.
    + inversion E; subst. exists [], (c :: chunks). cbn [concat app]. rewrite app_nil_r, N. split; [reflexivity|]. split; [exact S|]. split; [split; discriminate|].
      split; [now apply grow_refl|]. intros Fw. specialize (O Fw). unfold append in O. rewrite S, put_same in O. discriminate.
Qed.
Lemma concat_prefix (a b : list bytes) : concat a = firstn (length (concat a)) (concat (a ++ b)).
Proof. rewrite concat_app. now rewrite firstn_pre. Qed.

Section Bundle.
Context {M V : Type}.
Variables (z : zstd) (buf : buffering) (cd : codec (manifest M V)) (cut : bytes -> list bytes) (flushed : bytes -> nat).
Hypotheses (ZOK : zstd_ok z) (BOK : buffering_ok buf) (COK : codec_ok cd) (KOK : cut_ok cut).

Definition part (base : fs) (p : path) (content : bytes) (s : fs) : Prop := exists n, same s (put base p (Some (File (firstn n content)))).
(** writing a file that reports its errors *)
Definition put_file (w : world) (p : path) (content : bytes) : world * bool :=
  let (w, ok) := call w (fun s => creat s p) in if ok then append_all w p (cut content) else (w, false).
Lemma creat_spec base p w w' ok : same (now w) base -> base p <> Some Dir -> parent_ok base p = true -> call w (fun s => creat s p) = (w', ok) ->
  (ok = true -> same (now w') (put base p (Some (File [])))) /\ (ok = false -> same (now w') base) /\
  grow (fun s => same s (put base p (Some (File [])))) w w' /\ (faults w = [] -> ok = true /\ faults w' = []).
Proof.
  intros S D P E. apply call_cases in E as (F & [(-> & s & Op & N & H)|(-> & N & H & O)]).
  - assert (Es : same s (put base p (Some (File [])))).
    { unfold creat in Op. destruct (now w p) as [[]|]; try discriminate; destruct (parent_ok (now w) p); try discriminate; injection Op as <-; now apply same_put. }
    split; [intros _; now rewrite N|]. split; [discriminate|]. split; [exists [s]; auto|]. intros Fw. rewrite Fw in F. auto.
  - split; [discriminate|]. split; [intros _; now rewrite N|]. split; [now apply grow_refl|]. intros Fw. specialize (O Fw). exfalso.
    unfold creat in O. rewrite S in O. assert (Q : parent_ok (now w) p = true) by (destruct p; auto; cbn [parent_ok] in *; unfold is_dir in *; now rewrite S).
    rewrite Q in O. destruct (base p) as [[]|]; try discriminate. tauto.
Qed.
Lemma append_part base p pre content w w' ok : same (now w) (put base p (Some (File pre))) -> append_all w p (cut content) = (w', ok) ->
  grow (fun s => exists n, same s (put base p (Some (File (pre ++ firstn n content))))) w w' /\
  (ok = true -> same (now w') (put base p (Some (File (pre ++ content))))) /\
  (ok = false -> exists n, n < length content /\ same (now w') (put base p (Some (File (pre ++ firstn n content))))) /\
  (faults w = [] -> ok = true /\ faults w' = []).
Proof.
  intros S E. destruct (KOK content) as (K1 & K2). destruct (append_all_spec p base _ _ _ _ _ S E) as (done & rest & Q & S' & Hok & G & F).
  split; [|split; [|split]]; auto.
  - revert G. apply grow_mono. intros s (d & r & Q' & St). exists (length (concat d)). now rewrite <- K1, Q', <- concat_prefix.
  - intros Ok. apply Hok in Ok. subst rest. rewrite app_nil_r in Q. subst done. now rewrite K1 in S'.
  - intros Ko. exists (length (concat done)). rewrite <- K1, Q, <- concat_prefix. split; auto. rewrite concat_app, app_length.
    destruct rest as [|c rest]; [destruct Hok as (_ & Hok); specialize (Hok eq_refl); congruence|].
    rewrite Q in K2. apply Forall_app in K2 as (_ & K2). inversion K2; subst. cbn [concat]. rewrite app_length. destruct c; [tauto|]. cbn. lia.
Qed.
Lemma put_file_spec base p content w w' ok : same (now w) base -> base p <> Some Dir -> parent_ok base p = true -> put_file w p content = (w', ok) ->
  grow (part base p content) w w' /\ (ok = true -> same (now w') (put base p (Some (File content)))) /\
  (ok = false -> same (now w') base \/ exists n, n < length content /\ same (now w') (put base p (Some (File (firstn n content))))) /\
  (faults w = [] -> ok = true /\ faults w' = []).
Proof.
  intros S D P E. unfold put_file in E. destruct (call w (fun s => creat s p)) as (w1, b) eqn:Ec.
  destruct (creat_spec _ _ _ _ _ S D P Ec) as (A & B & G & F). destruct b.
  - specialize (A eq_refl). destruct (append_part _ _ _ _ _ _ _ A E) as (G1 & A1 & B1 & F1). cbn [app] in *. split; [|split; [|split]]; auto.
    + apply grow_trans with w1; [|exact G1]. revert G. apply grow_mono. intros s H. exists 0. exact H.
    + intros Fw. apply F1. now apply F.
  - inversion E; subst. split; [|split; [|split]]; auto; try discriminate. revert G. apply grow_mono. intros s H. exists 0. exact H.
Qed.
Lemma write_blob_plain w p data : write_blob z cut flushed w p data false = put_file w p data.
Proof. unfold write_blob, put_file. now destruct (call w (fun s => creat s p)) as (w1, []). Qed.
Definition content_of (data : bytes) (c : bool) : bytes := if c then zenc z data else data.
Lemma write_blob_spec base p data c w w' ok : same (now w) base -> base p <> Some Dir -> parent_ok base p = true -> write_blob z cut flushed w p data c = (w', ok) ->
  grow (part base p (content_of data c)) w w' /\
  (ok = true -> exists n, same (now w') (put base p (Some (File (firstn n (content_of data c)))))) /\
  (ok = true -> c = false \/ faults w = [] -> same (now w') (put base p (Some (File (content_of data c))))) /\
  (ok = false -> same (now w') base \/ exists n, same (now w') (put base p (Some (File (firstn n (content_of data c)))))) /\
  (faults w = [] -> ok = true /\ faults w' = []).
Proof.
  intros S D P E. destruct c.
  - cbn [content_of]. unfold write_blob in E. destruct (call w (fun s => creat s p)) as (w1, b) eqn:Ec.
    destruct (creat_spec _ _ _ _ _ S D P Ec) as (A & B & G & F). destruct b; cbn [negb] in E.
    2:{ inversion E; subst. split; [|split; [|split; [|split]]]; auto; try discriminate. revert G. apply grow_mono. intros s H. exists 0. exact H. }
    specialize (A eq_refl). set (content := zenc z data) in *. set (n := flushed content) in *.
    destruct (append_all w1 p (cut (firstn n content))) as (w2, b2) eqn:E2.
    destruct (append_part _ _ _ _ _ _ _ A E2) as (G1 & A1 & B1 & F1). cbn [app] in *.
    assert (GG : grow (part base p content) w w2).
    { apply grow_trans with w1; [revert G; apply grow_mono; intros s H; exists 0; exact H|]. revert G1. apply grow_mono.
      intros s (k & H). exists (Nat.min k n). now rewrite <- firstn_firstn. }
    destruct b2; cbn [negb] in E.
    + specialize (A1 eq_refl). destruct (append_all w2 p (cut (skipn n content))) as (w3, b3) eqn:E3. cbn [fst] in E. inversion E; subst.
      destruct (append_part _ _ _ _ _ _ _ A1 E3) as (G2 & A2 & B2 & F2).
      assert (Pre : forall k, exists j, firstn n content ++ firstn k (skipn n content) = firstn j content).
      { intros k. exists (Nat.min n (length content) + k). rewrite <- (firstn_skipn n content) at 4.
        assert (L : length (firstn n content) = Nat.min n (length content)) by apply firstn_length.
        rewrite firstn_app, L. rewrite (firstn_all2 (firstn n content)) by lia. f_equal. f_equal. lia. }
      split; [|split; [|split; [|split]]].
      * apply grow_trans with w2; auto. revert G2. apply grow_mono. intros s (k & H). destruct (Pre k) as (j & Q). exists j. now rewrite <- Q.
      * intros _. destruct b3.
        -- specialize (A2 eq_refl). rewrite firstn_skipn in A2. exists (length content). now rewrite firstn_all.
        -- destruct (B2 eq_refl) as (k & _ & H). destruct (Pre k) as (j & Q). exists j. now rewrite <- Q.
      * intros _ [C|Fw]; [discriminate|]. destruct (F Fw) as (_ & F'). destruct (F1 F') as (_ & F''). destruct (F2 F'') as (-> & _).
        specialize (A2 eq_refl). now rewrite firstn_skipn in A2.
      * discriminate.
      * intros Fw. destruct (F Fw) as (_ & F'). destruct (F1 F') as (_ & F''). destruct (F2 F'') as (_ & F3). auto.
    + inversion E; subst. split; [exact GG|]. split; [discriminate|]. split; [discriminate|]. split.
      * intros _. right. destruct (B1 eq_refl) as (k & _ & H). exists (Nat.min k n). now rewrite <- firstn_firstn.
      * intros Fw. destruct (F Fw) as (_ & F'). destruct (F1 F'). discriminate.
  - rewrite write_blob_plain in E. cbn [content_of]. destruct (put_file_spec _ _ _ _ _ _ S D P E) as (G & A & B & F).
    split; [exact G|]. split; [intros Ok; exists (length data); rewrite firstn_all; auto|]. split; [auto|]. split; [|exact F].
    intros Ko. destruct (B Ko) as [|(n & _ & H)]; eauto.
Qed.

(** ** Clean-up *)
Lemma drop_keeps : forall paths w,
  grow (fun s => forall q, ~ In q paths -> s q = now w q) w (drop_guard w paths) /\ forall q, ~ In q paths -> now (drop_guard w paths) q = now w q.
Proof.
  induction paths as [|p paths IH]; intros w; cbn [drop_guard]; [split; [now apply grow_refl|auto]|].
  destruct (call w _) as (w1, b) eqn:Ec. cbn [fst].
  assert (K : (forall q, q <> p -> now w1 q = now w q) /\ grow (fun s => forall q, q <> p -> s q = now w q) w w1).
  { apply call_cases in Ec as (F & [(-> & s & Op & N' & H)|(-> & N' & H & O)]).
    - assert (Q : forall q, q <> p -> s q = now w q).
      { intros q Nq. destruct (is_dir (now w) p); unfold rmdir, unlink in Op.
        - destruct (now w p) as [[]|]; try discriminate. destruct (existsb _ NAMES); [discriminate|]. injection Op as <-. now apply put_other.
        - destruct (now w p) as [[]|]; try discriminate. injection Op as <-. now apply put_other. }
      rewrite N'. split; auto. exists [s]. auto.
    - rewrite N'. split; auto. now apply grow_refl. }
  destruct K as (K1 & K2). destruct (IH w1) as (G & E).
  assert (Sub : forall q, ~ In q (p :: paths) -> q <> p /\ ~ In q paths) by (intros q N; split; [intros ->|intros I]; apply N; [now left|now right]).
  split.
  - apply grow_trans with w1.
    + revert K2. apply grow_mono. intros s H q N. apply H. now apply Sub.
    + revert G. apply grow_mono. intros s H q N. destruct (Sub q N). rewrite H by auto. now apply K1.
  - intros q N. destruct (Sub q N). rewrite E by auto. now apply K1.
Qed.

Variables (dir : path) (circuit solver : bytes) (vk : option bytes) (m : manifest M V) (c : bool) (s0 : fs).
Hypotheses (Tree : tree s0) (Fresh : s0 dir = None).
Local Notation read := (read_bundle z buf cd).
Local Notation done := (complete z cd dir circuit solver vk m c).

Lemma fresh_child n : s0 (n :: dir) = None.
Proof. destruct (s0 (n :: dir)) eqn:E; auto. assert (X : s0 dir = Some Dir) by (apply (Tree n); congruence). congruence. Qed.
Definition okay (s : fs) : Prop := untouched s0 dir s /\ (read s dir = None \/ done s).
Lemma no_manifest s : s (MANIFEST :: dir) = None -> read s dir = None.
Proof. intros H. unfold read_bundle, read_manifest. now rewrite H. Qed.
Lemma torn_manifest data n s : payload_ok z cd m false -> serialize_to_bytes z cd m false = Some data -> n < length data ->
  s (MANIFEST :: dir) = Some (File (firstn n data)) -> read s dir = None.
Proof.
  intros HP E Hn H. unfold read_bundle, read_manifest. rewrite H. now rewrite (file_truncated z buf cd COK m data n HP E Hn).
Qed.
(** A directory with some of its files *)
Definition lay (fc fw fv fm : option node) : fs :=
  put (put (put (put (put s0 dir (Some Dir)) (CIRCUIT :: dir) fc) (WITNESS_SOLVER :: dir) fw) (VK :: dir) fv) (MANIFEST :: dir) fm.
Lemma lay_dir fc fw fv fm : lay fc fw fv fm dir = Some Dir.
Proof. unfold lay. rewrite !put_other by (intros E; symmetry in E; now apply cons_neq in E). apply put_same. Qed.
Ltac peel := repeat (rewrite put_other by (intros E; first [discriminate E | injection E; discriminate | now apply cons_neq in E | symmetry in E; now apply cons_neq in E])); rewrite ?put_same.
Lemma lay_c fc fw fv fm : lay fc fw fv fm (CIRCUIT :: dir) = fc.
Proof. unfold lay. peel. reflexivity. Qed.
Lemma lay_w fc fw fv fm : lay fc fw fv fm (WITNESS_SOLVER :: dir) = fw.
Proof. unfold lay. peel. reflexivity. Qed.
Lemma lay_v fc fw fv fm : lay fc fw fv fm (VK :: dir) = fv.
Proof. unfold lay. peel. reflexivity. Qed.
Lemma lay_m fc fw fv fm : lay fc fw fv fm (MANIFEST :: dir) = fm.
Proof. unfold lay. peel. reflexivity. Qed.
Lemma lay_untouched fc fw fv fm s : same s (lay fc fw fv fm) -> untouched s0 dir s.
Proof. intros S q N1 N2. rewrite S. unfold lay. now rewrite !put_other by auto. Qed.
Lemma lay_empty : same (put s0 dir (Some Dir)) (lay None None None None).
Proof.
  intros q. unfold lay, put. destruct (path_dec q dir) as [-> |N].
  - rewrite path_eqb_refl. rewrite !path_eqb_neq; auto; intros E; symmetry in E; now apply cons_neq in E.
  - rewrite (path_eqb_neq q dir) by auto.
    repeat match goal with |- context [path_eqb q (?n :: dir)] => destruct (path_dec q (n :: dir)) as [-> |]; [rewrite path_eqb_refl|rewrite (path_eqb_neq q (n :: dir)) by auto] end;
    rewrite ?path_eqb_neq by discriminate; try (now rewrite fresh_child). all: try reflexivity.
    all: try (rewrite ?path_eqb_neq by (intros E; discriminate E || (injection E; discriminate)); now rewrite fresh_child).
Qed.

Lemma lay_set_c x fw fv fm : same (put (lay None fw fv fm) (CIRCUIT :: dir) x) (lay x fw fv fm).
Proof.
  intros q. destruct (path_dec q (CIRCUIT :: dir)) as [-> |N]; [now rewrite put_same, lay_c|]. rewrite put_other by auto.
  unfold lay, put. now rewrite (path_eqb_neq q (CIRCUIT :: dir)) by auto.
Qed.
Lemma lay_set_w fc x fv fm : same (put (lay fc None fv fm) (WITNESS_SOLVER :: dir) x) (lay fc x fv fm).
Proof.
  intros q. destruct (path_dec q (WITNESS_SOLVER :: dir)) as [-> |N]; [now rewrite put_same, lay_w|]. rewrite put_other by auto.
  unfold lay, put. now rewrite (path_eqb_neq q (WITNESS_SOLVER :: dir)) by auto.
Qed.
Lemma lay_set_v fc fw x fm : same (put (lay fc fw None fm) (VK :: dir) x) (lay fc fw x fm).
Proof.
  intros q. destruct (path_dec q (VK :: dir)) as [-> |N]; [now rewrite put_same, lay_v|]. rewrite put_other by auto.
  unfold lay, put. now rewrite (path_eqb_neq q (VK :: dir)) by auto.
Qed.
Lemma lay_set_m fc fw fv x : same (put (lay fc fw fv None) (MANIFEST :: dir) x) (lay fc fw fv x).
Proof.
  intros q. destruct (path_dec q (MANIFEST :: dir)) as [-> |N]; [now rewrite put_same, lay_m|]. rewrite put_other by auto.
  unfold lay, put. now rewrite (path_eqb_neq q (MANIFEST :: dir)) by auto.
Qed.
Lemma lay_parent fc fw fv fm n : parent_ok (lay fc fw fv fm) (n :: dir) = true.
Proof. cbn [parent_ok]. unfold is_dir. now rewrite lay_dir. Qed.

Hypothesis HP : payload_ok z cd m false.
(** The manifest is missing or torn *)
Definition dead (s : fs) : Prop := untouched s0 dir s /\
  (s (MANIFEST :: dir) = None \/ exists data n, serialize_to_bytes z cd m false = Some data /\ n < length data /\ s (MANIFEST :: dir) = Some (File (firstn n data))).
Lemma dead_read s : dead s -> read s dir = None.
Proof. intros (_ & [H|(data & n & E & L & H)]); [now apply no_manifest|now apply (torn_manifest data n)]. Qed.
Lemma dead_okay s : dead s -> okay s.
Proof. intros H. split; [apply H|left; now apply dead_read]. Qed.
Lemma dead_lay fc fw fv s : same s (lay fc fw fv None) -> dead s.
Proof. intros H. split; [now apply lay_untouched in H|]. left. now rewrite H, lay_m. Qed.
Lemma drop_dead w paths : dead (now w) -> Forall okay (history w) -> (forall p, In p paths -> p = dir \/ exists n, n <> MANIFEST /\ p = n :: dir) ->
  Forall okay (history (drop_guard w paths)) /\ dead (now (drop_guard w paths)).
Proof.
  intros (U & D) H P. destruct (drop_keeps paths w) as ((h & Eh & G) & E).
  assert (Keep : forall s : fs, (forall q, ~ In q paths -> s q = now w q) -> dead s).
  { intros s K. assert (Km : s (MANIFEST :: dir) = now w (MANIFEST :: dir)).
    { apply K. intros I. destruct (P _ I) as [Q|(n & N & Q)]; [now apply cons_neq in Q|]. apply N. congruence. }
    split; [|now rewrite Km]. intros q N1 N2. rewrite K; [now apply U|]. intros I. destruct (P _ I) as [Q|(n & _ & Q)]; [tauto|now apply N2 in Q]. }
  split; [|now apply Keep]. rewrite Eh. apply Forall_app. split; auto. eapply Forall_impl; [|exact G]. intros s K. now apply dead_okay, Keep.
Qed.
Lemma stage n data base w w' ok : n <> MANIFEST -> same (now w) base -> base (n :: dir) = None -> base dir = Some Dir -> base (MANIFEST :: dir) = None -> untouched s0 dir base ->
  Forall okay (history w) -> c = false \/ faults w = [] -> write_blob z cut flushed w (n :: dir) data c = (w', ok) ->
  Forall okay (history w') /\ (c = false \/ faults w' = []) /\ (ok = true -> same (now w') (put base (n :: dir) (Some (File (content_of data c))))) /\ (ok = false -> dead (now w')).
Proof.
  intros N S B D Bm U H Mode E.
  destruct (write_blob_spec base (n :: dir) data c w w' ok S) as ((h & Eh & G) & _ & A & Ko & F); auto.
  - congruence.
  - cbn [parent_ok]. unfold is_dir. now rewrite D.
  - assert (Q : forall s x, same s (put base (n :: dir) x) -> dead s).
    { intros s x Q. split.
      - intros q N1 N2. rewrite Q, put_other by auto. now apply U.
      - left. rewrite Q, put_other; auto. intros X. apply N. congruence. }
    split; [|split; [|split]].
    + rewrite Eh. apply Forall_app. split; auto. eapply Forall_impl; [|exact G]. intros s (k & Sk). apply dead_okay. eapply Q; eauto.
    + destruct Mode; auto. right. now apply F.
    + auto.
    + intros Ok. destruct (Ko Ok) as [Sb|(k & Sk)]; [|eapply Q; eauto].
      split; [intros q N1 N2; rewrite Sb; now apply U|]. left. now rewrite Sb.
Qed.
Lemma untouched_lay fc fw fv fm : untouched s0 dir (lay fc fw fv fm).
Proof. apply (lay_untouched fc fw fv fm). intros q. reflexivity. Qed.
Lemma same_refl s : same s s.
Proof. intros q. reflexivity. Qed.

Theorem write_spec f w ok : c = false \/ f = [] ->
  write_bundle_with_vk z cd cut flushed (start s0 f) dir circuit solver vk m c = (w, ok) ->
  Forall okay (history w) /\ (ok = true -> untouched s0 dir (now w) /\ done (now w)) /\ (ok = false -> untouched s0 dir (now w) /\ read (now w) dir = None).
Proof.
  intros Mode E. unfold write_bundle_with_vk in E.
  assert (Fail : forall w1 paths, dead (now w1) -> Forall okay (history w1) -> (forall p, In p paths -> p = dir \/ exists n, n <> MANIFEST /\ p = n :: dir) ->
    (drop_guard w1 paths, false) = (w, ok) -> Forall okay (history w) /\ (ok = true -> untouched s0 dir (now w) /\ done (now w)) /\ (ok = false -> untouched s0 dir (now w) /\ read (now w) dir = None)).
  { intros w1 paths D H P Q. destruct (drop_dead w1 paths D H P) as (H1 & D1). inversion Q; subst. split; auto. split; [discriminate|]. intros _. split; [apply D1|now apply dead_read]. }
  destruct (call (start s0 f) (fun s => mkdir s dir)) as (w1, b1) eqn:E1.
  apply call_cases in E1 as (F1 & [(-> & s & Op & N1 & H1)|(-> & N1 & H1 & _)]); cbn [negb] in E.
  2:{ apply (Fail w1 []); auto.
      - rewrite N1. cbn. split; [intros q _ _; reflexivity|]. left. apply fresh_child.
      - rewrite H1. constructor.
      - intros p []. }
  assert (S1 : same (now w1) (lay None None None None)).
  { rewrite N1. unfold mkdir in Op. cbn [start now] in Op. rewrite Fresh in Op. destruct (parent_ok s0 dir); [|discriminate]. injection Op as <-. apply lay_empty. }
  assert (O1 : Forall okay (history w1)).
  { rewrite H1. cbn. constructor; auto. apply dead_okay. rewrite <- N1. eapply dead_lay; eauto. }
  assert (M1 : c = false \/ faults w1 = []) by (rewrite F1; cbn; destruct Mode as [ | -> ]; auto).
  destruct (write_blob z cut flushed w1 (CIRCUIT :: dir) circuit c) as (w2, b2) eqn:E2.
  destruct (stage CIRCUIT circuit _ w1 w2 b2 ltac:(discriminate) S1 (lay_c _ _ _ _) (lay_dir _ _ _ _) (lay_m _ _ _ _) (untouched_lay _ _ _ _) O1 M1 E2) as (O2 & M2 & S2 & D2).
  destruct b2; cbn [negb] in E; [|apply (Fail w2 [dir]); auto; intros p [ <- |[]]; auto].
  specialize (S2 eq_refl). pose proof (same_trans _ _ _ S2 (lay_set_c _ _ _ _)) as S2'.
  destruct (write_blob z cut flushed w2 (WITNESS_SOLVER :: dir) solver c) as (w3, b3) eqn:E3.
  destruct (stage WITNESS_SOLVER solver _ w2 w3 b3 ltac:(discriminate) S2' (lay_w _ _ _ _) (lay_dir _ _ _ _) (lay_m _ _ _ _) (untouched_lay _ _ _ _) O2 M2 E3) as (O3 & M3 & S3 & D3).
  destruct b3; cbn [negb] in E; [|apply (Fail w3 [CIRCUIT :: dir; dir]); auto; intros p [ <- |[ <- |[]]]; auto; right; exists CIRCUIT; split; [discriminate|auto]].
  specialize (S3 eq_refl). pose proof (same_trans _ _ _ S3 (lay_set_w _ _ _ _)) as S3'.
  set (fv := match vk with Some v => Some (File (content_of v c)) | None => None end).
  assert (K : exists w4 b4, (match vk with Some v => write_blob z cut flushed w3 (VK :: dir) v c | None => (w3, true) end) = (w4, b4) /\
    Forall okay (history w4) /\ (c = false \/ faults w4 = []) /\
    (b4 = true -> same (now w4) (lay (Some (File (content_of circuit c))) (Some (File (content_of solver c))) fv None)) /\ (b4 = false -> dead (now w4))).
  { unfold fv. destruct vk as [v|].
    - destruct (write_blob z cut flushed w3 (VK :: dir) v c) as (w4, b4) eqn:E4. exists w4, b4. split; auto.
      destruct (stage VK v _ w3 w4 b4 ltac:(discriminate) S3' (lay_v _ _ _ _) (lay_dir _ _ _ _) (lay_m _ _ _ _) (untouched_lay _ _ _ _) O3 M3 E4) as (O4 & M4 & S4 & D4).
      split; [auto|]. split; [auto|]. split; [|auto]. intros Q. specialize (S4 Q). exact (same_trans _ _ _ S4 (lay_set_v _ _ _ _)).
    - exists w3, true. split; [auto|]. split; [auto|]. split; [auto|]. split; [auto|discriminate]. }
  destruct K as (w4 & b4 & E4 & O4 & M4 & S4 & D4). rewrite E4 in E.
  destruct b4; cbn [negb] in E; [|apply (Fail w4 [WITNESS_SOLVER :: dir; CIRCUIT :: dir; dir]); auto;
    intros p [ <- |[ <- |[ <- |[]]]]; auto; right; [exists WITNESS_SOLVER|exists CIRCUIT]; split; auto; discriminate].
  specialize (S4 eq_refl).
  set (guard := (match vk with Some _ => [VK :: dir] | None => [] end) ++ [WITNESS_SOLVER :: dir; CIRCUIT :: dir; dir]) in *.
  assert (Gd : forall p, In p guard -> p = dir \/ exists n, n <> MANIFEST /\ p = n :: dir).
  { intros p I. unfold guard in I. apply in_app_iff in I as [I|[ <- |[ <- |[ <- |[]]]]]; auto.
    - destruct vk; [|destruct I]. destruct I as [ <- |[]]. right. exists VK. split; auto; discriminate.
    - right. exists WITNESS_SOLVER. split; auto; discriminate.
    - right. exists CIRCUIT. split; auto; discriminate. }
  destruct (serialize_to_file z cd cut w4 (MANIFEST :: dir) m false) as (w5, b5) eqn:E5. unfold serialize_to_file in E5.
  destruct (serialize_to_bytes z cd m false) as [data|] eqn:Es.
  2:{ inversion E5; subst. cbn [negb] in E. apply (Fail w5 guard); auto. now apply dead_lay in S4. }
  destruct (put_file_spec _ (MANIFEST :: dir) data w4 w5 b5 S4) as ((h & Eh & G) & A & Ko & _); [rewrite lay_m; discriminate|apply lay_parent|exact E5|].
  assert (Full : forall s, same s (lay (Some (File (content_of circuit c))) (Some (File (content_of solver c))) fv (Some (File data))) -> done s).
  { intros t Q. unfold complete. rewrite (Q dir), (Q (CIRCUIT :: dir)), (Q (WITNESS_SOLVER :: dir)), (Q (VK :: dir)), (Q (MANIFEST :: dir)), lay_dir, lay_c, lay_w, lay_v, lay_m.
    split; [auto|]. split; [reflexivity|]. split; [reflexivity|]. split; [unfold fv, blob_file; destruct vk; reflexivity|]. exists data. auto. }
  assert (Part : forall n s, same s (put (lay (Some (File (content_of circuit c))) (Some (File (content_of solver c))) fv None) (MANIFEST :: dir) (Some (File (firstn n data)))) ->
    n < length data -> dead s).
  { intros n t Q L. pose proof (same_trans _ _ _ Q (lay_set_m _ _ _ _)) as Q'. split; [now apply lay_untouched in Q'|]. right. exists data, n. rewrite Q', lay_m. auto. }
  assert (O5 : Forall okay (history w5)).
  { rewrite Eh. apply Forall_app. split; auto. eapply Forall_impl; [|exact G]. intros t (n & Q).
    destruct (Nat.lt_ge_cases n (length data)) as [L|L]; [now apply dead_okay, (Part n)|].
    rewrite firstn_all2 in Q by auto. pose proof (same_trans _ _ _ Q (lay_set_m _ _ _ _)) as Q'. split; [now apply lay_untouched in Q'|]. right. now apply Full. }
  destruct b5; cbn [negb] in E.
  - inversion E; subst. split; auto. split; [|discriminate]. intros _. pose proof (same_trans _ _ _ (A eq_refl) (lay_set_m _ _ _ _)) as Q'.
    split; [now apply lay_untouched in Q'|now apply Full].
  - apply (Fail w5 guard); auto. destruct (Ko eq_refl) as [Q|(n & L & Q)]; [now apply dead_lay in Q|now apply (Part n)].
Qed.

(** ** Reading a complete bundle *)
Lemma blob_read s p data : s p = blob_file z data c -> stored_ok data c -> read_blob z s p = Ok _ data.
Proof.
  intros E O. unfold read_blob. rewrite E. unfold blob_file. unfold auto_decompress_bytes. destruct c.
  - destruct (ZOK data) as (Z1 & Z2). rewrite Z2. replace (4 <=? length (zenc z data)) with true.
    + cbn. unfold decompress_bytes. now rewrite Z1.
    + symmetry. apply Nat.leb_le. pose proof (f_equal (@length Z) Z2) as L. rewrite firstn_length in L. change (length ZSTD_MAGIC) with 4 in L. lia.
  - destruct O as [O|O]; [discriminate|]. replace (bytes_eqb (firstn 4 data) ZSTD_MAGIC) with false.
    + now rewrite andb_false_r.
    + symmetry. apply not_true_iff_false. intros Q. now apply bytes_eqb_spec in Q.
Qed.
Lemma read_complete s : stored_ok circuit c -> stored_ok solver c -> (forall v, vk = Some v -> stored_ok v c) -> done s ->
  read s dir = Some {| b_circuit := circuit; b_solver := solver; b_vk := vk; b_metadata := metadata m; b_version := version m |} /\
  read_circuit_blob z s dir = Some circuit /\ read_vk_only z s dir = vk /\ bundle_has_vk s dir = match vk with Some _ => true | None => false end /\
  read_bundle_metadata z buf cd s dir = Some (metadata m, version m).
Proof.
  intros O1 O2 O3 (Hd & Hc & Hw & Hv & data & Es & Hm). unfold read_bundle, read_bundle_metadata, read_circuit_blob, read_vk_only, bundle_has_vk, read_manifest. rewrite Hm.
  rewrite <- (app_nil_r data). rewrite (file_round_trip z buf cd BOK COK m data [] HP Es). cbn [obind].
  rewrite (blob_read s _ circuit Hc O1), (blob_read s _ solver Hw O2). destruct vk as [v|].
  - rewrite (blob_read s _ v Hv (O3 v eq_refl)). rewrite Hv. auto.
  - unfold read_blob. rewrite Hv. auto.
Qed.
(** ** No error, no fault: the write succeeds *)
Definition vk_file : option node := match vk with Some v => Some (File (content_of v c)) | None => None end.
Definition guard_paths : list path := (match vk with Some _ => [VK :: dir] | None => [] end) ++ [WITNESS_SOLVER :: dir; CIRCUIT :: dir; dir].
Lemma blobs_written : parent_ok s0 dir = true -> exists w4, faults w4 = [] /\
  same (now w4) (lay (Some (File (content_of circuit c))) (Some (File (content_of solver c))) vk_file None) /\
  write_bundle_with_vk z cd cut flushed (start s0 []) dir circuit solver vk m c =
  let (w, ok) := serialize_to_file z cd cut w4 (MANIFEST :: dir) m false in if negb ok then (drop_guard w guard_paths, false) else (w, true).
Proof.
  intros P. unfold write_bundle_with_vk.
  destruct (call (start s0 []) (fun s => mkdir s dir)) as (w1, b1) eqn:E1.
  apply call_cases in E1 as (F1 & [(-> & s & Op & N1 & H1)|(-> & N1 & H1 & O)]); cbn [negb].
  2:{ specialize (O eq_refl). unfold mkdir in O. cbn [start now] in O. rewrite Fresh, P in O. discriminate. }
  assert (S1 : same (now w1) (lay None None None None)).
  { rewrite N1. unfold mkdir in Op. cbn [start now] in Op. rewrite Fresh, P in Op. injection Op as <-. apply lay_empty. }
  cbn in F1.
  destruct (write_blob z cut flushed w1 (CIRCUIT :: dir) circuit c) as (w2, b2) eqn:E2.
  destruct (write_blob_spec _ (CIRCUIT :: dir) circuit c w1 w2 b2 S1) as (_ & _ & A2 & _ & F2); [rewrite lay_c; discriminate|apply lay_parent|exact E2|].
  destruct (F2 F1) as (-> & F2'). specialize (A2 eq_refl (or_intror F1)). pose proof (same_trans _ _ _ A2 (lay_set_c _ _ _ _)) as S2. cbn [negb].
  destruct (write_blob z cut flushed w2 (WITNESS_SOLVER :: dir) solver c) as (w3, b3) eqn:E3.
  destruct (write_blob_spec _ (WITNESS_SOLVER :: dir) solver c w2 w3 b3 S2) as (_ & _ & A3 & _ & F3); [rewrite lay_w; discriminate|apply lay_parent|exact E3|].
  destruct (F3 F2') as (-> & F3'). specialize (A3 eq_refl (or_intror F2')). pose proof (same_trans _ _ _ A3 (lay_set_w _ _ _ _)) as S3. cbn [negb].
  assert (K : exists w4, (match vk with Some v => write_blob z cut flushed w3 (VK :: dir) v c | None => (w3, true) end) = (w4, true) /\ faults w4 = [] /\
    same (now w4) (lay (Some (File (content_of circuit c))) (Some (File (content_of solver c))) vk_file None)).
  { unfold vk_file. destruct vk as [v|].
    - destruct (write_blob z cut flushed w3 (VK :: dir) v c) as (w4, b4) eqn:E4.
      destruct (write_blob_spec _ (VK :: dir) v c w3 w4 b4 S3) as (_ & _ & A4 & _ & F4); [rewrite lay_v; discriminate|apply lay_parent|exact E4|].
      destruct (F4 F3') as (-> & F4'). exists w4. split; auto. split; auto.
      exact (same_trans _ _ _ (A4 eq_refl (or_intror F3')) (lay_set_v _ _ _ _)).
    - exists w3. auto. }
  destruct K as (w4 & -> & F4 & S4). exists w4. split; auto.
Qed.
Lemma write_total : parent_ok s0 dir = true -> encode cd m <> None ->
  exists w, write_bundle_with_vk z cd cut flushed (start s0 []) dir circuit solver vk m c = (w, true).
Proof.
  intros P En. destruct (blobs_written P) as (w4 & F4 & S4 & ->).
  unfold serialize_to_file. unfold serialize_to_bytes. destruct (encode cd m) as [b|]; [|tauto]. cbn [obind].
  match goal with |- context [append_all _ _ (cut ?x)] => set (data := x) end.
  destruct (put_file w4 (MANIFEST :: dir) data) as (w5, b5) eqn:E5.
  destruct (put_file_spec _ (MANIFEST :: dir) data w4 w5 b5 S4) as (_ & _ & _ & F5); [rewrite lay_m; discriminate|apply lay_parent|exact E5|].
  destruct (F5 F4) as (-> & _). unfold put_file in E5. rewrite E5. cbn [negb]. eauto.
Qed.
(** ** A manifest that cannot be encoded: everything is removed *)
Lemma remove_file w p base x r : faults w = [] -> same (now w) base -> base p = Some (File x) ->
  exists w', drop_guard w (p :: r) = drop_guard w' r /\ faults w' = [] /\ same (now w') (put base p None).
Proof.
  intros F S B. cbn [drop_guard]. destruct (call w _) as (w1, b) eqn:Ec. exists w1. split; auto.
  apply call_cases in Ec as (F' & [(-> & s & Op & N' & H)|(-> & N' & H & O)]); rewrite F in F'; (split; [exact F'|]).
  - unfold is_dir, unlink in Op. rewrite S, B in Op. injection Op as <-. rewrite N'. now apply same_put.
  - specialize (O F). unfold is_dir, unlink in O. rewrite S, B in O. discriminate.
Qed.
Lemma unput_w fc fw fv : same (put (lay fc fw fv None) (WITNESS_SOLVER :: dir) None) (lay fc None fv None).
Proof. intros q. destruct (path_dec q (WITNESS_SOLVER :: dir)) as [-> |N]; [now rewrite put_same, lay_w|]. rewrite put_other by auto. unfold lay, put. now rewrite (path_eqb_neq q (WITNESS_SOLVER :: dir)) by auto. Qed.
Lemma unput_c fc fw fv : same (put (lay fc fw fv None) (CIRCUIT :: dir) None) (lay None fw fv None).
Proof. intros q. destruct (path_dec q (CIRCUIT :: dir)) as [-> |N]; [now rewrite put_same, lay_c|]. rewrite put_other by auto. unfold lay, put. now rewrite (path_eqb_neq q (CIRCUIT :: dir)) by auto. Qed.
Lemma unput_v fc fw fv : same (put (lay fc fw fv None) (VK :: dir) None) (lay fc fw None None).
Proof. intros q. destruct (path_dec q (VK :: dir)) as [-> |N]; [now rewrite put_same, lay_v|]. rewrite put_other by auto. unfold lay, put. now rewrite (path_eqb_neq q (VK :: dir)) by auto. Qed.
Lemma write_undone : parent_ok s0 dir = true -> encode cd m = None ->
  exists w, write_bundle_with_vk z cd cut flushed (start s0 []) dir circuit solver vk m c = (w, false) /\ same (now w) s0.
Proof.
  intros P En. destruct (blobs_written P) as (w4 & F4 & S4 & ->).
  unfold serialize_to_file. unfold serialize_to_bytes. rewrite En. cbn [obind negb]. eexists. split; [reflexivity|].
  assert (K : exists w5, drop_guard w4 guard_paths = drop_guard w5 [WITNESS_SOLVER :: dir; CIRCUIT :: dir; dir] /\ faults w5 = [] /\
    same (now w5) (lay (Some (File (content_of circuit c))) (Some (File (content_of solver c))) None None)).
  { unfold guard_paths, vk_file in *. destruct vk as [v|].
    - cbn [app]. edestruct (remove_file w4 (VK :: dir)) as (w5 & E & F & S); [exact F4|exact S4|apply lay_v|]. rewrite E. exists w5. split; auto. split; auto.
      exact (same_trans _ _ _ S (unput_v _ _ _)).
    - exists w4. auto. }
  destruct K as (w5 & -> & F5 & S5).
  edestruct (remove_file w5 (WITNESS_SOLVER :: dir)) as (w6 & -> & F6 & S6); [exact F5|exact S5|apply lay_w|]. pose proof (same_trans _ _ _ S6 (unput_w _ _ _)) as S6'.
  edestruct (remove_file w6 (CIRCUIT :: dir)) as (w7 & -> & F7 & S7); [exact F6|exact S6'|apply lay_c|]. pose proof (same_trans _ _ _ S7 (unput_c _ _ _)) as S7'.
  cbn [drop_guard]. destruct (call w7 _) as (w8, b) eqn:Ec. cbn [fst].
  assert (Op : (if is_dir (now w7) dir then rmdir NAMES (now w7) dir else unlink (now w7) dir) = Some (put (now w7) dir None)).
  { unfold is_dir. rewrite (S7' dir), lay_dir. unfold rmdir. rewrite (S7' dir), lay_dir.
    cbn [existsb NAMES]. rewrite (S7' (CIRCUIT :: dir)), (S7' (WITNESS_SOLVER :: dir)), (S7' (MANIFEST :: dir)), (S7' (VK :: dir)), lay_c, lay_w, lay_m, lay_v. reflexivity. }
  apply call_cases in Ec as (_ & [(-> & s & O & N' & H)|(-> & N' & H & O)]); [|specialize (O F7); congruence].
  rewrite N'. rewrite Op in O. injection O as <-. intros q. destruct (path_dec q dir) as [-> |N]; [now rewrite put_same|]. rewrite put_other by auto.
  rewrite (S7' q). rewrite <- lay_empty. now apply put_other.
Qed.
End Bundle.

(** An existing directory is not touched *)
Lemma write_existing {M V} z (cd : codec (manifest M V)) cut flushed dir circuit solver vk m c s0 f : s0 dir <> None ->
  exists f', write_bundle_with_vk z cd cut flushed (start s0 f) dir circuit solver vk m c = (start s0 f', false).
Proof.
  intros N. unfold write_bundle_with_vk, call. cbn [start faults now history]. destruct (hd false f).
  - exists (tl f). reflexivity.
  - unfold mkdir. destruct (s0 dir); [|tauto]. exists (tl f). reflexivity.
Qed.
