From Coq Require Import List ZArith Lia Bool Arith.
From Verif Require Import Base.Array Base.Machine Spec.Serdes Spec.Witness Spec.Extract Model.Fields Model.Serdes Model.Witness Model.Extract Proofs.Serdes Proofs.Witness.
Import ListNotations.
Local Open Scope list_scope.
Local Open Scope Z_scope.

(** ** Signed encoding *)
Lemma convert_val_mod p v : 0 < p -> convert_val p v = v mod p.
Proof.
  intros P. unfold convert_val. destruct (Z.ltb_spec v 0) as [N|N].
  - rewrite Z.abs_neq by lia. destruct (Z.eqb_spec ((- v) mod p) 0) as [E|E].
    + symmetry. apply Z.mod_opp_l_z in E; [|lia]. now rewrite Z.opp_involutive in E.
    + rewrite <- (Z.opp_involutive v) at 2. rewrite (Z.mod_opp_l_nz (- v) p); auto; lia.
  - rewrite Z.abs_eq by lia. reflexivity.
Qed.
Lemma scaled_to_field_mod p v : 0 < p -> scaled_to_field v p = v mod p.
Proof.
  intros P. rewrite <- (convert_val_mod p v P). unfold scaled_to_field, convert_val. destruct (Z.ltb_spec v 0); auto. now rewrite Z.abs_eq by lia.
Qed.
Lemma mod_neg p v : 0 < p -> - p < v < 0 -> v mod p = p + v.
Proof. intros P H. symmetry. apply (Z.mod_unique_pos v p (-1)); lia. Qed.
Theorem decode_encode p v : 0 < p -> representable p v -> from_field_repr (convert_val p v) p = Some v.
Proof.
  intros P R. unfold representable in R. rewrite (convert_val_mod p v P). unfold from_field_repr.
  pose proof (Z.div_mod p 2 ltac:(lia)). pose proof (Z.mod_pos_bound p 2 ltac:(lia)).
  pose proof (Z.div_mod (p - 1) 2 ltac:(lia)). pose proof (Z.mod_pos_bound (p - 1) 2 ltac:(lia)).
  destruct (Z.neg_nonneg_cases v) as [N|N].
  - rewrite mod_neg by lia. destruct (Z.ltb_spec (p / 2) (p + v)); [|lia]. destruct (Z.ltb_spec p (p + v)); [lia|]. f_equal. lia.
  - rewrite Z.mod_small by lia. destruct (Z.ltb_spec (p / 2) v); [lia|reflexivity].
Qed.
Theorem encode_decode p x : 0 <= x < p -> exists v, from_field_repr x p = Some v /\ convert_val p v = x /\ - (p - 1) / 2 <= v <= p / 2.
Proof.
  intros H. assert (P : 0 < p) by lia. unfold from_field_repr. pose proof (Z.div_mod p 2 ltac:(lia)). pose proof (Z.mod_pos_bound p 2 ltac:(lia)).
  pose proof (Z.div_mod (- (p - 1)) 2 ltac:(lia)). pose proof (Z.mod_pos_bound (- (p - 1)) 2 ltac:(lia)).
  destruct (Z.ltb_spec (p / 2) x).
  - destruct (Z.ltb_spec p x); [lia|]. eexists. split; [reflexivity|]. rewrite convert_val_mod by lia. split; [rewrite mod_neg; lia|lia].
  - eexists. split; [reflexivity|]. rewrite convert_val_mod by lia. rewrite Z.mod_small by lia. lia.
Qed.

(** ** Comparison *)
Lemma near_iff p tol e a : 0 < p -> 0 <= tol <= p ->
  let diff := if a <=? e then (e - a) mod p else p - (a - e) mod p in
  ((tol <? diff) && (diff <? p - tol) = false)%bool <-> near p tol e a.
Proof.
  intros P T diff. assert (D : diff mod p = (e - a) mod p /\ 0 <= diff <= p).
  { unfold diff. destruct (Z.leb_spec a e).
    - rewrite Z.mod_mod by lia. pose proof (Z.mod_pos_bound (e - a) p P). lia.
    - pose proof (Z.mod_pos_bound (a - e) p P). split; [|lia].
      rewrite Zminus_mod_idemp_r. replace (p - (a - e)) with (e - a + 1 * p) by lia. apply Z.mod_add. lia. }
  destruct D as (D & R). split.
  - intros H. apply andb_false_iff in H. destruct H as [H|H]; apply Z.ltb_ge in H.
    + exists diff. split; [lia|]. rewrite Zminus_mod, <- D, Z.sub_diag. reflexivity.
    + exists (diff - p). split; [lia|]. replace (e - a - (diff - p)) with (e - a - diff + 1 * p) by lia. rewrite Z.mod_add by lia.
      rewrite Zminus_mod, <- D, Z.sub_diag. reflexivity.
  - intros (k & K & E). apply andb_false_iff. rewrite !Z.ltb_ge.
    assert (Ek : (diff - k) mod p = 0) by (rewrite Zminus_mod, D, <- Zminus_mod; exact E).
    apply Z.mod_divide in Ek; [|lia]. destruct Ek as (q & Ek). assert (q = 0 \/ q = 1 \/ q <= -1 \/ 2 <= q) by lia. nia.
Qed.
Lemma compare_pairs_iff p tol : 0 < p -> 0 <= tol <= p -> forall ps,
  compare_pairs p tol (p - tol) ps = true <-> Forall (fun x => near p tol (fst x) (snd x)) ps.
Proof.
  intros P T. induction ps as [|(e & a) ps IH]; cbn [compare_pairs]; [split; auto|].
  pose proof (near_iff p tol e a P T) as N. cbv zeta in N.
  set (cond := ((tol <? (if a <=? e then (e - a) mod p else p - (a - e) mod p)) && ((if a <=? e then (e - a) mod p else p - (a - e) mod p) <? p - tol))%bool) in *.
  destruct cond.
  - split; [discriminate|]. intros H. inversion H; subst. cbn in *. apply N in H2. discriminate.
  - rewrite IH. split; intros H; [constructor; auto; cbn; now apply N|now inversion H].
Qed.
Lemma Forall_combine {A B} (P : A -> B -> Prop) l m : length l = length m ->
  (Forall (fun x => P (fst x) (snd x)) (combine l m) <-> Forall2 P l m).
Proof.
  revert m. induction l as [|x l IH]; intros [|y m] L; cbn in *; try lia; [split; constructor|].
  specialize (IH m ltac:(lia)). split; intros H; inversion H; subst; constructor; auto; now apply IH.
Qed.
Theorem compare_iff expected actual p tol : 0 < p -> 0 <= tol <= p ->
  exists r, compare_field_values expected actual p tol = Some r /\ (r = true <-> Forall2 (near p tol) expected actual).
Proof.
  intros P T. unfold compare_field_values. destruct (Nat.eqb_spec (length expected) (length actual)) as [L|L]; cbn [negb].
  - destruct (Z.ltb_spec p tol); [lia|]. eexists. split; [reflexivity|]. rewrite (compare_pairs_iff p tol P T). now apply Forall_combine.
  - exists false. split; auto. split; [discriminate|]. intros H. exfalso. apply L. clear L. induction H; cbn; auto.
Qed.
Lemma near_mod p tol x y : 0 < p -> near p tol (x mod p) (y mod p) <-> near p tol x y.
Proof.
  intros P. assert (E : forall k, (x mod p - y mod p - k) mod p = (x - y - k) mod p).
  { intros k. rewrite (Zminus_mod (x mod p - y mod p) k p), <- (Zminus_mod x y p), <- Zminus_mod. reflexivity. }
  unfold near. split; intros (k & K & H); exists k; split; auto; congruence.
Qed.
Lemma near_small p tol x y : 0 < p -> 0 <= tol -> Z.abs (x - y) + tol < p -> (near p tol x y <-> Z.abs (x - y) <= tol).
Proof.
  intros P T S. split.
  - intros (k & K & E). apply Z.mod_divide in E; [|lia]. destruct E as (q & E). assert (q = 0 \/ q <= -1 \/ 1 <= q) by lia. nia.
  - intros A. exists (x - y). split; [lia|]. replace (x - y - (x - y)) with 0 by lia. apply Z.mod_0_l. lia.
Qed.

(** ** Parsing *)
Definition parse_dec (data : list Z) : option ((Z * list Z) * list Z) :=
  let* (_, s) := de_u64 data in
  let* (num_inputs, s) := de_usize s in
  let* (num_public_inputs, s) := de_usize s in
  let* (modulus_bytes, s) := read_exact 32 s in
  let modulus := le_val modulus_bytes in
  if modulus =? 0 then None else
  let elem_size := element_size_from_modulus modulus in
  let total := (num_inputs + num_public_inputs)%nat in
  let* _ := guard (Z.of_nat total <? U64) in
  let* _ := guard (Z.of_nat (total * elem_size) <? U64) in
  if (length s <? total * elem_size)%nat then None else
  let* (vs, s) := de_times total (de_num elem_size) s in
  let* publics := (if (num_inputs <=? length vs)%nat then Some (skipn num_inputs vs) else None) in
  Some ((modulus, publics), s).
Lemma parse_dec_ok data : parse_public_inputs data = option_map fst (parse_dec data).
Proof.
  unfold parse_public_inputs, parse_dec.
  destruct (de_u64 data) as [(x & s)|]; cbn [obind]; [|reflexivity].
  destruct (de_usize s) as [(ni & s1)|]; cbn [obind]; [|reflexivity].
  destruct (de_usize s1) as [(np & s2)|]; cbn [obind]; [|reflexivity].
  destruct (read_exact 32 s2) as [(mb & s3)|]; cbn [obind]; [|reflexivity].
  destruct (le_val mb =? 0); [reflexivity|].
  destruct (guard (Z.of_nat (ni + np) <? U64)); cbn [obind]; [|reflexivity].
  destruct (guard _); cbn [obind]; [|reflexivity].
  destruct (_ <? _)%nat; [reflexivity|].
  destruct (de_times _ _ _) as [(vs & s4)|]; cbn [obind]; [|reflexivity].
  destruct (_ <=? _)%nat; reflexivity.
Qed.
Lemma st_length {A} k (d : decoder A) : streams d -> streams (fun s => if (length s <? k)%nat then None else d s).
Proof.
  intros S s q v r H. destruct (Nat.ltb_spec (length s) k); [discriminate|]. rewrite app_length.
  destruct (Nat.ltb_spec (length s + length q) k); [lia|]. now apply S.
Qed.
Lemma st_parse : streams parse_dec.
Proof.
  unfold parse_dec. apply (st_bind de_u64); [apply (st_num 8)|intros _]. apply (st_bind de_usize); [apply st_usize|intros ni].
  apply (st_bind de_usize); [apply st_usize|intros np]. apply (st_bind (read_exact 32)); [apply st_exact|intros mb]. cbv zeta.
  apply (st_if _ (fun _ => None)); [apply st_fail|]. apply st_guard. apply st_guard. apply st_length.
  apply (st_bind (de_times _ _)); [apply st_times, st_num|intros vs].
  apply (st_const _ (fun p s => Some (_, p, s))). intros p. apply st_ret.
Qed.

Lemma prefix_cases {A} (l r p q : list A) : l ++ r = p ++ q ->
  ((length p < length l)%nat -> exists q', l = p ++ q' /\ q' <> []) /\ ((length l <= length p)%nat -> exists s, p = l ++ s).
Proof.
  revert p. induction l as [|x l IH]; intros [|y p] E; cbn [app length] in *.
  - split; [lia|]. intros _. now exists [].
  - split; [lia|]. intros _. now exists (y :: p).
  - split; [|lia]. intros _. exists (x :: l). split; [reflexivity|discriminate].
  - injection E as -> E. destruct (IH p E) as (H1 & H2). split; intros L.
    + destruct H1 as (q' & -> & N); [lia|]. now exists q'.
    + destruct H2 as (s & ->); [lia|]. now exists s.
Qed.

Section Parse.
Variable c : field_format.
Hypothesis C : format_ok c.
Hypothesis CM : ff_modulus c < 256 ^ Z.of_nat 32.
Hypothesis CE : element_size_from_modulus (ff_modulus c) = ff_bytes c.
Variables (n a b : nat) (w0 : list Z * list Z).
Hypothesis HS : sized a b w0.
Hypothesis HF : Forall (field_ok c) (fst w0) /\ Forall (field_ok c) (snd w0).
Hypothesis HU : usize_ok n /\ usize_ok a /\ usize_ok b.
Hypothesis HB : Z.of_nat ((a + b) * ff_bytes c) < U64.
Definition head : list Z := ser_usize n ++ ser_usize a ++ ser_usize b ++ ser_u256 (ff_modulus c) ++ flat_map (ser_field c) (fst w0 ++ snd w0).
Lemma bytes_pos : (0 < ff_bytes c)%nat.
Proof. rewrite <- CE. unfold element_size_from_modulus. destruct (_ <? _); lia. Qed.
Lemma flat_length l : length (flat_map (ser_field c) l) = (length l * ff_bytes c)%nat.
Proof. induction l as [|x l IH]; [reflexivity|]. cbn [flat_map length]. rewrite app_length, IH. unfold ser_field. rewrite le_bytes_length. lia. Qed.
Lemma head_length : length head = (56 + (a + b) * ff_bytes c)%nat.
Proof.
  unfold head. rewrite !app_length, flat_length, app_length. destruct HS as (-> & ->). unfold ser_usize, ser_u64, ser_u256, ser_num.
  rewrite !le_bytes_length. lia.
Qed.
Lemma parse_head rest : parse_dec (head ++ rest) = Some ((ff_modulus c, snd w0), rest).
Proof.
  destruct HU as (Un & Ua & Ub), HS as (La & Lb), HF as (Fa & Fb). pose proof bytes_pos as BP.
  assert (FM : 0 < ff_modulus c) by (unfold format_ok in C; lia).
  unfold parse_dec, head. rewrite <- !app_assoc.
  unfold ser_usize at 1. rewrite rt_u64 by (unfold usize_ok in Un; lia). cbn [obind].
  rewrite rt_usize by auto. cbn [obind]. rewrite rt_usize by auto. cbn [obind].
  unfold ser_u256, ser_num. rewrite read_exact_app by apply le_bytes_length. cbn [obind].
  rewrite le_val_id by lia. destruct (Z.eqb_spec (ff_modulus c) 0); [lia|]. rewrite CE.
  destruct (Z.ltb_spec (Z.of_nat (a + b)) U64); [|nia]. cbn [guard obind].
  destruct (Z.ltb_spec (Z.of_nat ((a + b) * ff_bytes c)) U64); [|lia]. cbn [guard obind].
  destruct (Nat.ltb_spec (length (flat_map (ser_field c) (fst w0 ++ snd w0) ++ rest)) ((a + b) * ff_bytes c)) as [B|B].
  { rewrite app_length, flat_length, app_length in B. rewrite La, Lb in B. lia. }
  assert (T : de_times (a + b) (de_num (ff_bytes c)) (flat_map (ser_field c) (fst w0 ++ snd w0) ++ rest) = Some (fst w0 ++ snd w0, rest)).
  { replace (a + b)%nat with (length (fst w0 ++ snd w0)) by (rewrite app_length; lia).
    apply (rt_times (field_ok c) (ser_field c) (de_num (ff_bytes c))).
    - intros v r Hv. apply rt_num. unfold field_ok, format_ok in *. lia.
    - apply Forall_app. auto. }
  rewrite T. cbn [obind]. rewrite app_length. destruct (Nat.leb_spec a (length (fst w0) + length (snd w0))); [|lia]. cbn [obind].
  rewrite <- La, skipn_app, skipn_all, Nat.sub_diag. reflexivity.
Qed.
Theorem parse_prefix p q rest : head ++ rest = p ++ q ->
  parse_public_inputs p = if (length p <? 56 + (a + b) * ff_bytes c)%nat then None else Some (ff_modulus c, snd w0).
Proof.
  intros E. rewrite parse_dec_ok, <- head_length. destruct (Nat.ltb_spec (length p) (length head)) as [L|L].
  - destruct (proj1 (prefix_cases head rest p q E) L) as (q' & Eq & Nq).
    rewrite (truncation (fun v => v = (ff_modulus c, snd w0)) (fun _ => head) parse_dec) with (v := (ff_modulus c, snd w0)) (q := q'); auto.
    + intros v r ->. apply parse_head.
    + apply st_parse.
  - destruct (proj2 (prefix_cases head rest p q E) L) as (r & ->). rewrite parse_head. reflexivity.
Qed.
End Parse.

Lemma file_head c a b w0 ws : file c a b (w0 :: ws) = head c (length (w0 :: ws)) a b w0 ++ flat_map (ser_field c) (flat_values ws).
Proof. unfold file, header, head, flat_values. cbn [flat_map]. rewrite !flat_map_app, <- !app_assoc. reflexivity. Qed.

Section Outputs.
Variable c : field_format.
Hypothesis C : format_ok c.
Hypothesis CM : ff_modulus c < 256 ^ Z.of_nat 32.
Hypothesis CE : element_size_from_modulus (ff_modulus c) = ff_bytes c.
Variables (priv ins outs : list Z) (base e : Z) (ws : list (list Z * list Z)).
Let p := ff_modulus c.
Let publics := map (convert_val p) ins ++ map (convert_val p) outs ++ [base; e].
Hypothesis Rins : Forall (representable p) ins.
Hypothesis Routs : Forall (representable p) outs.
Hypothesis Rbase : 0 <= base < Z.min p U64.
Hypothesis Re : 0 <= e < Z.min p U64.
Hypothesis Rpriv : Forall (field_ok c) priv.
Hypothesis HN : usize_ok (S (length ws)).
Hypothesis HB : Z.of_nat ((length priv + length publics) * ff_bytes c) < U64.
Lemma decode_all l : Forall (representable p) l -> omap (fun v => from_field_repr v p) (map (convert_val p) l) = Some l.
Proof.
  intros F. induction F as [|x l Hx F IH]; [reflexivity|]. cbn [map omap]. rewrite decode_encode; auto; [|unfold format_ok, p in *; lia].
  cbn [obind]. rewrite IH. reflexivity.
Qed.
Theorem extract_ok rest :
  extract_outputs (file c (length priv) (length publics) ((priv, publics) :: ws) ++ rest) (length ins) =
  Some {| ex_inputs := ins; ex_outputs := outs; ex_base := base; ex_exponent := e; ex_modulus := p; ex_raw := publics |}.
Proof.
  assert (P : 0 < p) by (unfold format_ok, p in *; lia).
  pose proof (bytes_pos c CM CE _ _ HB) as BP.
  assert (Lp : length publics = (length ins + length outs + 2)%nat) by (unfold publics; rewrite !app_length, !map_length; cbn; lia).
  assert (Fp : Forall (field_ok c) publics).
  { unfold publics. assert (G : forall l, Forall (field_ok c) (map (convert_val p) l)).
    { intros l. apply Forall_map, Forall_forall. intros x _. unfold field_ok. fold p. rewrite convert_val_mod by auto. now apply Z.mod_pos_bound. }
    repeat (apply Forall_app; split); auto. repeat constructor; unfold field_ok; fold p; lia. }
  assert (HB2 : (length priv + length publics <= (length priv + length publics) * ff_bytes c)%nat) by (rewrite <- (Nat.mul_1_r (length priv + length publics)) at 1; apply Nat.mul_le_mono_l; exact BP).
  unfold extract_outputs. rewrite parse_dec_ok, file_head, <- app_assoc.
  rewrite (parse_head c C CM CE (length ((priv, publics) :: ws)) (length priv) (length publics) (priv, publics)); auto.
  2: now split.
  2:{ cbn [length]. split; [exact HN|]. unfold usize_ok. lia. }
  cbn [option_map fst snd obind].
  destruct (Z.ltb_spec (Z.of_nat (length ins + 2)) U64); [|lia]. cbn [guard obind].
  destruct (Nat.ltb_spec (length publics) (length ins + 2)); [lia|].
  assert (G : forall i x, nth_error [base; e] i = Some x -> aget publics (length ins + length outs + i) = Some x).
  { intros i x E. unfold aget, publics. rewrite app_assoc, nth_error_app2 by (rewrite app_length, !map_length; lia).
    rewrite app_length, !map_length. replace (length ins + length outs + i - (length ins + length outs))%nat with i by lia. exact E. }
  replace (length publics - 2)%nat with (length ins + length outs + 0)%nat by lia. rewrite (G 0%nat base eq_refl). cbn [obind].
  unfold to_u64. destruct (Z.ltb_spec base U64); [|lia]. cbn [obind].
  replace (length publics - 1)%nat with (length ins + length outs + 1)%nat by lia. rewrite (G 1%nat e eq_refl). cbn [obind].
  destruct (Z.ltb_spec e U64); [|lia]. cbn [obind].
  replace (length ins + length outs + 0 - length ins)%nat with (length outs) by lia.
  assert (E1 : firstn (length ins) publics = map (convert_val p) ins).
  { unfold publics. rewrite firstn_app, map_length, Nat.sub_diag. cbn. rewrite app_nil_r. apply firstn_all2. rewrite map_length. lia. }
  assert (E2 : firstn (length outs) (skipn (length ins) publics) = map (convert_val p) outs).
  { unfold publics. rewrite skipn_app, map_length, Nat.sub_diag, skipn_all2 by (rewrite map_length; lia). cbn.
    rewrite firstn_app, map_length, Nat.sub_diag. cbn. rewrite app_nil_r. apply firstn_all2. rewrite map_length. lia. }
  rewrite E1, E2. fold p. rewrite (decode_all ins Rins). cbn [obind]. rewrite (decode_all outs Routs). reflexivity.
Qed.
End Outputs.

Theorem expected_ok x p ins tl expected : ex_modulus x = p -> 1 < p -> ex_raw x = map (convert_val p) ins ++ tl ->
  Forall2 (fun e v => Z.abs (e - v) + 1 < p) expected ins ->
  (check_expected x expected (length ins) = Some tt <-> Forall2 (fun e v => Z.abs (e - v) <= 1) expected ins).
Proof.
  intros M P R F. assert (L : length expected = length ins) by (clear - F; induction F; cbn; auto).
  unfold check_expected. rewrite L, Nat.eqb_refl. cbn [negb]. rewrite R, M.
  replace (firstn (length ins) (map (convert_val p) ins ++ tl)) with (map (convert_val p) ins).
  2:{ rewrite firstn_app, map_length, Nat.sub_diag. cbn. rewrite app_nil_r. symmetry. apply firstn_all2. rewrite map_length. lia. }
  destruct (compare_iff (map (fun v => scaled_to_field v p) expected) (map (convert_val p) ins) p 1) as (r & -> & H); [lia|lia|]. cbn [obind].
  assert (G : Forall2 (near p 1) (map (fun v => scaled_to_field v p) expected) (map (convert_val p) ins) <-> Forall2 (fun e v => Z.abs (e - v) <= 1) expected ins).
  { clear - P F. induction F as [|e v l m S F IH]; cbn [map]; [split; constructor|].
    assert (N : near p 1 (scaled_to_field e p) (convert_val p v) <-> Z.abs (e - v) <= 1).
    { rewrite scaled_to_field_mod, convert_val_mod, near_mod by lia. apply near_small; lia. }
    split; intros H; inversion H; subst; constructor; tauto. }
  destruct r; cbn [guard].
  - split; auto. intros _. apply G, H. reflexivity.
  - split; [discriminate|]. intros K. apply G, H in K. discriminate.
Qed.

(** ** As stated in Properties/Witness.v *)
Lemma size_eq c : ff_bytes c = (if ff_modulus c <? 2 ^ 64 then 8%nat else 32%nat) -> element_size_from_modulus (ff_modulus c) = ff_bytes c.
Proof. intros ->. reflexivity. Qed.
Theorem parse_file c pack a b w0 ws bytes p q :
  format_ok c -> ff_modulus c < 256 ^ Z.of_nat 32 -> ff_bytes c = (if ff_modulus c <? 2 ^ 64 then 8%nat else 32%nat) ->
  sized a b w0 -> Forall (field_ok c) (fst w0) /\ Forall (field_ok c) (snd w0) ->
  usize_ok (length (w0 :: ws)) /\ usize_ok a /\ usize_ok b -> Z.of_nat ((a + b) * ff_bytes c) < U64 ->
  ser_witness c pack (batch a b (w0 :: ws) (Scalar (flat_values (w0 :: ws)))) = Some bytes -> bytes = p ++ q ->
  parse_public_inputs p = (if (length p <? 56 + (a + b) * ff_bytes c)%nat then None else Some (ff_modulus c, snd w0)).
Proof.
  intros C CM CE HS HF HU HB E Ep.
  assert (E' : file c a b (w0 :: ws) = bytes) by (assert (Some (file c a b (w0 :: ws)) = Some bytes) by exact E; congruence).
  rewrite file_head in E'. apply (parse_prefix c C CM (size_eq c CE) (length (w0 :: ws)) a b w0 HS HF HU HB p q (flat_map (ser_field c) (flat_values ws))).
  congruence.
Qed.
Theorem parse_one c pack a b w bytes :
  format_ok c -> ff_modulus c < 256 ^ Z.of_nat 32 -> ff_bytes c = (if ff_modulus c <? 2 ^ 64 then 8%nat else 32%nat) ->
  sized a b w -> Forall (field_ok c) (fst w) /\ Forall (field_ok c) (snd w) ->
  usize_ok a /\ usize_ok b -> Z.of_nat ((a + b) * ff_bytes c) < U64 ->
  ser_witness c pack (batch a b [w] (Scalar (flat_values [w]))) = Some bytes ->
  parse_public_inputs bytes = Some (ff_modulus c, snd w) /\
  forall p q, bytes = p ++ q -> q <> [] -> parse_public_inputs p = None.
Proof.
  intros C CM CE HS HF HU HB E.
  assert (HU' : usize_ok (length [w]) /\ usize_ok a /\ usize_ok b) by (split; [unfold usize_ok, U64; cbn [length]; lia|exact HU]).
  assert (L : length bytes = (56 + (a + b) * ff_bytes c)%nat).
  { assert (E' : file c a b [w] = bytes) by (assert (Some (file c a b [w]) = Some bytes) by exact E; congruence).
    rewrite file_head in E'. cbn [flat_values flat_map] in E'. rewrite app_nil_r in E'. rewrite <- E'.
    eapply head_length; eauto. }
  split.
  - rewrite (parse_file c pack a b w [] bytes bytes []); auto; [|now rewrite app_nil_r]. rewrite L, Nat.ltb_irrefl. reflexivity.
  - intros p q Ep Q. rewrite (parse_file c pack a b w [] bytes p q); auto.
    destruct (Nat.ltb_spec (length p) (56 + (a + b) * ff_bytes c)); [reflexivity|]. subst bytes. rewrite app_length in L. destruct q; [congruence|]. cbn [length] in L. lia.
Qed.
Theorem later_refuted : exists bytes p q,
  ser_witness {| ff_bytes := 8; ff_modulus := Fields.GL |} 1 (batch 0 1 [([], [7]); ([], [8])] (Scalar (flat_values [([], [7]); ([], [8])]))) = Some bytes /\
  bytes = p ++ q /\ q <> [] /\ parse_public_inputs p = Some (Fields.GL, [7]).
Proof.
  eexists. exists (firstn 64 (file {| ff_bytes := 8; ff_modulus := Fields.GL |} 0 1 [([], [7]); ([], [8])])), (le_bytes 8 8).
  split; [reflexivity|]. vm_compute. repeat split; discriminate.
Qed.
Theorem m31_refuted : exists bytes,
  ser_witness {| ff_bytes := 4; ff_modulus := Fields.M31 |} 1 (batch 0 2 [([], [7; 8])] (Scalar (flat_values [([], [7; 8])]))) = Some bytes /\
  parse_public_inputs bytes = None.
Proof. eexists. split; [reflexivity|]. vm_compute. reflexivity. Qed.
Theorem extract_file c pack priv ins outs base e ws bytes rest :
  let p := ff_modulus c in
  let publics := map (convert_val p) ins ++ map (convert_val p) outs ++ [base; e] in
  format_ok c -> p < 256 ^ Z.of_nat 32 -> ff_bytes c = (if p <? 2 ^ 64 then 8%nat else 32%nat) ->
  Forall (representable p) ins -> Forall (representable p) outs ->
  0 <= base < Z.min p U64 -> 0 <= e < Z.min p U64 -> Forall (field_ok c) priv ->
  usize_ok (S (length ws)) -> Z.of_nat ((length priv + length publics) * ff_bytes c) < U64 ->
  ser_witness c pack (batch (length priv) (length publics) ((priv, publics) :: ws) (Scalar (flat_values ((priv, publics) :: ws)))) = Some bytes ->
  extract_outputs (bytes ++ rest) (length ins) =
    Some {| ex_inputs := ins; ex_outputs := outs; ex_base := base; ex_exponent := e; ex_modulus := p; ex_raw := publics |}.
Proof.
  intros p publics C CM CE R1 R2 R3 R4 R5 HN HB E.
  assert (E' : file c (length priv) (length publics) ((priv, publics) :: ws) = bytes)
    by (assert (Some (file c (length priv) (length publics) ((priv, publics) :: ws)) = Some bytes) by exact E; congruence).
  rewrite <- E'. now apply extract_ok; auto; apply size_eq.
Qed.
Theorem encoding_ok p v : 0 < p -> 0 <= convert_val p v < p /\ (convert_val p v - v) mod p = 0.
Proof.
  intros P. rewrite convert_val_mod by auto. split; [now apply Z.mod_pos_bound|].
  rewrite Zminus_mod_idemp_l, Z.sub_diag. apply Z.mod_0_l. lia.
Qed.
Theorem compare_panics expected actual p tol : length expected = length actual -> p < tol -> compare_field_values expected actual p tol = None.
Proof.
  intros L T. unfold compare_field_values. rewrite L, Nat.eqb_refl. cbn [negb]. destruct (Z.ltb_spec p tol); [reflexivity|lia].
Qed.
