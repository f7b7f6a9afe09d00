(** The verifier's public inputs, and what acceptance says about the values of
    shreds. *)
From Coq Require Import ZArith List Bool Lia String.
From Verif Require Import Base.Array Base.Machine Spec.Remainder Model.Remainder.
From Verif Require Import Proofs.RemainderArith Proofs.RemainderBuild.
Import ListNotations.
Local Open Scope Z_scope.

Definition pext (P : shred -> Prop) (a b : pstate) : Prop :=
  exists m, ps_shreds b = m ++ ps_shreds a /\ forall e, In e m -> P (fst e).

Lemma pext_refl P a : pext P a a.
Proof. exists []. split; [reflexivity|easy]. Qed.
Lemma pext_trans P a b c : pext P a b -> pext P b c -> pext P a c.
Proof.
  intros (m1 & E1 & F1) (m2 & E2 & F2). exists (m2 ++ m1). split; [now rewrite E2, E1, app_assoc|].
  intros e He. apply in_app_or in He. destruct He; auto.
Qed.
Lemma pext_weaken (P Q : shred -> Prop) a b : (forall s, P s -> Q s) -> pext P a b -> pext Q a b.
Proof. intros H (m & E & F). exists m. split; auto. Qed.
Lemma pext_sizes P o n l a b : pext P a b -> pext P a (put_sizes o n l b).
Proof. intros H. exact H. Qed.
Lemma pext_shred (P : shred -> Prop) s v a b : P s -> pext P a b -> pext P a (put_shred s v b).
Proof.
  intros Hs H. apply (pext_trans _ _ _ _ H). exists [(s, v)]. split; [reflexivity|]. intros e [<-|[]]. exact Hs.
Qed.

Ltac pext_tac := repeat first
  [ apply pext_sizes | apply pext_shred; [first [reflexivity | exact I]|] | apply pext_refl ].

Lemma public_layer_ext l a b : public_layer l a = Some b -> pext (owned (l_name l)) a b.
Proof.
  unfold public_layer. destruct (l_op l); intros H; try discriminate; repeat inv_step H.
  - destruct a0 as (((w, bias), k), n). injection H as <-. pext_tac.
  - destruct a2 as ((w, bias), g). injection H as <-. pext_tac.
  - subst b. pext_tac.
  - subst b. pext_tac.
  - subst b. apply pext_sizes. destruct (hget (ps_sizes a) a0), (hget (l_weights l) a0), (hget (ps_sizes a) a1), (hget (l_weights l) a1); pext_tac.
  - subst b. apply pext_sizes. destruct (hget (ps_sizes a) a0), (hget (l_weights l) a0), (hget (ps_sizes a) a1), (hget (l_weights l) a1); pext_tac.
  - destruct a2 as (mul, add). injection H as <-. pext_tac.
  - subst b. pext_tac.
  - subst b. pext_tac.
  - subst b. pext_tac.
  - subst b. pext_tac.
  - subst b. destruct (transpose_layout _ _ _); exact (pext_refl _ a).
Qed.

Lemma public_layers_ext ls : forall a b, for_each ls public_layer a = Some b -> pext (owned_by_any (map l_name ls)) a b.
Proof.
  induction ls as [|l ls IH]; cbn [for_each]; intros a b H.
  - injection H as <-. apply pext_refl.
  - inv_step H. apply pext_trans with a0.
    + apply public_layer_ext in E. apply (pext_weaken _ _ _ _) with (2 := E). intros s Hs. exists (l_name l). split; [now left|exact Hs].
    + apply IH in H. apply (pext_weaken _ _ _ _) with (2 := H). intros s (n & Hn & Hs). exists n. split; [now right|exact Hs].
Qed.

Lemma for_each_app {A S} (f : A -> S -> option S) l1 l2 s : for_each (l1 ++ l2) f s = (let* s1 := for_each l1 f s in for_each l2 f s1).
Proof.
  revert s. induction l1 as [|l l1 IH]; intros s; [reflexivity|]. cbn.
  destruct (f l s); [|reflexivity]. cbn. apply IH.
Qed.

Lemma for_each_at {A S} (f : A -> S -> option S) ls b bf k l : for_each ls f b = Some bf -> nth_error ls k = Some l ->
  exists b1 b2, for_each (firstn k ls) f b = Some b1 /\ f l b1 = Some b2 /\
    for_each (firstn (Datatypes.S k) ls) f b = Some b2 /\ for_each (skipn (Datatypes.S k) ls) f b2 = Some bf.
Proof.
  intros H N.
  assert (S1 : firstn (Datatypes.S k) ls = firstn k ls ++ [l]).
  { clear H. revert k N. induction ls as [|a ls IH]; intros [|k] N; try discriminate.
    - cbn in N. injection N as <-. reflexivity.
    - cbn [firstn app]. f_equal. apply IH. exact N. }
  rewrite <- (firstn_skipn (Datatypes.S k) ls), S1, <- app_assoc in H. rewrite for_each_app in H.
  inv_step H. cbn [app for_each] in H. inv_step H.
  exists a, a0. split; [exact E|]. split; [exact E0|]. split; [|exact H].
  rewrite S1, for_each_app, E. cbn. now rewrite E0.
Qed.

Lemma pext_other P a b s : pext P a b -> ~ P s -> sget (ps_shreds b) s = sget (ps_shreds a) s.
Proof.
  intros (m & E & F) H. rewrite E, sget_app, (sget_none m); [reflexivity|].
  intros e He Es. apply H. rewrite <- Es. auto.
Qed.

Record prepared (m : model) (input expected : list Z) (observed : hmap nat) (public : list (shred * list Z))
  (x : string) (s0 sf : pstate) : Prop := {
  pr_input : aget (m_inputs m) 0 = Some x;
  pr_ok : input_size_ok m x (List.length input) = true;
  pr_init : s0 = mkP [(SInput x, pad_to_size input (pow2_for (List.length input)))] [(x, pow2_for (List.length input))] (input_layouts m);
  pr_layers : for_each (m_layers m) public_layer s0 = Some sf;
  pr_plan : exists t, range_check_plan m observed = Some t;
  pr_tables : forall t v, sget public (STable t) = Some v -> v = range_table t;
  pr_expected : sget public SExpected = Some (pad_to_size expected (pow2_for (List.length expected)));
  pr_x : sget public (SInput x) = Some (pad_to_size input (pow2_for (List.length input)));
  pr_owned : forall n s, owned n s -> sget public s = sget (ps_shreds sf) s
}.

Lemma prepare_inv m input expected observed public :
  prepare_public_shreds m input expected observed = Some public ->
  exists x s0 sf, prepared m input expected observed public x s0 sf.
Proof.
  unfold prepare_public_shreds. intros H. inv_step H. inv_step H. inv_step H. inv_step H. inv_step H. inv_step H.
  injection H as <-. exists a. eexists. exists a0.
  assert (T : forall s, (forall t, s <> STable t) -> sget (map (fun t => (STable t, range_table t)) a1) s = None).
  { intros s Hs. apply sget_none. intros e He. apply in_map_iff in He. destruct He as (t & <- & _). cbn. intros F. now apply (Hs t). }
  pose proof (public_layers_ext _ _ _ E0) as X.
  constructor; try reflexivity; auto.
  - now exists a1.
  - intros t v. rewrite sget_app. destruct (sget (map _ a1) (STable t)) eqn:Et.
    + intros F. injection F as <-. apply sget_in, in_map_iff in Et. destruct Et as (u & Eu & _). now inversion Eu.
    + cbn. rewrite (pext_other _ _ _ _ X) by (intros (? & _ & [])). cbn. discriminate.
  - rewrite sget_app, T by discriminate. reflexivity.
  - rewrite sget_app, T by discriminate. cbn. rewrite (pext_other _ _ _ _ X) by (intros (? & _ & [])).
    cbn. now rewrite shred_eqb_refl.
  - intros n s Hs. rewrite sget_app, T by (intros t ->; destruct Hs).
    cbn [sget]. destruct (shred_eqb_spec SExpected s) as [<-|]; [destruct Hs|reflexivity].
Qed.

(** ** Distinct layer names: a shred belongs to one layer *)

Lemma later_not_owned (ls : list layer) k l s : NoDup (map l_name ls) -> nth_error ls k = Some l -> owned (l_name l) s ->
  ~ owned_by_any (map l_name (skipn (S k) ls)) s.
Proof.
  intros ND N Hs (n & Hn & Hn'). assert (En : n = l_name l) by (destruct s; cbn [owned] in Hs, Hn'; try contradiction; congruence). subst n.
  rewrite <- (firstn_skipn (S k) ls) in ND. rewrite map_app in ND.
  assert (In (l_name l) (map l_name (firstn (S k) ls))).
  { apply in_map. apply nth_error_In with k. clear - N. revert k N. induction ls as [|a ls IH]; intros [|k] N; try discriminate; [exact N|].
    cbn [firstn nth_error]. now apply IH. }
  clear - H Hn ND. induction (map l_name (firstn (S k) ls)) as [|a l0 IH]; [easy|].
  cbn in ND. inversion ND as [|? ? F G]; subst. destruct H as [->|H]; [|auto].
  apply F. apply in_or_app. now right.
Qed.

Lemma earlier_not_owned (ls : list layer) k l s : NoDup (map l_name ls) -> nth_error ls k = Some l -> owned (l_name l) s ->
  ~ owned_by_any (map l_name (firstn k ls)) s.
Proof.
  intros ND N Hs (n & Hn & Hn'). assert (En : n = l_name l) by (destruct s; cbn [owned] in Hs, Hn'; try contradiction; congruence). subst n.
  clear Hs Hn'. revert k N Hn. induction ls as [|a ls IH]; intros [|k] N Hn; try discriminate; [easy|].
  cbn [firstn map] in Hn. cbn [map] in ND. inversion ND as [|? ? F G]; subst. cbn [nth_error] in N. destruct Hn as [E|Hn].
  - apply F. rewrite E. apply in_map. now apply nth_error_In with k.
  - eapply IH; eauto.
Qed.

(** ** Accepted proofs *)

Record accepted (p : Z) (m : model) (pf : proof) (input : list Z) (env : shred -> option (list Z))
  (public : list (shred * list Z)) (checks : list check) (man : manifest)
  (b0 bf : bstate) (out : string) (nv : nat) (outn : node) (x : string) (s0 sf : pstate) : Prop := {
  ac_public : prepare_public_shreds m input (pf_expected pf) (pf_observed pf) = Some public;
  ac_circuit : build_circuit m (pow2_for (List.length input)) = Some (checks, man);
  ac_env : env = shred_env man public (pf_committed pf);
  ac_built : built m (pow2_for (List.length input)) checks man b0 bf out nv outn;
  ac_prep : prepared m input (pf_expected pf) (pf_observed pf) public x s0 sf;
  ac_holds : forall c, In c checks -> holds p env c = true
}.

Lemma verify_inv p m pf input : verify_with_model p m pf input = true ->
  exists env public checks man b0 bf out nv outn x s0 sf, accepted p m pf input env public checks man b0 bf out nv outn x s0 sf.
Proof.
  unfold verify_with_model. destruct (prepare_public_shreds _ _ _ _) as [public|] eqn:E; [|discriminate].
  destruct (build_circuit _ _) as [(checks, man)|] eqn:F; [|discriminate]. intros H.
  apply andb_prop in H. destruct H as (_ & H). rewrite forallb_forall in H.
  destruct (build_circuit_inv _ _ _ _ F) as (b0 & bf & out & nv & outn & B).
  destruct (prepare_inv _ _ _ _ _ E) as (x & s0 & sf & P).
  exists (shred_env man public (pf_committed pf)), public, checks, man, b0, bf, out, nv, outn, x, s0, sf.
  constructor; auto.
Qed.

Section Accepted.
Context {p : Z} {m : model} {pf : proof} {input : list Z} {env : shred -> option (list Z)}.
Context {public : list (shred * list Z)} {checks : list check} {man : manifest}.
Context {b0 bf : bstate} {out : string} {nv : nat} {outn : node} {x : string} {s0 sf : pstate}.
Hypothesis AC : accepted p m pf input env public checks man b0 bf out nv outn x s0 sf.

Lemma env_table t v : env (STable t) = Some v -> v = range_table t.
Proof.
  rewrite (ac_env _ _ _ _ _ _ _ _ _ _ _ _ _ _ _ _ AC). unfold shred_env.
  destruct (sget man (STable t)) as [(n, [|])|] eqn:E; try discriminate.
  - apply (pr_tables _ _ _ _ _ _ _ _ (ac_prep _ _ _ _ _ _ _ _ _ _ _ _ _ _ _ _ AC)).
  - apply sget_in in E. apply (bt_tables _ _ _ _ _ _ _ _ _ (ac_built _ _ _ _ _ _ _ _ _ _ _ _ _ _ _ _ AC)) in E. discriminate.
Qed.

Lemma env_expected : env SExpected = Some (pad_to_size (pf_expected pf) (pow2_for (List.length (pf_expected pf)))).
Proof.
  rewrite (ac_env _ _ _ _ _ _ _ _ _ _ _ _ _ _ _ _ AC). unfold shred_env.
  rewrite (bt_expected _ _ _ _ _ _ _ _ _ (ac_built _ _ _ _ _ _ _ _ _ _ _ _ _ _ _ _ AC)).
  apply (pr_expected _ _ _ _ _ _ _ _ (ac_prep _ _ _ _ _ _ _ _ _ _ _ _ _ _ _ _ AC)).
Qed.

Lemma man_layer s : (exists n, owned n s) \/ (exists y, s = SInput y) -> sget man s = sget (b_manifest bf) s.
Proof.
  intros H. destruct (bt_man _ _ _ _ _ _ _ _ _ (ac_built _ _ _ _ _ _ _ _ _ _ _ _ _ _ _ _ AC)) as (nm & -> & F).
  rewrite sget_app, (sget_none nm); [reflexivity|]. intros e He Es. apply F in He. rewrite Es in He.
  destruct H as [(n & Hs)|(y & ->)]; [destruct s; auto|exact He].
Qed.

Lemma env_input : env (SInput x) = Some (pad_to_size input (pow2_for (List.length input))).
Proof.
  pose proof (ac_built _ _ _ _ _ _ _ _ _ _ _ _ _ _ _ _ AC) as B.
  pose proof (ac_prep _ _ _ _ _ _ _ _ _ _ _ _ _ _ _ _ AC) as P.
  destruct (init_manifest _ _ _ (bt_init _ _ _ _ _ _ _ _ _ B)) as (x' & Ex & Eb).
  assert (x' = x) by (pose proof (pr_input _ _ _ _ _ _ _ _ P) as Q; rewrite Ex in Q; now injection Q). subst x'.
  rewrite (ac_env _ _ _ _ _ _ _ _ _ _ _ _ _ _ _ _ AC). unfold shred_env.
  rewrite man_layer by (right; now exists x).
  rewrite (ext_other _ _ _ _ (build_layers_ext _ _ _ _ (bt_layers _ _ _ _ _ _ _ _ _ B))) by (intros (? & _ & [])).
  rewrite Eb. cbn. rewrite shred_eqb_refl. apply (pr_x _ _ _ _ _ _ _ _ P).
Qed.

(** The state around layer [k]. *)
Lemma at_layer k l : NoDup (map l_name (m_layers m)) -> nth_error (m_layers m) k = Some l ->
  exists b1 b2 s1 s2,
    build_layers m (firstn k (m_layers m)) b0 = Some b1 /\ build_layer m l b1 = Some b2 /\
    build_layers m (firstn (S k) (m_layers m)) b0 = Some b2 /\
    for_each (firstn k (m_layers m)) public_layer s0 = Some s1 /\ public_layer l s1 = Some s2 /\
    for_each (firstn (S k) (m_layers m)) public_layer s0 = Some s2 /\
    (forall c, In c (b_checks b2) -> holds p env c = true) /\
    (forall rc c, In rc (b_ranges b2) -> In c (range_checks_of rc) -> holds p env c = true) /\
    (forall s, owned (l_name l) s -> env s = match sget (b_manifest b2) s with
                                            | Some (_, Public) => sget (ps_shreds s2) s
                                            | Some (_, Committed) => sget (pf_committed pf) s
                                            | None => None end) /\
    (forall s, owned (l_name l) s -> sget (ps_shreds s1) s = None).
Proof.
  intros ND N.
  pose proof (ac_built _ _ _ _ _ _ _ _ _ _ _ _ _ _ _ _ AC) as B.
  pose proof (ac_prep _ _ _ _ _ _ _ _ _ _ _ _ _ _ _ _ AC) as P.
  destruct (build_layers_at _ _ _ _ _ _ (bt_layers _ _ _ _ _ _ _ _ _ B) N) as (b1 & b2 & H1 & H2 & H3 & H4).
  destruct (for_each_at _ _ _ _ _ _ (pr_layers _ _ _ _ _ _ _ _ P) N) as (s1 & s2 & K1 & K2 & K3 & K4).
  exists b1, b2, s1, s2. do 6 (split; [assumption|]).
  pose proof (build_layers_ext _ _ _ _ H4) as X.
  split; [|split; [|split]].
  - intros c Hc. apply (ac_holds _ _ _ _ _ _ _ _ _ _ _ _ _ _ _ _ AC).
    apply (bt_checks _ _ _ _ _ _ _ _ _ B). eapply ext_checks; eauto.
  - intros rc c Hr Hc. apply (ac_holds _ _ _ _ _ _ _ _ _ _ _ _ _ _ _ _ AC).
    apply (bt_ranges _ _ _ _ _ _ _ _ _ B) with rc; [|exact Hc]. eapply ext_ranges; eauto.
  - intros s Hs. rewrite (ac_env _ _ _ _ _ _ _ _ _ _ _ _ _ _ _ _ AC). unfold shred_env.
    rewrite man_layer by (left; eauto). rewrite (ext_other _ _ _ _ X) by (eapply later_not_owned; eauto).
    rewrite (pr_owned _ _ _ _ _ _ _ _ P _ _ Hs).
    rewrite (pext_other _ _ _ _ (public_layers_ext _ _ _ K4)) by (eapply later_not_owned; eauto).
    reflexivity.
  - intros s Hs. rewrite (pext_other _ _ _ _ (public_layers_ext _ _ _ K1)) by (eapply earlier_not_owned; eauto).
    rewrite (pr_init _ _ _ _ _ _ _ _ P). cbn [ps_shreds sget]. destruct (shred_eqb_spec (SInput x) s) as [<-|]; [destruct Hs|reflexivity].
Qed.

(** Widths. *)
Lemma plan_width l : In l (m_layers m) -> exists t, layer_tables m (pf_observed pf) l = Some t.
Proof.
  intros Hl. destruct (pr_plan _ _ _ _ _ _ _ _ (ac_prep _ _ _ _ _ _ _ _ _ _ _ _ _ _ _ _ AC)) as (t & E).
  unfold range_check_plan in E. inv_step E. apply omap_map in E0. clear - E0 Hl.
  induction E0 as [|a0 b l0 l1 E _ IH]; [easy|]. destruct Hl as [->|Hl]; eauto.
Qed.

End Accepted.

Lemma width_tables_bound w t : width_tables w = Some t -> (w <= 18)%nat.
Proof.
  unfold width_tables, CHUNK_BITS. destruct (Nat.leb_spec w 9); [lia|]. intros H0. inv_step H0. apply Nat.leb_le in G. lia.
Qed.

(** ** Evaluation *)

Lemma zip_with_inv f a b v : zip_with f a b = Some v ->
  List.length b = List.length a /\ List.length v = List.length a /\
  forall i, (i < List.length a)%nat -> at_ v i = f (at_ a i) (at_ b i).
Proof.
  unfold zip_with. intros H. inv_step H. apply Nat.eqb_eq in G. injection H as <-.
  split; [auto|]. rewrite map_length, combine_length. split; [lia|]. intros i Hi.
  unfold at_. rewrite (nth_indep _ 0 ((fun xy => f (fst xy) (snd xy)) (0, 0))) by (rewrite map_length, combine_length; lia).
  rewrite (map_nth (fun xy => f (fst xy) (snd xy))). now rewrite combine_nth.
Qed.

Lemma holds_zero p env e : holds p env (Zero e) = true ->
  exists v, eval_sector env e = Some v /\ forall i, (i < List.length v)%nat -> at_ v i mod p = 0.
Proof.
  cbn. destruct (eval_sector env e) as [v|]; [|discriminate]. intros H. exists v. split; [reflexivity|].
  intros i Hi. rewrite forallb_forall in H. apply Z.eqb_eq. apply H. now apply nth_In.
Qed.

Lemma range_table_in t y : In y (range_table t) -> in_width t y.
Proof.
  unfold range_table, in_width. intros H. apply in_map_iff in H. destruct H as (n & <- & Hn). apply in_seq in Hn.
  rewrite <- pow2_nat_Z. lia.
Qed.

Lemma eval_shred env s n v : eval_node env (NShred s n) = Some v -> env s = Some v /\ List.length v = (2 ^ n)%nat.
Proof.
  cbn. destruct (env s) as [w|]; [|discriminate]. cbn. intros H. inv_step H. apply Nat.eqb_eq in G. injection H as <-. auto.
Qed.

(** A range check bounds every entry. *)
Lemma range_check_sound p env rc : (forall t v, env (STable t) = Some v -> v = range_table t) ->
  (forall c, In c (range_checks_of rc) -> holds p env c = true) ->
  let '(s, n, t, nv) := rc in 
  exists v, eval_node env n = Some v /\
    forall i, (i < List.length v)%nat -> exists y, in_width t y /\ (at_ v i - y) mod p = 0.
Proof.
  intros T. destruct rc as (((s, n), t), nv). cbn [range_checks_of].
  assert (L : forall n t, holds p env (Lookup n t) = true -> exists v, eval_node env n = Some v /\
     forall i, (i < List.length v)%nat -> exists y, in_width t y /\ (at_ v i - y) mod p = 0).
  { clear - T. intros n t. cbn. destruct (eval_node env n) as [v|]; [|discriminate].
    destruct (env (STable t)) as [tb|] eqn:E; [|discriminate]. apply T in E. subst tb. intros H. exists v. split; [reflexivity|].
    intros i Hi. rewrite forallb_forall in H. specialize (H (at_ v i) (nth_In _ _ Hi)).
    apply existsb_exists in H. destruct H as (y & Hy & Ey). exists y. split; [now apply range_table_in|]. now apply Z.eqb_eq. }
  destruct (Nat.leb_spec t CHUNK_BITS) as [Ht|Ht]; intros H.
  - apply L. apply H. now left.
  - assert (H0 := H _ (or_introl eq_refl)). assert (H1 := H _ (or_intror (or_introl eq_refl))).
    assert (H2 := H _ (or_intror (or_intror (or_introl eq_refl)))). clear H.
    apply L in H1, H2. destruct H1 as (lo & Elo & Hlo), H2 as (hi & Ehi & Hhi).
    apply holds_zero in H0. destruct H0 as (z & Ez & Hz). cbn [eval_sector] in Ez. rewrite Elo, Ehi in Ez. cbn [obind] in Ez.
    inv_step Ez. inv_step Ez. destruct (eval_node env n) as [v|] eqn:Ev; [|discriminate]. injection E0 as <-.
    apply zip_with_inv in E. destruct E as (L1 & L2 & A1). apply zip_with_inv in Ez. destruct Ez as (L3 & L4 & A2).
    rewrite map_length in L1. exists v. split; [reflexivity|]. intros i Hi.
    specialize (A2 i ltac:(lia)). specialize (A1 i ltac:(lia)). specialize (Hz i ltac:(lia)).
    rewrite (at_map _ hi) in A1 by lia. rewrite A2, A1 in Hz.
    destruct (Hlo i ltac:(lia)) as (y0 & W0 & C0). destruct (Hhi i ltac:(lia)) as (y1 & W1 & C1).
    exists (y0 + 2 ^ Z.of_nat CHUNK_BITS * y1). split.
    + unfold in_width in *. replace (2 ^ Z.of_nat t) with (2 ^ Z.of_nat CHUNK_BITS * 2 ^ Z.of_nat (t - CHUNK_BITS))
        by (rewrite <- Z.pow_add_r by lia; f_equal; lia).
      change (2 ^ Z.of_nat CHUNK_BITS) with 512 in *. nia.
    + destruct (Z.eq_dec p 0) as [->|Hp].
      * rewrite Zmod_0_r in *. nia.
      * apply Z.mod_divide in Hz, C0, C1; auto. apply Z.mod_divide; auto.
        destruct Hz as (k1 & Hz), C0 as (k2 & C0), C1 as (k3 & C1).
        exists (k2 + 2 ^ Z.of_nat CHUNK_BITS * k3 - k1). nia.
Qed.
