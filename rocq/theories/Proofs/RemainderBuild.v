(** How the circuit builder and the verifier's public inputs grow, layer by
    layer. *)
From Coq Require Import ZArith List Bool Lia String.
From Verif Require Import Base.Array Base.Machine Spec.Remainder Model.Remainder.
From Verif Require Import Proofs.RemainderArith.
Import ListNotations.
Local Open Scope Z_scope.

Lemma obind_some {A B} (o : option A) (f : A -> option B) r : obind o f = Some r -> exists a, o = Some a /\ f a = Some r.
Proof. destruct o; [eauto|discriminate]. Qed.
Lemma guard_some b u : guard b = Some u -> b = true.
Proof. destruct b; [auto|discriminate]. Qed.

(** Takes a chain of [let*] apart. *)
Ltac inv_step H :=
  match type of H with
  | obind (guard _) _ = Some _ =>
      let g := fresh "G" in
      apply obind_some in H; destruct H as (? & g & H); apply guard_some in g
  | obind _ _ = Some _ =>
      let a := fresh "a" in let e := fresh "E" in
      apply obind_some in H; destruct H as (a & e & H); cbv beta iota in H
  | Some _ = Some _ => injection H as H
  end.

(** ** Maps *)

Lemma hputs_in {V} (m : hmap V) ks v k : In k ks -> hget (hputs m ks v) k = Some v.
Proof.
  unfold hputs. revert m. induction ks as [|a ks IH] using rev_ind; intros m H; [easy|].
  rewrite fold_left_app. cbn. destruct (String.eqb_spec a k); [reflexivity|].
  apply IH. apply in_app_or in H. destruct H as [H|[H|[]]]; [auto|contradiction].
Qed.
Lemma hputs_out {V} (m : hmap V) ks v k : ~ In k ks -> hget (hputs m ks v) k = hget m k.
Proof.
  unfold hputs. revert m. induction ks as [|a ks IH]; intros m H; [reflexivity|]. cbn [fold_left].
  rewrite IH by (intros F; apply H; now right). cbn. destruct (String.eqb_spec a k); [|reflexivity].
  exfalso. apply H. now left.
Qed.

Lemma shred_eqb_spec a b : reflect (a = b) (shred_eqb a b).
Proof. unfold shred_eqb. destruct (shred_eq_dec a b); now constructor. Qed.
Lemma shred_eqb_refl a : shred_eqb a a = true.
Proof. destruct (shred_eqb_spec a a); congruence. Qed.

Lemma sget_app {V} (a b : list (shred * V)) s : sget (a ++ b) s = match sget a s with Some v => Some v | None => sget b s end.
Proof. induction a as [|(x, v) a IH]; cbn; [reflexivity|]. destruct (shred_eqb x s); auto. Qed.
Lemma sget_none {V} (a : list (shred * V)) s : (forall e, In e a -> fst e <> s) -> sget a s = None.
Proof.
  induction a as [|(x, v) a IH]; cbn; intros H; [reflexivity|].
  destruct (shred_eqb_spec x s) as [E|]; [|auto]. exfalso. apply (H (x, v)); auto.
Qed.
Lemma sget_in {V} (a : list (shred * V)) s v : sget a s = Some v -> In (s, v) a.
Proof.
  induction a as [|(x, u) a IH]; cbn; [discriminate|]. destruct (shred_eqb_spec x s) as [->|]; [|auto].
  intros E. injection E as ->. now left.
Qed.

(** ** The builder *)

Definition owned (n : string) (s : shred) : Prop :=
  match s with SLayer a _ | SDelta a _ => a = n | _ => False end.

Definition ext (P : shred -> Prop) (b b' : bstate) : Prop :=
  (exists c, b_checks b' = c ++ b_checks b) /\
  (exists r, b_ranges b' = r ++ b_ranges b) /\
  (exists m, b_manifest b' = m ++ b_manifest b /\ forall e, In e m -> P (fst e)).

Lemma ext_refl P b : ext P b b.
Proof. split; [now exists []|]. split; [now exists []|]. exists []. split; [reflexivity|easy]. Qed.
Lemma ext_trans P a b c : ext P a b -> ext P b c -> ext P a c.
Proof.
  intros ((c1 & E1) & (r1 & F1) & (m1 & G1 & H1)) ((c2 & E2) & (r2 & F2) & (m2 & G2 & H2)).
  split; [exists (c2 ++ c1); now rewrite E2, E1, app_assoc|].
  split; [exists (r2 ++ r1); now rewrite F2, F1, app_assoc|].
  exists (m2 ++ m1). split; [now rewrite G2, G1, app_assoc|].
  intros e He. apply in_app_or in He. destruct He; auto.
Qed.
Lemma ext_weaken (P Q : shred -> Prop) a b : (forall s, P s -> Q s) -> ext P a b -> ext Q a b.
Proof. intros H (A & B & m & E & F). split; [exact A|]. split; [exact B|]. exists m. split; auto. Qed.

Lemma ext_shred (P : shred -> Prop) s nv v b b' : P s -> ext P b b' -> ext P b (add_shred s nv v b').
Proof.
  intros Hs H. apply (ext_trans _ _ _ _ H). split; [now exists []|]. split; [now exists []|].
  exists [(s, (nv, v))]. split; [reflexivity|]. intros e [<-|[]]. exact Hs.
Qed.
Lemma ext_zero P e b b' : ext P b b' -> ext P b (add_zero e b').
Proof.
  intros H. apply (ext_trans _ _ _ _ H). split; [now exists [Zero e]|]. split; [now exists []|].
  exists []. split; [reflexivity|easy].
Qed.
Lemma ext_range P s n t nv b b' : ext P b b' -> ext P b (add_range s n t nv b').
Proof.
  intros H. apply (ext_trans _ _ _ _ H). split; [now exists []|]. split; [now exists [(s, n, t, nv)]|].
  exists []. split; [reflexivity|easy].
Qed.
Lemma ext_outputs P o n nv b b' : ext P b b' -> ext P b (set_outputs o n nv b').
Proof. intros H. exact H. Qed.
Lemma ext_layouts P o l b b' : ext P b b' -> ext P b (set_layouts o l b').
Proof. intros H. exact H. Qed.
Lemma ext_clear P o b b' : ext P b b' -> ext P b (clear_layouts o b').
Proof. intros H. exact H. Qed.
Lemma ext_fold {A} P (f : bstate -> A -> bstate) l b b' :
  (forall a b', In a l -> ext P b b' -> ext P b (f b' a)) -> ext P b b' -> ext P b (fold_left f l b').
Proof.
  revert b'. induction l as [|a l IH]; intros b' H E; [exact E|]. cbn. apply IH.
  - intros; apply H; auto. now right.
  - apply H; auto. now left.
Qed.

Ltac ext_tac := repeat first
  [ apply ext_layouts | apply ext_outputs | apply ext_clear | apply ext_zero | apply ext_range
  | apply ext_shred; [first [reflexivity | exact I]|] | apply ext_refl ].

Lemma resolve_ext l x b n nv b' : resolve_input l x b = Some (n, nv, b') -> ext (owned (l_name l)) b b'.
Proof.
  unfold resolve_input. destruct (hget (b_nodes b) x).
  - destruct (hget (b_nv b) x); cbn; [|discriminate]. intros E. injection E as <- <- <-. apply ext_refl.
  - destruct (hget (l_weights l) x); cbn; [|discriminate]. intros E. injection E as <- <- <-. ext_tac.
Qed.

Lemma build_layer_ext m l b b' : build_layer m l b = Some b' -> ext (owned (l_name l)) b b'.
Proof.
  unfold build_layer. destruct (l_op l); intros H; try discriminate.
  - unfold build_gemm in H. repeat inv_step H. destruct a2 as (k, n). repeat inv_step H. subst b'. ext_tac.
  - unfold build_conv in H. repeat inv_step H. subst b'. ext_tac.
  - unfold build_relu in H. repeat inv_step H. subst b'. destruct (l_bits l); ext_tac.
  - unfold build_maxpool in H. repeat inv_step H. subst b'. ext_tac.
    assert (F : forall b0, ext (owned (l_name l)) b b0 ->
              ext (owned (l_name l)) b (fold_left (fun b s => add_shred s (nvars (p_out a1)) Committed b)
                (map (SDelta (l_name l)) (seq 0 (p_window a1))) b0)).
    { intros b0 H0. apply ext_fold; [|exact H0]. intros s b1 Hs H1. apply ext_shred; [|exact H1].
      apply in_map_iff in Hs. destruct Hs as (i & <- & _). reflexivity. }
    destruct (l_bits l); [apply ext_fold; [intros; now apply ext_range|]|];
      apply ext_zero; (apply ext_fold; [intros; now apply ext_zero|]); apply F; ext_tac.
  - unfold build_addsub in H. repeat inv_step H. destruct a1 as ((an, av), b1). repeat inv_step H.
    destruct a1 as ((cn, cv), b2). repeat inv_step H. subst b'. ext_tac.
    apply resolve_ext in E1, E2. eapply ext_trans; eauto.
  - unfold build_addsub in H. repeat inv_step H. destruct a1 as ((an, av), b1). repeat inv_step H.
    destruct a1 as ((cn, cv), b2). repeat inv_step H. subst b'. ext_tac.
    apply resolve_ext in E1, E2. eapply ext_trans; eauto.
  - unfold build_batchnorm in H. repeat inv_step H. subst b'. ext_tac.
  - unfold build_alias in H. repeat inv_step H. subst b'. ext_tac.
  - unfold build_alias in H. repeat inv_step H. subst b'. ext_tac.
  - unfold build_committed in H. repeat inv_step H. subst b'. ext_tac.
  - unfold build_committed in H. repeat inv_step H. subst b'. ext_tac.
  - unfold build_committed in H. repeat inv_step H. subst b'. ext_tac.
Qed.

Definition owned_by_any (ns : list string) (s : shred) : Prop := exists n, In n ns /\ owned n s.

Lemma build_layers_ext m ls : forall b b', build_layers m ls b = Some b' -> ext (owned_by_any (map l_name ls)) b b'.
Proof.
  unfold build_layers. induction ls as [|l ls IH]; cbn [for_each]; intros b b' H.
  - injection H as <-. apply ext_refl.
  - inv_step H. apply ext_trans with a.
    + apply build_layer_ext in E. apply (ext_weaken _ _ _ _) with (2 := E). intros s Hs. exists (l_name l). split; [now left|exact Hs].
    + apply IH in H. apply (ext_weaken _ _ _ _) with (2 := H). intros s (n & Hn & Hs). exists n. split; [now right|exact Hs].
Qed.

Lemma build_layers_app m l1 l2 b : build_layers m (l1 ++ l2) b = (let* b1 := build_layers m l1 b in build_layers m l2 b1).
Proof.
  unfold build_layers. revert b. induction l1 as [|l l1 IH]; intros b; [reflexivity|]. cbn.
  destruct (build_layer m l b); [|reflexivity]. cbn. apply IH.
Qed.

(** Building up to, across and after layer [k]. *)
Lemma build_layers_at m ls b bf k l : build_layers m ls b = Some bf -> nth_error ls k = Some l ->
  exists b1 b2, build_layers m (firstn k ls) b = Some b1 /\ build_layer m l b1 = Some b2 /\
    build_layers m (firstn (S k) ls) b = Some b2 /\ build_layers m (skipn (S k) ls) b2 = Some bf.
Proof.
  intros H N.
  assert (Hk : (k < List.length ls)%nat) by (apply nth_error_Some; congruence).
  assert (S1 : firstn (S k) ls = firstn k ls ++ [l]).
  { clear H Hk. revert k N. induction ls as [|a ls IH]; intros [|k] N; try discriminate.
    - cbn in N. injection N as <-. reflexivity.
    - cbn [firstn app]. f_equal. apply IH. exact N. }
  rewrite <- (firstn_skipn (S k) ls), S1, <- app_assoc in H. rewrite build_layers_app in H.
  inv_step H. cbn [app] in H. unfold build_layers in H. cbn [for_each] in H. inv_step H.
  exists a, a0. split; [exact E|]. split; [exact E0|]. split; [|exact H].
  rewrite S1, build_layers_app, E. cbn. now rewrite E0.
Qed.

(** ** The final stage *)

Definition final_shred (s : shred) : Prop := match s with SChunk _ _ | STable _ | SExpected => True | _ => False end.

Lemma add_lookup_ext n t b b' : ext final_shred b b' -> ext final_shred b (add_lookup n t b').
Proof.
  intros H. apply (ext_trans _ _ _ _ H). split; [now exists [Lookup n t]|]. split; [now exists []|].
  exists [(STable t, (t, Public))]. split; [reflexivity|]. intros e [<-|[]]. exact I.
Qed.
Lemma add_range_check_ext rc b b' : ext final_shred b b' -> ext final_shred b (add_range_check b' rc).
Proof.
  intros H. destruct rc as (((s, n), t), nv). unfold add_range_check. destruct (t <=? CHUNK_BITS)%nat.
  - now apply add_lookup_ext.
  - do 2 apply add_lookup_ext. apply ext_zero. ext_tac. exact H.
Qed.

(** What a range check contributes to the circuit. *)
Definition range_checks_of (rc : shred * node * nat * nat) : list check :=
  let '(s, n, t, nv) := rc in
  if (t <=? CHUNK_BITS)%nat then [Lookup n t]
  else [Zero (ESub (EAdd (ENode (NShred (SChunk false s) nv))
                         (EScale (2 ^ Z.of_nat CHUNK_BITS) (ENode (NShred (SChunk true s) nv)))) (ENode n));
        Lookup (NShred (SChunk false s) nv) CHUNK_BITS; Lookup (NShred (SChunk true s) nv) (t - CHUNK_BITS)].

Lemma add_range_check_checks rc b c : In c (range_checks_of rc) -> In c (b_checks (add_range_check b rc)).
Proof.
  destruct rc as (((s, n), t), nv). unfold range_checks_of, add_range_check.
  destruct (t <=? CHUNK_BITS)%nat; cbn; intuition.
Qed.

Lemma ext_checks P b b' c : ext P b b' -> In c (b_checks b) -> In c (b_checks b').
Proof. intros ((x & E) & _) H. rewrite E. apply in_or_app. now right. Qed.
Lemma ext_ranges P b b' c : ext P b b' -> In c (b_ranges b) -> In c (b_ranges b').
Proof. intros (_ & (x & E) & _) H. rewrite E. apply in_or_app. now right. Qed.

Lemma fold_range_checks rcs : forall b rc c, In rc rcs -> In c (range_checks_of rc) ->
  In c (b_checks (fold_left add_range_check rcs b)).
Proof.
  induction rcs as [|r rcs IH]; intros b rc c [] Hc; cbn [fold_left].
  - subst r. apply (ext_checks final_shred (add_range_check b rc)); [|now apply add_range_check_checks].
    apply ext_fold; [|apply ext_refl]. intros; now apply add_range_check_ext.
  - eapply IH; eauto.
Qed.

(** Every table in a manifest is public. *)
Definition tables_public (m : manifest) : Prop := forall t nv v, In (STable t, (nv, v)) m -> v = Public.

Lemma fold_tables_public rcs : forall b, tables_public (b_manifest b) -> tables_public (b_manifest (fold_left add_range_check rcs b)).
Proof.
  induction rcs as [|r rcs IH]; intros b H; [exact H|]. cbn [fold_left]. apply IH.
  destruct r as (((s, n), t), nv). unfold add_range_check.
  destruct (t <=? CHUNK_BITS)%nat; cbn; intros t' nv' v' F; cbn in F;
    repeat (destruct F as [F|F]; [inversion F; reflexivity|]); eapply H; eauto.
Qed.

(** The whole of [build_circuit]. *)
Record built (m : model) (n : nat) (checks : list check) (man : manifest) (b0 bf : bstate) (out : string) (nv : nat) (outn : node) : Prop := {
  bt_init : init_state m n = Some b0;
  bt_out : m_outputs m = [out];
  bt_base : m_base m = 2;
  bt_layers : build_layers m (m_layers m) b0 = Some bf;
  bt_nv : hget (b_nv bf) out = Some nv;
  bt_node : hget (b_nodes bf) out = Some outn;
  bt_checks : forall c, In c (b_checks bf) -> In c checks;
  bt_ranges : forall rc c, In rc (b_ranges bf) -> In c (range_checks_of rc) -> In c checks;
  bt_output : In (Zero (ESub (ENode outn) (ENode (NShred SExpected nv)))) checks;
  bt_man : exists nm, man = nm ++ b_manifest bf /\ forall e, In e nm -> final_shred (fst e);
  bt_expected : sget man SExpected = Some (nv, Public);
  bt_tables : tables_public man
}.

Lemma init_manifest m n b0 : init_state m n = Some b0 ->
  exists x, m_inputs m = [x] /\ b0 = mkB [] [(SInput x, (nvars n, Public))] [(x, NShred (SInput x) (nvars n))] [(x, nvars n)] (input_layouts m) [].
Proof.
  unfold init_state. intros H. inv_step H. destruct (m_inputs m) as [|x [|]]; try discriminate. injection E as <-.
  injection H as <-. now exists x.
Qed.

Lemma ext_other P b b' s : ext P b b' -> ~ P s -> sget (b_manifest b') s = sget (b_manifest b) s.
Proof.
  intros (_ & _ & m & E & F) H. rewrite E, sget_app, (sget_none m); [reflexivity|].
  intros e He Es. apply H. rewrite <- Es. auto.
Qed.

Lemma ext_in_manifest P b b' e : ext P b b' -> In e (b_manifest b') -> In e (b_manifest b) \/ P (fst e).
Proof.
  intros (_ & _ & m & E & F) H. rewrite E in H. apply in_app_or in H. destruct H; auto.
Qed.

Lemma build_circuit_inv m n checks man : build_circuit m n = Some (checks, man) ->
  exists b0 bf out nv outn, built m n checks man b0 bf out nv outn.
Proof.
  unfold build_circuit. intros H. inv_step H. inv_step H. inv_step H. inv_step H. inv_step H. inv_step H.
  destruct (m_outputs m) as [|o [|]] eqn:Eo; try discriminate. injection E0 as <-.
  set (b1 := add_shred SExpected a2 Public a1) in *.
  change (b_nodes b1) with (b_nodes a1) in E3.
  set (b2 := add_zero _ b1) in H.
  set (b3 := fold_left add_range_check _ b2) in H.
  assert (X : ext final_shred b2 b3) by (apply ext_fold; [intros; now apply add_range_check_ext|apply ext_refl]).
  assert (Y : ext final_shred a1 b2) by (apply ext_zero; unfold b1; ext_tac).
  injection H as <- <-.
  exists a, a1, o, a2, a3. apply andb_prop in G. destruct G as (G & _).
  constructor; auto.
  - now apply Z.eqb_eq.
  - intros c Hc. eapply ext_checks; [exact X|]. eapply ext_checks; eauto.
  - intros rc c Hr Hc. apply fold_range_checks with rc; [|exact Hc]. apply in_rev. rewrite rev_involutive. exact Hr.
  - eapply ext_checks; [exact X|]. left. reflexivity.
  - destruct (ext_trans _ _ _ _ Y X) as (_ & _ & nm & En & F). exists nm. auto.
  - unfold b3. clear X. generalize (rev (b_ranges b2)). intros rcs.
    assert (Z0 : sget (b_manifest b2) SExpected = Some (a2, Public)) by (cbn; reflexivity).
    clearbody b2. clear b3 Y. revert b2 Z0.
    induction rcs as [|r rcs IH]; intros b2 Z0; [exact Z0|]. cbn [fold_left]. apply IH.
    destruct r as (((s, n0), t), nv). unfold add_range_check. destruct (t <=? CHUNK_BITS)%nat; cbn; exact Z0.
  - apply fold_tables_public. destruct (init_manifest _ _ _ E) as (xn & _ & ->).
    intros t nv v F. destruct F as [F|F]; [discriminate|].
    change (In (STable t, (nv, v)) (b_manifest a1)) in F.
    apply build_layers_ext in E1. destruct (ext_in_manifest _ _ _ _ E1 F) as [F1|F1].
    + cbn in F1. destruct F1 as [F1|[]]. discriminate.
    + destruct F1 as (? & _ & []).
Qed.
