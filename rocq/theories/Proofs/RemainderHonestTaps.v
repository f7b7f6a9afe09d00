(** Reading a tensor through a list of taps agrees with identity gates. *)
From Coq Require Import ZArith List Bool Lia String ArithRing.
From Verif Require Import Base.Array Base.Machine Spec.Numbers Spec.Remainder Spec.RemainderCircuit Model.Remainder Model.RemainderWitness.
From Verif Require Import Proofs.RemainderArith Proofs.RemainderBuild Proofs.RemainderPublic Proofs.RemainderSound Proofs.RemainderLayers
  Proofs.RemainderImages Proofs.RemainderConv Proofs.RemainderHonest.
Import ListNotations.
Local Open Scope Z_scope.

Lemma aset_inv (l : list Z) i v l' : aset l i v = Some l' -> (i < List.length l)%nat /\ List.length l' = List.length l /\
  forall j, at_ l' j = if Nat.eqb i j then v else at_ l j.
Proof.
  revert i l'. induction l as [|a l IH]; intros i l' H; [destruct i; discriminate|].
  destruct i as [|i].
  - cbn in H. injection H as <-. cbn. split; [lia|]. split; [reflexivity|]. intros [|j]; reflexivity.
  - cbn in H. destruct (aset l i v) as [r|] eqn:E; [|discriminate]. injection H as <-.
    destruct (IH _ _ E) as (I1 & I2 & I3). cbn. split; [lia|]. split; [lia|]. intros [|j]; [reflexivity|]. cbn. apply I3.
Qed.

Lemma aget_at (l : list Z) i v : aget l i = Some v -> (i < List.length l)%nat /\ at_ l i = v.
Proof. intros H. split; [apply nth_error_Some; unfold aget in H; congruence|]. now apply nth_error_nth. Qed.

Lemma filter_none {A} (f : A -> bool) l : (forall x, In x l -> f x = false) -> filter f l = [].
Proof.
  induction l as [|a l IH]; intros H; [reflexivity|]. cbn. rewrite H by (now left). apply IH. intros. apply H. now right.
Qed.

Lemma gather_inv taps data size out : gather taps data size = Some out -> NoDup (map fst taps) ->
  List.length out = size /\ (forall d s, In (d, s) taps -> (d < size)%nat /\ (s < List.length data)%nat) /\
  forall d, (d < size)%nat -> at_ out d = gate data taps d.
Proof.
  unfold gather. revert out. induction taps as [|(d0, s0) taps IH] using rev_ind; intros out H ND.
  - cbn in H. injection H as <-. split; [apply repeat_length|]. split; [easy|]. intros d Hd. unfold at_. now rewrite nth_repeat.
  - rewrite for_each_app in H. inv_step H. cbn [for_each fst snd] in H. inv_step H. injection H as <-. inv_step E0.
    apply aget_at in E1. destruct E1 as (L1 & <-). apply aset_inv in E0. destruct E0 as (L2 & L3 & A).
    rewrite map_app in ND. cbn [map] in ND. apply NoDup_remove in ND. rewrite app_nil_r in ND. destruct ND as (ND & N0). cbn [fst] in N0.
    destruct (IH _ E ND) as (I1 & I2 & I3). split; [lia|]. split.
    + intros d s0' Hin. apply in_app_or in Hin. destruct Hin as [Hin|[Hin|[]]]; [eauto|]. injection Hin as <- <-. lia.
    + intros d Hd. rewrite A, gate_app, gate_one. destruct (Nat.eqb_spec d0 d) as [->|Hn]; [|rewrite I3 by auto; lia].
      replace (gate data taps d) with 0; [lia|]. symmetry. unfold gate. rewrite filter_none; [reflexivity|].
      intros (d1, s1) Hin. cbn. destruct (Nat.eqb_spec d1 d) as [->|]; [|reflexivity]. exfalso. apply N0. now apply (in_map fst) in Hin.
Qed.

Lemma gather_eval env a taps nv data out : eval_node env a = Some data -> NoDup (map fst taps) ->
  gather taps data (2 ^ nv) = Some out -> eval_node env (NGate a taps nv) = Some out.
Proof.
  intros E ND H. destruct (gather_inv _ _ _ _ H ND) as (L & Bd & A). cbn [eval_node]. rewrite E. cbn [obind].
  rewrite (proj2 (forallb_forall _ taps)).
  - cbn [guard obind]. f_equal. apply at_ext; [now rewrite map_length, seq_length|]. rewrite map_length, seq_length.
    intros i Hi. rewrite at_map_seq, A by auto. reflexivity.
  - intros (d, s) Hin. apply Bd in Hin. cbn. apply andb_true_intro. split; now apply Nat.ltb_lt.
Qed.

(** ** Distinct destinations *)

Lemma map_flat_map {A B C} (f : B -> C) (g : A -> list B) l : map f (flat_map g l) = flat_map (fun x => map f (g x)) l.
Proof. induction l as [|a l IH]; [reflexivity|]. cbn. now rewrite map_app, IH. Qed.

Lemma NoDup_app {A} (a b : list A) : NoDup a -> NoDup b -> (forall x, In x a -> In x b -> False) -> NoDup (a ++ b).
Proof.
  induction a as [|x a IH]; intros Na Nb H; [exact Nb|]. inversion Na; subst. cbn. constructor.
  - intros I. apply in_app_or in I. destruct I as [I|I]; [contradiction|]. apply (H x); [now left|exact I].
  - apply IH; auto. intros y Hy. apply H. now right.
Qed.

Lemma NoDup_flat_map {A B} (f : A -> list B) l : NoDup l -> (forall a, In a l -> NoDup (f a)) ->
  (forall a b x, In a l -> In b l -> In x (f a) -> In x (f b) -> a = b) -> NoDup (flat_map f l).
Proof.
  induction l as [|a l IH]; intros N Hf Hi; [constructor|]. inversion N; subst. cbn. apply NoDup_app.
  - apply Hf. now left.
  - apply IH; auto; intros; [apply Hf; now right|apply (Hi a0 b x); auto; now right].
  - intros x Ha Hb. apply in_flat_map in Hb. destruct Hb as (b & Hb & Hx).
    assert (a = b) by (apply (Hi a b x); auto; [now left|now right]). congruence.
Qed.

Lemma conv_dest_inj g oh ow c kr kc oh' ow' c' kr' kc' :
  (ow < g_ow g)%nat -> (c < g_cin g)%nat -> (kr < g_kh g)%nat -> (kc < g_kw g)%nat ->
  (ow' < g_ow g)%nat -> (c' < g_cin g)%nat -> (kr' < g_kh g)%nat -> (kc' < g_kw g)%nat ->
  ((oh * g_ow g + ow) * pow2_for (g_patch g) + (c * g_kh g * g_kw g + kr * g_kw g + kc) =
   (oh' * g_ow g + ow') * pow2_for (g_patch g) + (c' * g_kh g * g_kw g + kr' * g_kw g + kc'))%nat ->
  oh = oh' /\ ow = ow' /\ c = c' /\ kr = kr' /\ kc = kc'.
Proof.
  intros H1 H2 H3 H4 H1' H2' H3' H4' E.
  assert (Q : forall c kr kc, (c * g_kh g * g_kw g + kr * g_kw g + kc = (c * g_kh g + kr) * g_kw g + kc)%nat) by (intros; ring).
  rewrite !Q in E.
  assert (P : (g_patch g <= pow2_for (g_patch g))%nat) by apply le_pow2_for.
  assert (B : forall c kr kc, (c < g_cin g -> kr < g_kh g -> kc < g_kw g -> (c * g_kh g + kr) * g_kw g + kc < g_patch g)%nat).
  { intros. unfold g_patch. apply encode_lt; [apply encode_lt|]; auto. }
  pose proof (B c kr kc H2 H3 H4). pose proof (B c' kr' kc' H2' H3' H4').
  apply code_inj in E; try lia. destruct E as (E1 & E2). apply code_inj in E1; auto. apply code_inj in E2; auto.
  destruct E2 as (E2 & E3). apply code_inj in E2; auto. intuition.
Qed.

Definition conv_tap (g : conv_geom) (lay : layout) (oh ow c kr kc : nat) : list (nat * nat) :=
    let abs_h := (oh * g_sh g + kr)%nat in
    let abs_w := (ow * g_sw g + kc)%nat in
    if ((abs_h <? g_top g) || (abs_w <? g_left g))%nat then [] else
    let ih := (abs_h - g_top g)%nat in
    let iw := (abs_w - g_left g)%nat in
    if ((g_inh g <=? ih) || (g_inw g <=? iw))%nat then [] else
    [((oh * g_ow g + ow) * pow2_for (g_patch g) + (c * g_kh g * g_kw g + kr * g_kw g + kc), lindex lay c ih iw)]%nat.

Lemma conv_tap_in g lay oh ow c kr kc d : In d (map fst (conv_tap g lay oh ow c kr kc)) ->
  d = ((oh * g_ow g + ow) * pow2_for (g_patch g) + (c * g_kh g * g_kw g + kr * g_kw g + kc))%nat.
Proof.
  unfold conv_tap. cbv zeta. destruct (_ || _); [easy|]. destruct (_ || _); [easy|]. cbn. intuition.
Qed.
Lemma conv_tap_nodup g lay oh ow c kr kc : NoDup (map fst (conv_tap g lay oh ow c kr kc)).
Proof.
  unfold conv_tap. cbv zeta. destruct (_ || _); [constructor|]. destruct (_ || _); repeat constructor. easy.
Qed.

Lemma taps_wiring g lay : im2col_taps g lay = conv_wiring g lay.
Proof. reflexivity. Qed.
Lemma wiring_taps g lay : conv_wiring g lay =
  flat_map (fun oh => flat_map (fun ow => flat_map (fun c => flat_map (fun kr => flat_map (fun kc => conv_tap g lay oh ow c kr kc)
    (seq 0 (g_kw g))) (seq 0 (g_kh g))) (seq 0 (g_cin g))) (seq 0 (g_ow g))) (seq 0 (g_oh g)).
Proof. reflexivity. Qed.

Ltac unfold_in H := repeat (let i := fresh "i" in let Hi := fresh "Hi" in
  apply in_flat_map in H; destruct H as (i & Hi & H); apply in_seq in Hi).

Lemma wiring_nodup g lay : NoDup (map fst (conv_wiring g lay)).
Proof.
  rewrite wiring_taps. rewrite map_flat_map. 
  rewrite (flat_map_ext _ (fun oh => flat_map (fun ow => flat_map (fun c => flat_map (fun kr => flat_map (fun kc => map fst (conv_tap g lay oh ow c kr kc))
    (seq 0 (g_kw g))) (seq 0 (g_kh g))) (seq 0 (g_cin g))) (seq 0 (g_ow g)))).
  2:{ intros oh. rewrite map_flat_map. apply flat_map_ext. intros ow. rewrite map_flat_map. apply flat_map_ext. intros c.
      rewrite map_flat_map. apply flat_map_ext. intros kr. now rewrite map_flat_map. }
  apply NoDup_flat_map; [apply seq_NoDup| |].
  - intros oh Hoh. apply NoDup_flat_map; [apply seq_NoDup| |].
    + intros ow How. apply in_seq in How. apply NoDup_flat_map; [apply seq_NoDup| |].
      * intros c Hc. apply in_seq in Hc. apply NoDup_flat_map; [apply seq_NoDup| |].
        -- intros kr Hkr. apply in_seq in Hkr. apply NoDup_flat_map; [apply seq_NoDup|intros; apply conv_tap_nodup|].
           intros kc kc' d H1 H2 D D'. apply in_seq in H1, H2. apply conv_tap_in in D, D'. rewrite D in D'. apply conv_dest_inj in D'; lia.
        -- intros kr kr' d H1 H2 D D'. apply in_seq in H1, H2. unfold_in D. unfold_in D'.
           apply conv_tap_in in D, D'. rewrite D in D'. apply conv_dest_inj in D'; lia.
      * intros c c' d H1 H2 D D'. apply in_seq in H1, H2. unfold_in D. unfold_in D'.
        apply conv_tap_in in D, D'. rewrite D in D'. apply conv_dest_inj in D'; lia.
    + intros ow ow' d H1 H2 D D'. apply in_seq in H1, H2. unfold_in D. unfold_in D'.
      apply conv_tap_in in D, D'. rewrite D in D'. apply conv_dest_inj in D'; lia.
  - intros oh oh' d H1 H2 D D'. apply in_seq in H1, H2. unfold_in D. unfold_in D'.
    apply conv_tap_in in D, D'. rewrite D in D'. apply conv_dest_inj in D'; lia.
Qed.

(** ** Pooling *)

Definition pool_dest (g : pool_geom) (q : nat * nat * nat) : nat := let '(ch, oh, ow) := q in ((oh * p_ow g + ow) * p_c g + ch)%nat.
Definition pool_src (g : pool_geom) (lay : layout) (q : nat * nat * nat) (i : nat) : nat :=
  let '(ch, oh, ow) := q in lindex lay ch (oh * p_sh g + i / p_w g) (ow * p_sw g + i mod p_w g)%nat.

Lemma pool_positions_in g ch oh ow : In (ch, oh, ow) (pool_positions g) <-> (ch < p_c g /\ oh < p_oh g /\ ow < p_ow g)%nat.
Proof.
  unfold pool_positions. rewrite in_flat_map. split.
  - intros (c & Hc & H). apply in_flat_map in H. destruct H as (h & Hh & H). apply in_map_iff in H. destruct H as (w & E & Hw).
    injection E as <- <- <-. apply in_seq in Hc, Hh, Hw. lia.
  - intros (H1 & H2 & H3). exists ch. split; [apply in_seq; lia|]. apply in_flat_map. exists oh. split; [apply in_seq; lia|].
    apply in_map_iff. exists ow. split; [reflexivity|apply in_seq; lia].
Qed.

Lemma pool_wiring_positions g lay i : pool_wiring g lay (i / p_w g) (i mod p_w g) = map (fun q => (pool_dest g q, pool_src g lay q i)) (pool_positions g).
Proof.
  unfold pool_wiring, pool_positions. rewrite map_flat_map. apply flat_map_ext. intros ch. rewrite map_flat_map. apply flat_map_ext. intros oh.
  rewrite map_map. reflexivity.
Qed.

Lemma pool_dest_inj g q q' : In q (pool_positions g) -> In q' (pool_positions g) -> pool_dest g q = pool_dest g q' -> q = q'.
Proof.
  destruct q as ((c, h), w), q' as ((c', h'), w'). rewrite !pool_positions_in. cbn [pool_dest]. intros H H' E.
  apply code_inj in E; try lia. destruct E as (E & ->). apply code_inj in E; try lia. destruct E as (-> & ->). reflexivity.
Qed.

Lemma NoDup_map_inj {A B} (f : A -> B) l : NoDup l -> (forall a b, In a l -> In b l -> f a = f b -> a = b) -> NoDup (map f l).
Proof.
  induction l as [|a l IH]; intros N H; [constructor|]. inversion N; subst. cbn. constructor.
  - intros I. apply in_map_iff in I. destruct I as (b & E & I). assert (a = b) by (apply H; auto; [now left|now right]). congruence.
  - apply IH; auto. intros. apply H; auto; now right.
Qed.

Lemma pool_nodup g : NoDup (map (pool_dest g) (pool_positions g)).
Proof.
  apply NoDup_map_inj; [|intros; now apply (pool_dest_inj g)].
  unfold pool_positions. apply NoDup_flat_map; [apply seq_NoDup| |].
  - intros ch _. apply NoDup_flat_map; [apply seq_NoDup| |].
    + intros oh _. apply NoDup_map_inj; [apply seq_NoDup|]. intros. congruence.
    + intros h h' x _ _ H H'. apply in_map_iff in H, H'. destruct H as (w & <- & _), H' as (w' & E & _). congruence.
  - intros c c' x _ _ H H'. apply in_flat_map in H, H'. destruct H as (h & _ & H), H' as (h' & _ & H').
    apply in_map_iff in H, H'. destruct H as (w & <- & _), H' as (w' & E & _). congruence.
Qed.

Lemma omap_some {A B} (f : A -> option B) l r : omap f l = Some r -> List.length r = List.length l /\
  forall i d d', (i < List.length l)%nat -> f (nth i l d) = Some (nth i r d').
Proof.
  revert r. induction l as [|a l IH]; cbn [omap]; intros r H.
  - injection H as <-. split; [reflexivity|]. cbn. lia.
  - inv_step H. inv_step H. injection H as <-. destruct (IH _ E0) as (L & A0). cbn. split; [lia|].
    intros [|i] d d' Hi; [exact E|]. apply A0. lia.
Qed.

Lemma for_each_ext {A S} (f g : A -> S -> option S) l : (forall a s, f a s = g a s) -> forall s, for_each l f s = for_each l g s.
Proof. intros H. induction l as [|a l IH]; intros s; [reflexivity|]. cbn. rewrite H. destruct (g a s); [cbn; apply IH|reflexivity]. Qed.

Section Loop.
Variables (A : Type) (dest : A -> nat) (src : A -> nat -> nat) (data : list Z) (size n : nat).
Definition loop_step (q : A) (st : list Z * list (list Z)) : option (list Z * list (list Z)) :=
  let* vals := omap (fun i => aget data (src q i)) (seq 0 n) in
  let* maxes := aset (fst st) (dest q) (fold_left Z.max vals (- 2 ^ 63)) in
  let* elems := omap (fun ev => aset (fst ev) (dest q) (snd ev)) (combine (snd st) vals) in
  Some (maxes, elems).

Lemma loop_inv ps : forall maxes elems,
  for_each ps loop_step (repeat 0 size, repeat (repeat 0 size) n) = Some (maxes, elems) -> NoDup (map dest ps) ->
  List.length maxes = size /\ List.length elems = n /\
  (forall i, (i < n)%nat -> gather (map (fun q => (dest q, src q i)) ps) data size = Some (nth i elems [])) /\
  (forall q, In q ps -> at_ maxes (dest q) = fold_left Z.max (map (fun i => at_ data (src q i)) (seq 0 n)) (- 2 ^ 63)) /\
  (forall d, ~ In d (map dest ps) -> at_ maxes d = 0).
Proof.
  induction ps as [|q ps IH] using rev_ind; intros maxes elems H ND.
  - cbn in H. injection H as <- <-. rewrite !repeat_length. do 2 (split; [reflexivity|]). split; [|split; [easy|]].
    + intros i Hi. cbn. f_equal. clear - Hi. revert i Hi. induction n as [|k IH]; intros i Hi; [lia|]. destruct i; [reflexivity|]. cbn. apply IH. lia.
    + intros d _. unfold at_. now rewrite nth_repeat.
  - rewrite for_each_app in H. inv_step H. destruct a as (mx, el). cbn [for_each] in H. inv_step H. injection H as ->.
    unfold loop_step in E0. cbn [fst snd] in E0. inv_step E0. rename a into vals, E1 into Ev. inv_step E0. rename a into mx', E1 into Em.
    inv_step E0. rename a into el', E1 into Ee. injection E0 as -> ->.
    rewrite map_app in ND. cbn [map] in ND. apply NoDup_remove in ND. rewrite app_nil_r in ND. destruct ND as (ND & N0).
    destruct (IH _ _ E ND) as (I1 & I2 & I3 & I4 & I5). clear IH E.
    apply aset_inv in Em. destruct Em as (M1 & M2 & M3).
    apply omap_some in Ev. rewrite seq_length in Ev. destruct Ev as (V1 & V2).
    apply omap_some in Ee. rewrite combine_length in Ee. destruct Ee as (E1 & E2).
    assert (Vals : vals = map (fun i => at_ data (src q i)) (seq 0 n)).
    { apply at_ext; [now rewrite map_length, seq_length|]. intros i Hi. rewrite at_map_seq by lia.
      specialize (V2 i 0%nat 0 ltac:(lia)). rewrite seq_nth in V2 by lia. apply aget_at in V2. symmetry. apply V2. }
    split; [lia|]. split; [lia|]. split; [|split].
    + intros i Hi. rewrite map_app. unfold gather. rewrite for_each_app. fold (gather (map (fun q => (dest q, src q i)) ps) data size).
      rewrite I3 by auto. cbn [obind map for_each fst snd]. specialize (V2 i 0%nat 0 Hi). rewrite seq_nth in V2 by lia. cbn [Nat.add] in V2.
      rewrite V2. cbn [obind]. specialize (E2 i ([], 0) [] ltac:(lia)). rewrite combine_nth in E2 by lia. cbn [fst snd] in E2.
      rewrite E2. reflexivity.
    + intros q' Hq. rewrite M3. apply in_app_or in Hq. destruct Hq as [Hq|[<-|[]]].
      * destruct (Nat.eqb_spec (dest q) (dest q')) as [E|_]; [|now apply I4]. exfalso. apply N0. rewrite E. now apply in_map.
      * rewrite Nat.eqb_refl. now rewrite Vals.
    + intros d Hd. rewrite map_app in Hd. rewrite M3. destruct (Nat.eqb_spec (dest q) d) as [<-|_].
      * exfalso. apply Hd. apply in_or_app. right. now left.
      * apply I5. intros F. apply Hd. apply in_or_app. now left.
Qed.
End Loop.

Lemma fold_max_attained l a : (forall v, In v l -> a <= v) -> l <> [] -> In (fold_left Z.max l a) l.
Proof.
  revert a. induction l as [|x l IH]; intros a H N; [congruence|]. cbn [fold_left].
  assert (Z.max a x = x) as -> by (specialize (H x (or_introl eq_refl)); lia).
  destruct l as [|y l]; [now left|].
  assert (G : forall l b, fold_left Z.max l b = b \/ In (fold_left Z.max l b) l).
  { clear. induction l as [|y l IH]; intros b; [now left|]. cbn [fold_left]. destruct (IH (Z.max b y)) as [E|E]; [|right; now right].
    rewrite E. destruct (Z.max_spec b y) as [(_ & ->)|(_ & ->)]; [right; now left|now left]. }
  destruct (G (y :: l) x) as [->|E]; [now left|now right].
Qed.
