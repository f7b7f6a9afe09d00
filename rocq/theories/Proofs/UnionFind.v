From Coq Require Import List Arith Lia Bool.
From Verif Require Import Base.Array Spec.Containers Model.Containers.
Import ListNotations.

(** [path p x k r]: from [x], following parents, [k] steps reach the root [r]. *)
Inductive path (p : list nat) : nat -> nat -> nat -> Prop :=
| path_root x : nth_error p x = Some x -> path p x 0 x
| path_step x y k r : nth_error p x = Some y -> y <> x -> path p y k r -> path p x (S k) r.

Lemma path_det p x k r : path p x k r -> forall k' r', path p x k' r' -> k = k' /\ r = r'.
Proof.
  induction 1 as [x E|x y k r E N P IH]; intros k' r' P'; inversion P'; subst; try congruence; auto.
  replace y0 with y in * by congruence. destruct (IH _ _ H1) as (-> & ->). auto.
Qed.
Lemma path_is_root p x k r : path p x k r -> nth_error p r = Some r.
Proof. induction 1; auto. Qed.
Lemma path_dom p x k r : path p x k r -> x < length p.
Proof. intros H. inversion H; subst; apply nth_error_Some; congruence. Qed.

Definition nonroots (p : list nat) : nat :=
  length (filter (fun i => negb (match nth_error p i with Some y => y =? i | None => false end)) (seq 0 (length p))).

Definition wf (p : list nat) : Prop :=
  forall x, x < length p -> exists k r, path p x k r /\ k <= nonroots p.

Lemma nonroots_le p : nonroots p <= length p.
Proof.
  unfold nonroots. rewrite <- (seq_length (length p) 0) at 2. generalize (seq 0 (length p)). intros l.
  induction l as [|a l IH]; cbn; [lia|]. destruct (negb _); cbn; lia.
Qed.

(** Two forests with the same roots have the same number of non-roots. *)
Lemma nonroots_same p q : length p = length q ->
  (forall i, nth_error p i = Some i <-> nth_error q i = Some i) -> nonroots p = nonroots q.
Proof.
  intros L H. unfold nonroots. rewrite L. f_equal. apply filter_ext_in. intros i Hi. apply in_seq in Hi. f_equal.
  destruct (nth_error p i) as [a|] eqn:E; [|apply nth_error_None in E; lia].
  destruct (nth_error q i) as [b|] eqn:E2; [|apply nth_error_None in E2; lia].
  specialize (H i). rewrite E, E2 in H.
  destruct (Nat.eqb_spec a i) as [->|N], (Nat.eqb_spec b i) as [->|N2]; auto.
  - exfalso. apply N2. assert (X : Some b = Some i) by (apply H; reflexivity). congruence.
  - exfalso. apply N. assert (X : Some a = Some i) by (apply H; reflexivity). congruence.
Qed.

Lemma filter_one {A} (f g : A -> bool) a l : NoDup l -> In a l -> f a = false -> g a = true ->
  (forall b, b <> a -> f b = g b) -> length (filter g l) = S (length (filter f l)).
Proof.
  induction l as [|b l IH]; intros ND I Fa Ga H; [destruct I|]. inversion ND; subst. cbn.
  destruct I as [->|I].
  - rewrite Fa, Ga. cbn. f_equal. f_equal. apply filter_ext_in. intros c Ic. symmetry. apply H. intros ->. contradiction.
  - rewrite (H b) by (intros ->; contradiction). destruct (g b); cbn; rewrite (IH H3 I Fa Ga H); auto.
Qed.

(** ** Path halving *)
Lemma halve_path p x y w p' : nth_error p x = Some y -> y <> x -> nth_error p y = Some w ->
  aset p x w = Some p' -> (forall z, z < length p -> exists k r, path p z k r) ->
  length p' = length p /\ (forall i, nth_error p i = Some i <-> nth_error p' i = Some i) /\
  (forall z k r, path p z k r -> exists k', k' <= k /\ path p' z k' r) /\
  (forall k r, path p x (S k) r -> exists k', k' <= k /\ path p' w k' r).
Proof.
  intros Ex N Ey Es W.
  assert (Lx : x < length p) by (apply nth_error_Some; congruence).
  destruct (aset_some p x w Lx) as (q & E & Lq & Nq). rewrite E in Es. injection Es as <-.
  assert (Wx : w <> x).
  { intros ->. destruct (W x Lx) as (k & r & P). pose proof P as P'. inversion P as [|x0 y0 k0 r0 E0 N0 P0]; subst; [congruence|].
    replace y0 with y in * by congruence. inversion P0 as [|x1 y1 k1 r1 E1 N1 P1]; subst; [congruence|].
    replace y1 with x in * by congruence. destruct (path_det _ _ _ _ P' _ _ P1). lia. }
  assert (R : forall i, nth_error p i = Some i <-> nth_error q i = Some i).
  { intros i. rewrite Nq. destruct (Nat.eqb_spec i x) as [->|]; [|tauto]. split; intros X; congruence. }
  assert (Pz : forall k z r, path p z k r -> exists k', k' <= k /\ path q z k' r).
  { intros k. induction k as [k IH] using (well_founded_induction lt_wf). intros z r P.
    inversion P as [x0 E0|x0 y0 k0 r0 E0 N0 P0]; subst.
    - exists 0. split; [lia|]. apply path_root. now apply R.
    - destruct (Nat.eq_dec z x) as [->|Nz].
      + replace y0 with y in * by congruence. inversion P0 as [x1 E1|x1 y1 k1 r1 E1 N1 P1]; subst.
        * (* y is a root *) replace w with r in * by congruence. exists 1. split; [lia|]. apply path_step with r.
          -- rewrite Nq, Nat.eqb_refl. reflexivity.
          -- auto.
          -- apply path_root. now apply R.
        * replace y1 with w in * by congruence. destruct (IH k1 ltac:(lia) w r P1) as (k' & Hk & P'). exists (S k'). split; [lia|].
          apply path_step with w; auto. rewrite Nq, Nat.eqb_refl. reflexivity.
      + destruct (IH k0 ltac:(lia) y0 r P0) as (k' & Hk & P'). exists (S k'). split; [lia|]. apply path_step with y0; auto.
        rewrite Nq. destruct (Nat.eqb_spec z x); [contradiction|auto]. }
  split; [auto|]. split; [auto|]. split; [intros z k r; apply Pz|].
  intros k r P. inversion P as [|x0 y0 k0 r0 E0 N0 P0]; subst. replace y0 with y in * by congruence.
  inversion P0 as [x1 E1|x1 y1 k1 r1 E1 N1 P1]; subst.
  - replace w with r in * by congruence. exists 0. split; [lia|]. apply path_root. now apply R.
  - replace y1 with w in * by congruence. destruct (Pz _ _ _ P1) as (k' & Hk & P'). exists k'. split; [lia|auto].
Qed.

(** [q] answers like [p]. *)
Definition same (p q : list nat) : Prop :=
  length q = length p /\ wf q /\ nonroots q = nonroots p /\
  forall z k r, path p z k r -> exists k', k' <= k /\ path q z k' r.

Lemma same_refl p : wf p -> same p p.
Proof. intros W. split; [auto|]. split; [auto|]. split; [auto|]. intros z k r P. exists k. auto. Qed.
Lemma same_trans p q t : same p q -> same q t -> same p t.
Proof.
  intros (L1 & W1 & N1 & P1) (L2 & W2 & N2 & P2). split; [congruence|]. split; [auto|]. split; [congruence|].
  intros z k r P. destruct (P1 _ _ _ P) as (k1 & H1 & Q1). destruct (P2 _ _ _ Q1) as (k2 & H2 & Q2). exists k2. split; [lia|auto].
Qed.

Lemma find_loop_ok fuel : forall p x k r, wf p -> path p x k r -> k <= fuel ->
  exists q, uf_find_loop fuel p x = Some (q, r) /\ same p q.
Proof.
  induction fuel as [|f IH]; intros p x k r W P Hk.
  - inversion P; subst; [|lia]. cbn. unfold aget. rewrite H. cbn. rewrite Nat.eqb_refl. eauto using same_refl.
  - inversion P as [x0 E|x0 y k0 r0 E N P1]; subst; cbn [uf_find_loop]; unfold aget; rewrite E; cbn [obind].
    + rewrite Nat.eqb_refl. eauto using same_refl.
    + destruct (Nat.eqb_spec y x) as [|_]; [contradiction|].
      assert (Ly : exists w, nth_error p y = Some w) by (inversion P1; subst; eauto).
      destruct Ly as (w & Ey). rewrite Ey. cbn [obind].
      assert (Lx : x < length p) by (apply nth_error_Some; congruence).
      destruct (aset_some p x w Lx) as (q & Es & Lq & Nq). rewrite Es. cbn [obind]. rewrite Nq, Nat.eqb_refl. cbn [obind].
      destruct (halve_path p x y w q E N Ey Es) as (_ & R & Pz & Pw).
      { intros z Hz. destruct (W z Hz) as (kz & rz & Pz & _). eauto. }
      assert (NR : nonroots q = nonroots p) by (symmetry; apply nonroots_same; auto).
      assert (Wq : wf q).
      { intros z Hz. rewrite Lq in Hz. destruct (W z Hz) as (kz & rz & Pz1 & Hkz). destruct (Pz _ _ _ Pz1) as (k' & Hk' & Pq).
        exists k', rz. split; [auto|lia]. }
      destruct (Pw _ _ P) as (k' & Hk' & P').
      destruct (IH q w k' r Wq P' ltac:(lia)) as (t & Et & St). exists t. split; [exact Et|].
      apply same_trans with q; auto. split; [auto|]. split; [auto|]. split; [auto|]. exact Pz.
Qed.

Lemma find_ok p x : wf p -> x < length p -> exists q r k, uf_find p x = Some (q, r) /\ same p q /\ path p x k r.
Proof.
  intros W Hx. destruct (W x Hx) as (k & r & P & Hk).
  destruct (find_loop_ok (length p) p x k r W P) as (q & E & S); [pose proof (nonroots_le p); lia|]. exists q, r, k. auto.
Qed.


(** ** Union of two roots *)
Lemma link_ok p x y q : wf p -> nth_error p x = Some x -> nth_error p y = Some y -> aset p x y = Some q ->
  length q = length p /\ wf q /\
  forall z k r, path p z k r -> exists k', path q z k' (if r =? x then y else r).
Proof.
  intros W Rx Ry Es. assert (Lx : x < length p) by (apply nth_error_Some; congruence).
  destruct (aset_some p x y Lx) as (q' & E & Lq & Nq). rewrite E in Es. injection Es as <-.
  destruct (Nat.eq_dec x y) as [->|N].
  - (* nothing changes *)
    assert (Eq : q' = p).
    { apply nth_error_ext'. intros i. rewrite Nq. destruct (Nat.eqb_spec i y) as [->|]; auto. }
    subst q'. split; [auto|]. split; [auto|]. intros z k r P. exists k. destruct (Nat.eqb_spec r y) as [->|]; auto.
  - assert (NR : nonroots q' = S (nonroots p)).
    { unfold nonroots. rewrite Lq. apply filter_one with x.
      - apply seq_NoDup.
      - apply in_seq. lia.
      - rewrite Rx, Nat.eqb_refl. reflexivity.
      - rewrite Nq, Nat.eqb_refl. destruct (Nat.eqb_spec y x); [congruence|reflexivity].
      - intros b Hb. rewrite Nq. destruct (Nat.eqb_spec b x); [contradiction|reflexivity]. }
    assert (Pz : forall z k r, path p z k r -> if r =? x then path q' z (S k) y else path q' z k r).
    { induction 1 as [z Ez|z w k r Ez Nz P IH].
      - destruct (Nat.eqb_spec z x) as [->|Nz].
        + apply path_step with y; [rewrite Nq, Nat.eqb_refl; reflexivity|auto|]. apply path_root.
          rewrite Nq. destruct (Nat.eqb_spec y x); [congruence|auto].
        + apply path_root. rewrite Nq. destruct (Nat.eqb_spec z x); [contradiction|auto].
      - assert (Zx : z <> x) by (intros ->; congruence).
        assert (Eq : nth_error q' z = Some w) by (rewrite Nq; destruct (Nat.eqb_spec z x); [contradiction|auto]).
        destruct (Nat.eqb_spec r x); apply path_step with w; auto. }
    split; [auto|]. split.
    + intros z Hz. rewrite Lq in Hz. destruct (W z Hz) as (k & r & P & Hk). specialize (Pz _ _ _ P).
      destruct (r =? x); [exists (S k), y | exists k, r]; split; auto; lia.
    + intros z k r P. specialize (Pz _ _ _ P). destruct (r =? x); eauto.
Qed.

(** ** Histories *)
Definition uf_step (o : uf_op) (p : list nat) : option (list nat) :=
  match o with
  | Union a b => uf_union p a b
  | Find a => let* (p, _) := uf_find p a in Some p
  end.
Definition uf_run (n : nat) (ops : list uf_op) : option (list nat) := for_each ops uf_step (uf_new n).

(** The forest [p] represents the relation [R]. *)
Definition represents (n : nat) (p : list nat) (R : nat -> nat -> Prop) : Prop :=
  length p = n /\ wf p /\
  forall a b ka ra kb rb, path p a ka ra -> path p b kb rb -> (ra = rb <-> R a b).

Lemma represents_same n p q R : represents n p R -> same p q -> represents n q R.
Proof.
  intros (L & W & H) (L2 & W2 & N2 & P2). split; [congruence|]. split; [auto|].
  intros a b ka ra kb rb Pa Pb.
  assert (Ha : a < length p) by (rewrite <- L2; eapply path_dom; eauto).
  assert (Hb : b < length p) by (rewrite <- L2; eapply path_dom; eauto).
  destruct (W a Ha) as (k1 & r1 & P1 & _). destruct (W b Hb) as (k3 & r3 & P3 & _).
  destruct (P2 _ _ _ P1) as (k1' & _ & Q1). destruct (P2 _ _ _ P3) as (k3' & _ & Q3).
  destruct (path_det _ _ _ _ Pa _ _ Q1) as (_ & ->). destruct (path_det _ _ _ _ Pb _ _ Q3) as (_ & ->). eauto.
Qed.

Lemma connected_app pairs a b x y : connected (pairs ++ [(x, y)]) a b <->
  connected pairs a b \/ (connected pairs a x /\ connected pairs y b) \/ (connected pairs a y /\ connected pairs x b).
Proof.
  split.
  - induction 1 as [a b I|a|a b C IH|a b c C1 IH1 C2 IH2].
    + apply in_app_or in I. destruct I as [I|[E|[]]]; [left; now apply conn_pair|]. injection E as -> ->. right. left. split; apply conn_refl.
    + left. apply conn_refl.
    + destruct IH as [H|[(H1 & H2)|(H1 & H2)]]; [left; now apply conn_sym|right; right|right; left]; split; now apply conn_sym.
    + destruct IH1 as [H|[(H1 & H2)|(H1 & H2)]], IH2 as [K|[(K1 & K2)|(K1 & K2)]].
      * left. eapply conn_trans; eauto.
      * right. left. split; auto. eapply conn_trans; eauto.
      * right. right. split; auto. eapply conn_trans; eauto.
      * right. left. split; auto. eapply conn_trans; eauto.
      * right. left. split; auto.
      * left. eapply conn_trans; eauto.
      * right. right. split; auto. eapply conn_trans; eauto.
      * left. eapply conn_trans; eauto.
      * right. right. split; auto.
  - assert (M : forall a b, connected pairs a b -> connected (pairs ++ [(x, y)]) a b).
    { induction 1; [apply conn_pair, in_or_app; auto|apply conn_refl|now apply conn_sym|eapply conn_trans; eauto]. }
    assert (X : connected (pairs ++ [(x, y)]) x y) by (apply conn_pair, in_or_app; right; now left).
    intros [H|[(H1 & H2)|(H1 & H2)]]; [auto| |].
    + eapply conn_trans; [apply M; eauto|]. eapply conn_trans; [exact X|]. auto.
    + eapply conn_trans; [apply M; eauto|]. eapply conn_trans; [apply conn_sym; exact X|]. auto.
Qed.

Lemma union_ok n p pairs x y : represents n p (connected pairs) -> x < n -> y < n ->
  exists q, uf_union p x y = Some q /\ represents n q (connected (pairs ++ [(x, y)])).
Proof.
  intros Rp Hx Hy. pose proof Rp as (L & W & H).
  destruct (find_ok p x W ltac:(lia)) as (p1 & rx & kx & E1 & S1 & Px). unfold uf_union. rewrite E1. cbn [obind].
  pose proof (represents_same _ _ _ _ Rp S1) as R1. pose proof R1 as (L1 & W1 & H1).
  destruct (find_ok p1 y W1 ltac:(lia)) as (p2 & ry & ky & E2 & S2 & Py). rewrite E2. cbn [obind].
  pose proof (represents_same _ _ _ _ R1 S2) as R2. pose proof R2 as (L2 & W2 & H2).
  destruct S1 as (_ & _ & _ & Q1). destruct (Q1 _ _ _ Px) as (kx1 & _ & Px1).
  destruct S2 as (_ & _ & _ & Q2). destruct (Q2 _ _ _ Px1) as (kx2 & _ & Px2). destruct (Q2 _ _ _ Py) as (ky2 & _ & Py2).
  pose proof (path_is_root _ _ _ _ Px2) as Rx. pose proof (path_is_root _ _ _ _ Py2) as Ry.
  assert (Lrx : rx < length p2) by (apply nth_error_Some; congruence).
  destruct (aset_some p2 rx ry Lrx) as (q & Es & _). rewrite Es. exists q. split; [reflexivity|].
  destruct (link_ok p2 rx ry q W2 Rx Ry Es) as (Lq & Wq & Pq). split; [congruence|]. split; [auto|].
  intros a b ka ra kb rb Pa Pb.
  assert (Ha : a < length p2) by (rewrite <- Lq; eapply path_dom; eauto).
  assert (Hb : b < length p2) by (rewrite <- Lq; eapply path_dom; eauto).
  destruct (W2 a Ha) as (k1 & r1 & P1 & _). destruct (W2 b Hb) as (k3 & r3 & P3 & _).
  destruct (Pq _ _ _ P1) as (k1' & Q1'). destruct (Pq _ _ _ P3) as (k3' & Q3').
  destruct (path_det _ _ _ _ Pa _ _ Q1') as (_ & ->). destruct (path_det _ _ _ _ Pb _ _ Q3') as (_ & ->).
  rewrite connected_app, <- (H2 _ _ _ _ _ _ P1 P3), <- (H2 _ _ _ _ _ _ P1 Px2), <- (H2 _ _ _ _ _ _ Py2 P3),
    <- (H2 _ _ _ _ _ _ P1 Py2), <- (H2 _ _ _ _ _ _ Px2 P3).
  destruct (Nat.eqb_spec r1 rx), (Nat.eqb_spec r3 rx); subst; intuition congruence.
Qed.

Lemma new_ok n : represents n (uf_new n) (connected []).
Proof.
  unfold uf_new.
  assert (R : forall z, z < n -> nth_error (seq 0 n) z = Some z).
  { intros z Hz. rewrite (nth_error_nth' _ 0) by (rewrite seq_length; auto). rewrite seq_nth by auto. reflexivity. }
  assert (P : forall z k r, path (seq 0 n) z k r -> r = z).
  { intros z k r P. inversion P; subst; auto.
    assert (z < length (seq 0 n)) by (apply nth_error_Some; congruence). rewrite seq_length in H2. rewrite R in H by auto. congruence. }
  split; [apply seq_length|]. split.
  - intros z Hz. rewrite seq_length in Hz. exists 0, z. split; [apply path_root; auto|lia].
  - intros a b ka ra kb rb Pa Pb. apply P in Pa. apply P in Pb. subst. split; [intros ->; apply conn_refl|].
    induction 1; auto; [destruct H|congruence].
Qed.

Lemma run_ok n ops : Forall (op_in_range n) ops ->
  exists p, uf_run n ops = Some p /\ represents n p (connected (united ops)).
Proof.
  unfold uf_run. rewrite <- (app_nil_l (united ops)). generalize (new_ok n). generalize (uf_new n) (@nil (nat * nat)).
  induction ops as [|o ops IH]; intros p pairs Rp F; cbn [for_each united flat_map].
  - rewrite app_nil_r. eauto.
  - inversion F; subst. fold (united ops). destruct o as [a b|a]; cbn [uf_step] in *.
    + destruct H1 as (Ha & Hb). destruct (union_ok n p pairs a b Rp Ha Hb) as (q & -> & Rq). cbn [obind].
      rewrite app_assoc. apply IH; auto.
    + cbn in H1. pose proof Rp as (L & W & _). destruct (find_ok p a W ltac:(lia)) as (q & r & k & -> & S & _). cbn [obind].
      apply IH; auto. eapply represents_same; eauto.
Qed.

(** C57: after any history, two elements have the same representative exactly when
    they are connected by the unions made. *)
Theorem union_find_ok n ops a b : Forall (op_in_range n) ops -> a < n -> b < n ->
  exists p pa ra pb rb, uf_run n ops = Some p /\ uf_find p a = Some (pa, ra) /\ uf_find p b = Some (pb, rb) /\
    (ra = rb <-> connected (united ops) a b).
Proof.
  intros F Ha Hb. destruct (run_ok n ops F) as (p & E & L & W & H).
  destruct (find_ok p a W ltac:(lia)) as (pa & ra & ka & Ea & _ & Pa).
  destruct (find_ok p b W ltac:(lia)) as (pb & rb & kb & Eb & _ & Pb).
  exists p, pa, ra, pb, rb. split; [auto|]. split; [auto|]. split; [auto|]. eauto.
Qed.

(** The representative is itself a member of the class, and a fixed point. *)
Theorem union_find_rep n ops a : Forall (op_in_range n) ops -> a < n ->
  exists p pa ra, uf_run n ops = Some p /\ uf_find p a = Some (pa, ra) /\ ra < n /\
    connected (united ops) a ra /\ (exists pr, uf_find pa ra = Some (pr, ra)).
Proof.
  intros F Ha. destruct (run_ok n ops F) as (p & E & Rp). pose proof Rp as (L & W & H).
  destruct (find_ok p a W ltac:(lia)) as (pa & ra & ka & Ea & Sa & Pa).
  pose proof (path_is_root _ _ _ _ Pa) as Rr. assert (Hr : ra < length p) by (apply nth_error_Some; congruence).
  exists p, pa, ra. split; [auto|]. split; [auto|]. split; [lia|]. split.
  - apply (H a ra ka ra 0 ra); auto. now apply path_root.
  - pose proof (represents_same _ _ _ _ Rp Sa) as (La & Wa & Hra).
    destruct (find_ok pa ra Wa ltac:(lia)) as (pr & rr & kr & Er & _ & Pr).
    destruct Sa as (_ & _ & _ & Q). destruct (Q _ _ _ (path_root _ _ Rr)) as (k' & _ & P').
    destruct (path_det _ _ _ _ P' _ _ Pr) as (_ & ->). eauto.
Qed.
