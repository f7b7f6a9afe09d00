(** General facts about the two readings of a gadget program. *)
From Coq Require Import ZArith List Bool Lia Znumtheory.
From Verif Require Import Model.Builder.
Import ListNotations.
Local Open Scope Z_scope.

Lemma accepts_bind A B p T (m : prog A) (f : A -> prog B) b :
  accepts p T (bind m f) b <-> exists a, accepts p T m a /\ accepts p T (f a) b.
Proof.
  induction m as [a|cd|h ins n k IH|x y k IH|t row k IH]; cbn.
  - split; [intros H; exists a; auto | intros (a' & -> & H); exact H].
  - split; [intros [] | intros (a & [] & _)].
  - split.
    + intros (outs & Hl & Hf & H). apply IH in H as (a & H1 & H2).
      exists a. split; [exists outs; auto | exact H2].
    + intros (a & (outs & Hl & Hf & H1) & H2).
      exists outs. repeat split; auto. apply IH. exists a; auto.
  - rewrite IH. split.
    + intros (Hx & a & H1 & H2). exists a; auto.
    + intros (a & (Hx & H1) & H2). split; [auto | exists a; auto].
  - rewrite IH. split.
    + intros (Hx & a & H1 & H2). exists a; auto.
    + intros (a & (Hx & H1) & H2). split; [auto | exists a; auto].
Qed.

Lemma run_bind A B H Tb (m : prog A) (f : A -> prog B) :
  run H Tb (bind m f) = match run H Tb m with Some a => run H Tb (f a) | None => None end.
Proof.
  induction m as [a|cd|h ins n k IH|x y k IH|t row k IH]; cbn; auto.
  - destruct (H h ins n) as [outs|]; auto. destruct (length outs =? n)%nat; auto.
  - destruct (x =? y); auto.
  - destruct (Tb t row); auto.
Qed.

Lemma accepts_hint1 p T h ins v : accepts p T (hint1 h ins) v <-> 0 <= v < p.
Proof.
  unfold hint1. cbn. split.
  - intros (outs & Hl & Hf & <-). destruct outs as [|o [|]]; try discriminate.
    inversion Hf; subst. exact H1.
  - intros Hv. exists [v]. repeat split; auto; constructor; auto.
Qed.

Lemma accepts_hintn p T h ins n vs :
  accepts p T (hintn h ins n) vs <-> length vs = n /\ Forall (fun v => 0 <= v < p) vs.
Proof.
  unfold hintn. cbn. split.
  - intros (outs & Hl & Hf & <-). auto.
  - intros (Hl & Hf). exists vs; auto.
Qed.

Lemma accepts_assert_eq p T x y u : accepts p T (assert_eq x y) u <-> x = y.
Proof. destruct u. cbn. intuition. Qed.

Lemma accepts_assert_zero p T x u : accepts p T (assert_zero x) u <-> x = 0.
Proof. destruct u. cbn. intuition. Qed.

Lemma accepts_lookup p T t row u : accepts p T (lookup t row) u <-> T t row.
Proof. destruct u. cbn. intuition. Qed.

Lemma accepts_ret A p T (a b : A) : accepts p T (Ret a) b <-> a = b.
Proof. cbn. reflexivity. Qed.

Lemma mod_small_iff p x : 0 < p -> 0 <= x mod p < p.
Proof. intros. apply Z.mod_pos_bound; auto. Qed.

Lemma accepts_assert_bool p T b u : prime p -> 0 <= b < p ->
  accepts p T (assert_bool p b) u <-> b = 0 \/ b = 1.
Proof.
  intros Hp Hb. pose proof (prime_ge_2 _ Hp). destruct u. unfold assert_bool, mul, sub. cbn.
  rewrite Zmult_mod_idemp_r. split.
  - intros (H0 & _). apply Z.mod_divide in H0; [|lia].
    apply prime_mult in H0; auto. destruct H0 as [H0|H0].
    + left. apply Z.mod_divide in H0; [|lia]. rewrite Z.mod_small in H0; lia.
    + right. destruct H0 as (k & Hk). assert (k = 0) by nia. lia.
  - intros [->| ->]; cbn; split; auto.
Qed.

Lemma accepts_forM A p T (f : A -> prog unit) l u :
  accepts p T (forM f l) u <-> Forall (fun a => accepts p T (f a) tt) l.
Proof.
  destruct u. induction l as [|a l IH]; cbn.
  - split; auto.
  - rewrite accepts_bind. split.
    + intros ([] & H1 & H2). constructor; auto. apply IH; auto.
    + intros H. inversion H; subst. exists tt. split; auto. apply IH; auto.
Qed.

Lemma accepts_mapM A B p T (f : A -> prog B) l bs :
  accepts p T (mapM f l) bs <-> Forall2 (fun a b => accepts p T (f a) b) l bs.
Proof.
  revert bs. induction l as [|a l IH]; intros bs; cbn.
  - split; [intros <-; constructor | intros H; inversion H; auto].
  - rewrite accepts_bind. split.
    + intros (b & H1 & H2). rewrite accepts_bind in H2. destruct H2 as (bs' & H2 & H3).
      cbn in H3. subst bs. constructor; auto. apply IH; auto.
    + intros H. inversion H; subst. exists y. split; auto.
      rewrite accepts_bind. exists l'. split; [apply IH; auto | reflexivity].
Qed.

(** An honest run is an accepting assignment, provided the hint functions
    return field elements and the boolean table test is sound. *)
Lemma run_accepts A p H Tb (T : tableid -> list Z -> Prop) (m : prog A) a :
  (forall h ins n outs, H h ins n = Some outs -> Forall (fun v => 0 <= v < p) outs) ->
  (forall t row, Tb t row = true -> T t row) ->
  run H Tb m = Some a -> accepts p T m a.
Proof.
  intros HH HT. induction m as [b|cd|h ins n k IH|x y k IH|t row k IH]; cbn; intros E.
  - congruence.
  - discriminate.
  - destruct (H h ins n) as [outs|] eqn:Eh; [|discriminate].
    destruct (Nat.eqb_spec (length outs) n); [|discriminate].
    exists outs. repeat split; auto. eapply HH; eauto.
  - destruct (Z.eqb_spec x y); [|discriminate]. auto.
  - destruct (Tb t row) eqn:Et; [|discriminate]. auto.
Qed.

Lemma run_mapM A B H Tb (f : A -> prog B) (g : A -> B) l :
  (forall a, In a l -> run H Tb (f a) = Some (g a)) ->
  run H Tb (mapM f l) = Some (map g l).
Proof.
  induction l as [|a l IH]; cbn; intros Hf; auto.
  rewrite run_bind, Hf by auto. rewrite run_bind, IH by auto. reflexivity.
Qed.

(** Turning acceptance of composite programs into existentials. *)
Ltac acc_step :=
  match goal with
  | H : accepts _ _ (bind _ _) _ |- _ =>
      let a := fresh "a" in let H1 := fresh "Ha" in let H2 := fresh "Hk" in
      apply accepts_bind in H; destruct H as (a & H1 & H2)
  end.
