(** Univariate polynomials over an abstract field, as coefficient lists, and
    the bound on the number of roots.  Mathematical support only. *)
From Coq Require Import List Lia Arith Ring Field.
From Verif Require Import Base.Field.
Import ListNotations.

Section Poly.
Variable K : field.
Add Field Kfield : (fth K).
Local Open Scope fld_scope.

(** Evaluation of a coefficient list (lowest degree first). *)
Fixpoint peval (f : list K) (x : K) : K :=
  match f with [] => 0 | a :: r => a + x * peval r x end.

Definition pzero (f : list K) : Prop := Forall (fun a => a = 0) f.

Lemma peval_pzero f x : pzero f -> peval f x = 0.
Proof. induction 1 as [|a l Ha Hl IH]; cbn; [reflexivity|]. rewrite Ha, IH. ring. Qed.

(** Synthetic division by [x - r]. *)
Fixpoint pquot (f : list K) (r : K) : list K :=
  match f with
  | [] => []
  | _ :: l => match l with [] => [] | _ => peval l r :: pquot l r end
  end.

Lemma pquot_length f r : length (pquot f r) = pred (length f).
Proof.
  induction f as [|a l IH]; cbn [pquot length]; [reflexivity|].
  destruct l as [|b l']; [reflexivity|].
  change (length (peval (b :: l') r :: pquot (b :: l') r)) with (S (length (pquot (b :: l') r))).
  rewrite IH. reflexivity.
Qed.

Lemma pquot_spec f r x : peval f x = peval f r + (x - r) * peval (pquot f r) x.
Proof.
  induction f as [|a l IH]; [cbn; ring|].
  destruct l as [|b l'].
  - cbn. ring.
  - remember (b :: l') as l.
    assert (E : pquot (a :: l) r = peval l r :: pquot l r) by (rewrite Heql; reflexivity).
    rewrite E. cbn [peval]. rewrite IH. ring.
Qed.

Lemma pquot_zero f r : pzero (pquot f r) -> peval f r = 0 -> pzero f.
Proof.
  induction f as [|a l IH]; intros Hq Hr; [constructor|].
  destruct l as [|b l'].
  - cbn in Hr. constructor; [|constructor]. rewrite <- Hr. ring.
  - remember (b :: l') as l.
    assert (E : pquot (a :: l) r = peval l r :: pquot l r) by (rewrite Heql; reflexivity).
    rewrite E in Hq. inversion Hq as [|h t Hh Ht]; subst h t.
    assert (Hl : pzero l) by (apply IH; assumption).
    constructor; [|exact Hl].
    cbn [peval] in Hr. rewrite Hh in Hr. rewrite <- Hr. ring.
Qed.

(** A nonzero polynomial with [n] coefficients has fewer than [n] roots. *)
Theorem roots_bound f rs :
  ~ pzero f -> NoDup rs -> (forall r, In r rs -> peval f r = 0) ->
  (length rs < length f)%nat.
Proof.
  revert f. induction rs as [|r rs IH]; intros f Hnz Hnd Hroots.
  - destruct f; cbn; [|lia]. exfalso. apply Hnz. constructor.
  - inversion Hnd as [|? ? Hnin Hnd']; subst.
    assert (Hr : peval f r = 0) by (apply Hroots; now left).
    assert (Hq : ~ pzero (pquot f r)) by (intros H; apply Hnz; now apply pquot_zero with r).
    specialize (IH (pquot f r) Hq Hnd').
    rewrite pquot_length in IH.
    assert (L : (length rs < pred (length f))%nat).
    { apply IH. intros s Hs.
      assert (Hs0 : peval f s = 0) by (apply Hroots; now right).
      rewrite (pquot_spec f r s), Hr in Hs0.
      assert (Hs1 : (s - r) * peval (pquot f r) s = 0) by (rewrite <- Hs0; ring).
      apply fmul_integral in Hs1 as [Hs1|Hs1]; [|exact Hs1].
      apply (proj1 (fsub_eq _ _ _)) in Hs1. subst. contradiction. }
    cbn [length]. lia.
Qed.

(** Polynomial arithmetic on coefficient lists. *)
Fixpoint padd (f g : list K) : list K :=
  match f, g with
  | [], _ => g
  | _, [] => f
  | a :: f', b :: g' => (a + b) :: padd f' g'
  end.

Fixpoint pscale (c : K) (f : list K) : list K :=
  match f with [] => [] | a :: r => c * a :: pscale c r end.

Lemma pscale_length c f : length (pscale c f) = length f.
Proof. induction f; cbn; congruence. Qed.

Fixpoint pmul (f g : list K) : list K :=
  match f with
  | [] => []
  | a :: f' => padd (pscale a g) (0 :: pmul f' g)
  end.

Lemma padd_eval f g x : peval (padd f g) x = peval f x + peval g x.
Proof.
  revert g. induction f as [|a f IH]; intros [|b g]; cbn; try ring.
  rewrite IH. ring.
Qed.

Lemma pscale_eval c f x : peval (pscale c f) x = c * peval f x.
Proof. induction f as [|a f IH]; cbn; [ring|]. rewrite IH. ring. Qed.

Lemma pmul_eval f g x : peval (pmul f g) x = peval f x * peval g x.
Proof.
  induction f as [|a f IH]; cbn; [ring|].
  rewrite padd_eval, pscale_eval. cbn. rewrite IH. ring.
Qed.

Lemma padd_length f g : length (padd f g) = Nat.max (length f) (length g).
Proof.
  revert g. induction f as [|a f IH]; intros [|b g]; cbn; try lia. now rewrite IH.
Qed.

Lemma pmul_length f g : (length (pmul f g) <= length f + length g)%nat.
Proof.
  induction f as [|a f IH]; cbn; [lia|].
  rewrite padd_length. rewrite pscale_length. cbn. lia.
Qed.

(** [polyfn n f]: the function [f] is given by a polynomial of degree at most [n]. *)
Definition polyfn (n : nat) (f : K -> K) : Prop :=
  exists l, (length l <= S n)%nat /\ forall x, f x = peval l x.

Lemma polyfn_const c n : polyfn n (fun _ => c).
Proof. exists [c]. split; [cbn; lia|]. intros x. cbn. ring. Qed.

Lemma polyfn_id n : (1 <= n)%nat -> polyfn n (fun x => x).
Proof. exists [0; 1]. split; [cbn; lia|]. intros x. cbn. ring. Qed.

Lemma polyfn_le m n f : (m <= n)%nat -> polyfn m f -> polyfn n f.
Proof. intros H [l [Hl E]]. exists l. split; [lia|exact E]. Qed.

Lemma polyfn_add n f g : polyfn n f -> polyfn n g -> polyfn n (fun x => f x + g x).
Proof.
  intros [l [Hl El]] [k [Hk Ek]]. exists (padd l k). split.
  - rewrite padd_length. lia.
  - intros x. rewrite padd_eval, El, Ek. reflexivity.
Qed.

Lemma polyfn_scale n c f : polyfn n f -> polyfn n (fun x => c * f x).
Proof.
  intros [l [Hl El]]. exists (pscale c l). split.
  - now rewrite pscale_length.
  - intros x. rewrite pscale_eval, El. reflexivity.
Qed.

Lemma polyfn_sub n f g : polyfn n f -> polyfn n g -> polyfn n (fun x => f x - g x).
Proof.
  intros Hf Hg. destruct (polyfn_add n f (fun x => (- (1)) * g x) Hf
    (polyfn_scale n _ g Hg)) as [l [Hl E]].
  exists l. split; [exact Hl|]. intros x. rewrite <- E. ring.
Qed.

Lemma polyfn_ext n f g : (forall x, f x = g x) -> polyfn n f -> polyfn n g.
Proof. intros E [l [Hl El]]. exists l. split; [exact Hl|]. intros x. now rewrite <- E. Qed.

Lemma pmul_length_pos f g : g <> [] -> f <> [] ->
  (length (pmul f g) <= pred (length f + length g))%nat.
Proof.
  intros Hg. assert (1 <= length g)%nat by (destruct g; [congruence|cbn; lia]).
  induction f as [|a f IH]; [congruence|]. intros _.
  destruct f as [|b f].
  - cbn. rewrite padd_length. rewrite pscale_length. cbn. lia.
  - change (pmul (a :: b :: f) g) with (padd (pscale a g) (0 :: pmul (b :: f) g)).
    rewrite padd_length. rewrite pscale_length.
    assert (length (pmul (b :: f) g) <= pred (length (b :: f) + length g))%nat
      by (apply IH; discriminate).
    cbn [length] in *. lia.
Qed.

Lemma polyfn_mul m n f g : polyfn m f -> polyfn n g -> polyfn (m + n) (fun x => f x * g x).
Proof.
  intros [l [Hl El]] [k [Hk Ek]].
  destruct l as [|a l].
  - exists []. split; [cbn; lia|]. intros x. rewrite El. cbn. ring.
  - destruct k as [|b k].
    + exists []. split; [cbn; lia|]. intros x. rewrite Ek. cbn. ring.
    + exists (pmul (a :: l) (b :: k)). split.
      * pose proof (pmul_length_pos (a :: l) (b :: k) ltac:(discriminate) ltac:(discriminate)).
        lia.
      * intros x. rewrite pmul_eval, El, Ek. reflexivity.
Qed.

(** A polynomial function of degree at most [n] that is not identically zero
    vanishes on at most [n] points. *)
Theorem polyfn_roots n f x0 rs :
  polyfn n f -> f x0 <> 0 -> NoDup rs -> (forall r, In r rs -> f r = 0) ->
  (length rs <= n)%nat.
Proof.
  intros [l [Hl El]] Hx Hnd Hr.
  assert ((length rs < length l)%nat); [|lia].
  apply roots_bound; [|exact Hnd|].
  - intros Hz. apply Hx. rewrite El. now apply peval_pzero.
  - intros r Hin. rewrite <- El. now apply Hr.
Qed.

(** Two polynomial functions of degree at most [n] that differ somewhere agree
    on at most [n] points. *)
Theorem polyfn_agree n f g x0 rs :
  polyfn n f -> polyfn n g -> f x0 <> g x0 -> NoDup rs ->
  (forall r, In r rs -> f r = g r) -> (length rs <= n)%nat.
Proof.
  intros Hf Hg Hx Hnd Hr.
  apply polyfn_roots with (f := fun x => f x - g x) (x0 := x0).
  - now apply polyfn_sub.
  - intros E. apply Hx. now apply fsub_eq.
  - exact Hnd.
  - intros r Hin. apply fsub_eq. now apply Hr.
Qed.

End Poly.
Arguments peval {_}. Arguments polyfn {_}. Arguments pquot {_}. Arguments pzero {_}.
Arguments padd {_}. Arguments pmul {_}. Arguments pscale {_}.
