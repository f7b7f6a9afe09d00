(** The seven-element field, for concrete instances beside the theorems. *)
From Coq Require Import ZArith Znumtheory Lia List.
From Verif Require Import Base.Field.
Import ListNotations.

Lemma prime_7 : prime 7.
Proof.
  apply prime_intro; [lia|]. intros n Hn.
  assert (n = 1 \/ n = 2 \/ n = 3 \/ n = 4 \/ n = 5 \/ n = 6)%Z as [->|[->|[->|[->|[->| ->]]]]] by lia;
    apply Zgcd_1_rel_prime; reflexivity.
Qed.

Definition F7 : field := Fp_field 7 prime_7.
Definition n7 (z : Z) : F7 := to_fp 7 z.
Definition l7 (l : list Z) : list F7 := map n7 l.

(** Equality of closed terms, by computing the representatives. *)
Lemma l7_eq (l m : list F7) : map (fval 7) l = map (fval 7) m -> l = m.
Proof.
  revert m. induction l as [|a l IH]; intros [|b m] H; try discriminate; auto.
  injection H as H1 H2. f_equal; [now apply fval_inj|now apply IH].
Qed.
Lemma o7_eq (a b : option F7) : option_map (fval 7) a = option_map (fval 7) b -> a = b.
Proof. destruct a, b; cbn; intros H; try discriminate; auto. injection H as H. f_equal. now apply fval_inj. Qed.
Lemma ol7_eq (a b : option (list F7)) : option_map (map (fval 7)) a = option_map (map (fval 7)) b -> a = b.
Proof. destruct a, b; cbn; intros H; try discriminate; auto. injection H as H. f_equal. now apply l7_eq. Qed.
