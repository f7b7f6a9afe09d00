(** Proofs about the generic sumcheck: the honest prover's messages are the
    honest round polynomials, the verifier accepts them, and a false claim
    survives only if a challenge hits a root of a nonzero quadratic. *)
From Coq Require Import List Arith Bool Lia Ring Field.
From Verif Require Import Base.Field Base.Array Base.Poly Spec.Multilinear Spec.Sumcheck Model.Polynomials
  Model.Sumcheck Proofs.Multilinear Proofs.Polynomials.
Import ListNotations.

Section Proofs.
Variable K : field.
Add Field Kf : (fth K).
Local Open Scope fld_scope.

(** ** Sums over the cube *)
Lemma cube_sum_ext n (P Q : list K -> K) : (forall x, length x = n -> P x = Q x) -> cube_sum n P = cube_sum n Q.
Proof.
  revert P Q. induction n as [|n IH]; intros P Q H; cbn [cube_sum]; [now apply H|].
  f_equal; apply IH; intros x Hx; apply H; cbn; lia.
Qed.
Lemma cube_sum_plus n (P Q : list K -> K) : cube_sum n (fun x => P x + Q x) = cube_sum n P + cube_sum n Q.
Proof. revert P Q. induction n as [|n IH]; intros P Q; cbn [cube_sum]; auto. rewrite !IH. ring. Qed.
Lemma cube_sum_scale n (a : K) (P : list K -> K) : cube_sum n (fun x => P x * a) = cube_sum n P * a.
Proof. revert P. induction n as [|n IH]; intros P; cbn [cube_sum]; auto. rewrite !IH. ring. Qed.
Lemma cube_sum_0 n : cube_sum n (fun _ => 0 : K) = 0.
Proof. induction n as [|n IH]; cbn [cube_sum]; auto. rewrite !IH. ring. Qed.
Lemma cube_sum_fsum {A} n (l : list A) (P : A -> list K -> K) :
  cube_sum n (fun x => fsum (map (fun a => P a x) l)) = fsum (map (fun a => cube_sum n (P a)) l).
Proof.
  induction l as [|a l IH]; cbn [map fsum]; [apply cube_sum_0|]. now rewrite cube_sum_plus, IH.
Qed.
Lemma cube_sum_poly d n (P : K -> list K -> K) :
  (forall b, length b = n -> polyfn d (fun x => P x b)) -> polyfn d (fun x => cube_sum n (P x)).
Proof.
  revert P. induction n as [|n IH]; intros P H; cbn [cube_sum]; [now apply H|].
  apply polyfn_add; apply IH; intros b Hb; apply (H (_ :: b)); cbn; lia.
Qed.

(** ** Dot products *)
Lemma dot_fsum (f g : list K) : dot f g = fsum (map (fun ab => fst ab * snd ab) (combine f g)).
Proof. unfold dot. rewrite fold_fadd. ring. Qed.
Lemma dot_arr (f g : list K) n a b : arr f n a -> arr g n b -> dot f g = sumn n (fun i => a i * b i).
Proof.
  intros Hf Hg. rewrite dot_fsum. unfold sumn. f_equal.
  rewrite (arr_list _ _ _ Hf), (arr_list _ _ _ Hg). generalize (seq 0 n). intros l.
  induction l as [|i l IH]; cbn; auto. now rewrite IH.
Qed.

(** ** Fixing the top variable of a table *)
Lemma arr_table (c : list K) : arr c (length c) (table c).
Proof. apply arr_self. Qed.

Lemma fix_top_length (f : list K) m r : length f = (2 ^ S m)%nat -> length (fix_top_variable f r) = (2 ^ m)%nat.
Proof.
  intros L. destruct (fix_top_mle K f m (table f) r) as (g & (L' & _) & _); auto.
  rewrite <- L. apply arr_table.
Qed.
Lemma fix_top_table (f : list K) m r x : length f = (2 ^ S m)%nat -> length x = m ->
  mle (table (fix_top_variable f r)) x = mle (table f) (x ++ [r]).
Proof.
  intros L Hx. destruct (fix_top_mle K f m (table f) r) as (g & A & E).
  { rewrite <- L. apply arr_table. }
  rewrite <- (E x Hx). apply mle_ext. intros i Hi. rewrite Hx in Hi.
  pose proof (arr_table (fix_top_variable f r)) as B. rewrite (fix_top_length f m r L) in B.
  apply (arr_get _ _ _ i A) in Hi as H1. apply (arr_get _ _ _ i B) in Hi as H2. congruence.
Qed.

(** ** One pair *)
Notation plog c := (Nat.log2 (length c)).

Lemma pair_inactive (f g : list K) m r x : length f = (2 ^ m)%nat -> (m <= length x)%nat ->
  pair_poly (f, g) (r :: x) = pair_poly (f, g) x * ((1 - r) * (1 - r)).
Proof.
  intros L H. unfold pair_poly. cbn [fst snd]. rewrite L, Nat.log2_pow2 by lia. cbn [length].
  replace (S (length x) - m)%nat with (S (length x - m)) by lia. cbn [firstn skipn map fprod]. ring.
Qed.
Lemma pair_active (f g : list K) m r x : length f = (2 ^ S m)%nat -> length g = (2 ^ S m)%nat -> length x = m ->
  pair_poly (f, g) (r :: x) = pair_poly (fix_top_variable f r, fix_top_variable g r) x.
Proof.
  intros Lf Lg H. unfold pair_poly. cbn [fst snd]. rewrite (fix_top_length f m r Lf), Lf, !Nat.log2_pow2 by lia.
  cbn [length]. rewrite H, !Nat.sub_diag. cbn [firstn skipn map fprod rev].
  rewrite (fix_top_table f m), (fix_top_table g m) by (auto; now rewrite rev_length). reflexivity.
Qed.

Lemma fix_top_0 (f : list K) n a : arr f (2 * n) a -> arr (fix_top_variable f 0) n a.
Proof. intros H. eapply arr_ext; [apply fix_top_ok, H|]. intros i _. cbn. ring. Qed.
Lemma fix_top_1 (f : list K) n a : arr f (2 * n) a -> arr (fix_top_variable f 1) n (fun i => a (n + i)%nat).
Proof. intros H. eapply arr_ext; [apply fix_top_ok, H|]. intros i _. cbn. ring. Qed.

Lemma cube_pair n : forall (f g : list K) m, length f = (2 ^ m)%nat -> length g = (2 ^ m)%nat -> (m <= n)%nat ->
  cube_sum n (pair_poly (f, g)) = dot f g.
Proof.
  induction n as [|n IH]; intros f g m Lf Lg Hm; cbn [cube_sum].
  - replace m with 0%nat in * by lia. cbn in Lf, Lg.
    destruct f as [|a [|? ?]]; try discriminate. destruct g as [|b [|? ?]]; try discriminate.
    unfold pair_poly. cbn -[mle]. rewrite !mle_nil. unfold dot. cbn. ring.
  - destruct (Nat.eq_dec m (S n)) as [->|Hne].
    + rewrite (cube_sum_ext n _ (pair_poly (fix_top_variable f 0, fix_top_variable g 0))).
      2:{ intros x Hx. now apply pair_active with n. }
      rewrite (cube_sum_ext n (fun x => pair_poly (f, g) (1 :: x)) (pair_poly (fix_top_variable f 1, fix_top_variable g 1))).
      2:{ intros x Hx. now apply pair_active with n. }
      rewrite !(IH _ _ n) by (auto using fix_top_length).
      assert (Af := arr_table f). assert (Ag := arr_table g). rewrite Lf in Af. rewrite Lg in Ag.
      rewrite (dot_arr f g _ _ _ Af Ag). rewrite Nat.pow_succ_r' in *.
      rewrite (dot_arr _ _ _ _ _ (fix_top_0 f _ _ Af) (fix_top_0 g _ _ Ag)).
      rewrite (dot_arr _ _ _ _ _ (fix_top_1 f _ _ Af) (fix_top_1 g _ _ Ag)).
      replace (2 * 2 ^ n)%nat with (2 ^ n + 2 ^ n)%nat by lia. now rewrite sumn_app.
    + rewrite (cube_sum_ext n _ (fun x => pair_poly (f, g) x * ((1 - 0) * (1 - 0)))).
      2:{ intros x Hx. apply pair_inactive with m; auto. lia. }
      rewrite (cube_sum_ext n (fun x => pair_poly (f, g) (1 :: x)) (fun x => pair_poly (f, g) x * ((1 - 1) * (1 - 1)))).
      2:{ intros x Hx. apply pair_inactive with m; auto. lia. }
      rewrite !cube_sum_scale, (IH _ _ m) by (auto; lia). ring.
Qed.

Lemma log2_up_pow m : Nat.log2_up (2 ^ m) = m.
Proof. apply Nat.log2_up_pow2. lia. Qed.

(** The state of one pair with k variables left, after the challenges pre. *)
Definition pair_ok (k : nat) (pre : list K) (fg : list K * list K) (e s : K) (fg0 : list K * list K) : Prop :=
  exists m, (m <= k)%nat /\ length (fst fg) = (2 ^ m)%nat /\ length (snd fg) = (2 ^ m)%nat /\
    ((m < k)%nat -> s = dot (fst fg) (snd fg)) /\
    forall x, length x = k -> pair_poly fg x * (e * e) = pair_poly fg0 (pre ++ x).

Lemma get_sub_idx_none n k rnd m : (k <= n)%nat -> (m < k)%nat -> (rnd + k = n + 1)%nat -> get_sub_idx n rnd m = Some None.
Proof.
  intros H1 H2 H3. unfold get_sub_idx. replace (m <=? n) with true by (symmetry; apply Nat.leb_le; lia). cbn [guard obind].
  replace (rnd <? n - m + 1) with true by (symmetry; apply Nat.ltb_lt; lia). reflexivity.
Qed.
Lemma get_sub_idx_some n k rnd : (k <= n)%nat -> (rnd + k = n + 1)%nat -> get_sub_idx n rnd k = Some (Some 0%nat).
Proof.
  intros H1 H3. unfold get_sub_idx. replace (k <=? n) with true by (symmetry; apply Nat.leb_le; lia). cbn [guard obind].
  replace (rnd <? n - k + 1) with false by (symmetry; apply Nat.ltb_ge; lia). do 2 f_equal. lia.
Qed.

Lemma fix_pair_ok n rnd k pre r f g e s fg0 : (rnd + S k = n + 1)%nat -> (S k <= n)%nat ->
  pair_ok (S k) pre (f, g) e s fg0 ->
  exists f' g' e', fix_pair n rnd r (f, g, e) = Some (f', g', e') /\ pair_ok k (pre ++ [r]) (f', g') e' s fg0.
Proof.
  intros Hr Hk (m & Hm & Lf & Lg & Hs & HP). cbn [fst snd] in *. unfold fix_pair, num_vars1.
  rewrite Lf, log2_up_pow. destruct (Nat.eq_dec m (S k)) as [->|Hne].
  - rewrite (get_sub_idx_some n (S k)) by auto. cbn. do 3 eexists. split; [reflexivity|].
    exists k. cbn [fst snd]. split; [lia|]. split; [now apply fix_top_length|]. split; [now apply fix_top_length|].
    split; [lia|]. intros x Hx. rewrite <- app_assoc. cbn [app].
    rewrite <- (HP (r :: x)) by (cbn; lia). now rewrite (pair_active f g k r x).
  - rewrite (get_sub_idx_none n (S k)) by (auto; lia). cbn. do 3 eexists. split; [reflexivity|].
    exists m. cbn [fst snd]. split; [lia|]. split; [auto|]. split; [auto|]. split; [intros; apply Hs; lia|].
    intros x Hx. rewrite <- app_assoc. cbn [app]. rewrite <- (HP (r :: x)) by (cbn; lia).
    rewrite (pair_inactive f g m r x) by (auto; lia). ring.
Qed.

Lemma firstn_fix0 (f : list K) n a : arr f (2 * n) a -> arr (firstn n f) n a /\ arr (skipn n f) n (fun i => a (n + i)%nat).
Proof.
  intros H. split; [apply (arr_firstn _ _ _ n H); lia|].
  assert (A := arr_skipn _ _ _ n H ltac:(lia)). replace (2 * n - n)%nat with n in A by lia. exact A.
Qed.
Lemma at2_arr (lo hi : list K) n a b : arr lo n a -> arr hi n b ->
  arr (map (fun ab => - fst ab + (snd ab + snd ab)) (combine lo hi)) n (fun i => - a i + (b i + b i)).
Proof.
  intros Ha Hb. rewrite (arr_list _ _ _ Ha), (arr_list _ _ _ Hb).
  replace (map _ (combine _ _)) with (map (fun i => - a i + (b i + b i)) (seq 0 n)); [apply arr_map_seq|].
  generalize (seq 0 n). intros l. induction l as [|i l IH]; cbn; auto. now rewrite IH.
Qed.

Lemma local_message_ok n rnd k pre f g e s fg0 : (rnd + S k = n + 1)%nat -> (S k <= n)%nat ->
  pair_ok (S k) pre (f, g) e s fg0 ->
  let R x := cube_sum k (fun b => pair_poly fg0 (pre ++ x :: b)) in
  local_message n rnd f g e s = Some (R 0, R 1, R (1 + 1)).
Proof.
  intros Hr Hk (m & Hm & Lf & Lg & Hs & HP) R. cbn [fst snd] in *. unfold local_message, num_vars1.
  rewrite Lf, log2_up_pow.
  assert (HR : forall x, R x = cube_sum k (fun b => pair_poly (f, g) (x :: b)) * (e * e)).
  { intros x. unfold R. rewrite <- cube_sum_scale. apply cube_sum_ext. intros b Hb. symmetry. apply HP. cbn. lia. }
  rewrite !HR. clear HR R. destruct (Nat.eq_dec m (S k)) as [->|Hne].
  - rewrite (get_sub_idx_some n (S k)) by auto. cbn [obind].
    replace (S k - 0 - 1)%nat with k by lia.
    assert (Hle : (2 ^ k <= 2 ^ S k)%nat) by (apply Nat.pow_le_mono_r; lia).
    rewrite Lg. replace (0 + 1 <=? S k) with true by (symmetry; apply Nat.leb_le; lia).
    replace (2 ^ k <=? 2 ^ S k) with true by (symmetry; apply Nat.leb_le; lia). cbn [guard obind].
    assert (Af := arr_table f). assert (Ag := arr_table g). rewrite Lf in Af. rewrite Lg in Ag.
    rewrite Nat.pow_succ_r' in Af, Ag.
    destruct (firstn_fix0 _ _ _ Af) as (Af0 & Af1). destruct (firstn_fix0 _ _ _ Ag) as (Ag0 & Ag1).
    assert (HS : forall x, cube_sum k (fun b => pair_poly (f, g) (x :: b)) = dot (fix_top_variable f x) (fix_top_variable g x)).
    { intros x. rewrite <- (cube_pair k _ _ k) by (auto using fix_top_length). apply cube_sum_ext.
      intros b Hb. now apply pair_active with k. }
    rewrite !HS. rewrite (dot_arr _ _ _ _ _ Af0 Ag0), (dot_arr _ _ _ _ _ Af1 Ag1).
    rewrite (dot_arr _ _ _ _ _ (at2_arr _ _ _ _ _ Af0 Af1) (at2_arr _ _ _ _ _ Ag0 Ag1)).
    rewrite !(dot_arr _ _ _ _ _ (fix_top_ok K f _ _ _ Af) (fix_top_ok K g _ _ _ Ag)).
    do 2 f_equal; [f_equal|]; f_equal; apply sumn_ext; intros i _; ring.
  - rewrite (get_sub_idx_none n (S k)) by (auto; lia). cbn [obind].
    assert (HS : forall x, cube_sum k (fun b => pair_poly (f, g) (x :: b)) = s * ((1 - x) * (1 - x))).
    { intros x. rewrite (Hs ltac:(lia)), <- (cube_pair k f g m), <- cube_sum_scale by (auto; lia). apply cube_sum_ext.
      intros b Hb. apply pair_inactive with m; auto. lia. }
    rewrite !HS. do 2 f_equal; [f_equal|]; ring.
Qed.

(** ** All pairs *)
Inductive rows (k : nat) (pre : list K) : sop K -> list K -> list K -> sop K -> Prop :=
| rows_nil : rows k pre [] [] [] []
| rows_cons fg e s fg0 ms es ss p0 : pair_ok k pre fg e s fg0 -> rows k pre ms es ss p0 ->
    rows k pre (fg :: ms) (e :: es) (s :: ss) (fg0 :: p0).

Lemma rows_fix n rnd k pre r ms es ss p0 : (rnd + S k = n + 1)%nat -> (S k <= n)%nat ->
  rows (S k) pre ms es ss p0 ->
  exists l, omap (fix_pair n rnd r) (combine ms es) = Some l /\ rows k (pre ++ [r]) (map fst l) (map snd l) ss p0.
Proof.
  intros Hr Hk. induction 1 as [|[f g] e s fg0 ms es ss p0 H1 H2 IH].
  - exists []. split; [reflexivity|constructor].
  - destruct IH as (l & El & Hl). destruct (fix_pair_ok n rnd k pre r f g e s fg0 Hr Hk H1) as (f' & g' & e' & E & H').
    exists ((f', g', e') :: l). cbn [combine omap]. rewrite E. cbn [obind]. rewrite El. cbn [obind].
    split; [reflexivity|]. cbn [map fst snd]. now constructor.
Qed.

Definition R (n : nat) (p0 : sop K) (pre : list K) (x : K) : K := round_poly n (sop_poly p0) pre x.

Lemma rows_message n rnd k pre ms es ss p0 : (rnd + S k = n + 1)%nat -> (S k <= n)%nat -> (length pre + S k = n)%nat ->
  rows (S k) pre ms es ss p0 ->
  exists hs, omap (fun x : (list K * list K) * (K * K) =>
      local_message n rnd (fst (fst x)) (snd (fst x)) (fst (snd x)) (snd (snd x))) (combine ms (combine es ss)) = Some hs /\
    fold_left fadd (map (fun h => fst (fst h)) hs) 0 = R n p0 pre 0 /\
    fold_left fadd (map (fun h => snd (fst h)) hs) 0 = R n p0 pre 1 /\
    fold_left fadd (map (fun h => snd h) hs) 0 = R n p0 pre (1 + 1).
Proof.
  intros Hr Hk Hpre H. unfold R, round_poly. replace (n - 1 - length pre)%nat with k by lia. clear Hpre.
  assert (E : forall x, cube_sum k (fun b => sop_poly p0 (pre ++ x :: b))
    = fsum (map (fun fg0 => cube_sum k (fun b => pair_poly fg0 (pre ++ x :: b))) p0)).
  { intros x. unfold sop_poly. apply cube_sum_fsum. }
  rewrite !E. clear E.
  induction H as [|[f g] e s fg0 ms es ss p0 H1 H2 IH].
  - exists []. split; [reflexivity|]. cbn [map fsum fold_left]. auto.
  - destruct IH as (hs & El & E0 & E1 & E2).
    assert (E := local_message_ok n rnd k pre f g e s fg0 Hr Hk H1). cbn zeta in E.
    cbn [combine omap fst snd]. rewrite E. cbn [obind]. rewrite El. cbn [obind].
    eexists. split; [reflexivity|]. rewrite !fold_fadd in *. cbn [map fsum fst snd].
    rewrite <- E0, <- E1, <- E2. (split; [|split]); ring.
Qed.

(** ** The whole prover *)
Definition entry (n : nat) (p0 : sop K) (st : prover_state K) (ch : option K) (r : list K) : Prop :=
  init_num_vars st = n /\ round st = length r /\
  match ch with
  | None => r = [] /\ challenges st = [] /\ rows n [] (mle_list st) (eq_prefix st) (init_sum_of_vals st) p0
  | Some c => exists r0, r = r0 ++ [c] /\ challenges st = r0 /\
      rows (n - length r0) r0 (mle_list st) (eq_prefix st) (init_sum_of_vals st) p0
  end.

Definition msg n p0 (r : list K) : list K := [R n p0 r 0; R n p0 r 1; R n p0 r (1 + 1)].

Lemma fix_pairs_ok n p0 st r0 c : init_num_vars st = n -> round st = S (length r0) -> (S (length r0) <= n)%nat ->
  rows (n - length r0) r0 (mle_list st) (eq_prefix st) (init_sum_of_vals st) p0 ->
  exists ms es, fix_pairs st c = Some (ms, es) /\ rows (n - S (length r0)) (r0 ++ [c]) ms es (init_sum_of_vals st) p0.
Proof.
  intros Hn Hr Hle H. unfold fix_pairs. rewrite Hn, Hr.
  replace (n - length r0)%nat with (S (n - S (length r0))) in H by lia.
  destruct (rows_fix n (S (length r0)) (n - S (length r0)) r0 c _ _ _ _ ltac:(lia) ltac:(lia) H) as (l & E & H').
  rewrite E. cbn [obind]. do 2 eexists. split; [reflexivity|exact H'].
Qed.

Lemma prove_round_ok n p0 st ch r : (length r < n)%nat -> entry n p0 st ch r ->
  exists st', prove_round st ch = Some (msg n p0 r, st') /\ forall c, entry n p0 st' (Some c) (r ++ [c]).
Proof.
  intros Hr (Hn & Hrd & H). unfold prove_round. rewrite Hrd, Hn.
  replace (length r <? n) with true by (symmetry; apply Nat.ltb_lt; lia). cbn [guard obind].
  destruct ch as [c|].
  - destruct H as (r0 & -> & Hc & Hrows). rewrite Hc. rewrite app_length in *. cbn [length] in *.
    rewrite Nat.add_1_r in *. cbn [Nat.eqb negb guard obind].
    replace (S (length r0) - 1)%nat with (length r0) by lia.
    assert (Ea : aget (r0 ++ [c]) (length r0) = Some c).
    { unfold aget. rewrite nth_error_app2, Nat.sub_diag by lia. reflexivity. }
    rewrite Ea. cbn [obind].
    destruct (fix_pairs_ok n p0 st r0 c Hn Hrd ltac:(lia) Hrows) as (ms & es & E & Hrows').
    rewrite E. cbn [obind fst snd round mle_list init_num_vars eq_prefix init_sum_of_vals].
    destruct (rows_message n (S (length r0) + 1) (n - S (S (length r0))) (r0 ++ [c]) ms es (init_sum_of_vals st) p0)
      as (hs & Eh & E0 & E1 & E2); [lia|lia|rewrite app_length; cbn; lia| |].
    { now replace (S (n - S (S (length r0)))) with (n - S (length r0))%nat by lia. }
    rewrite Eh. cbn [obind]. rewrite E0, E1, E2. eexists. split; [reflexivity|].
    intros c'. split; [reflexivity|]. split; [cbn [round]; rewrite !app_length; cbn; lia|].
    exists (r0 ++ [c]). split; [reflexivity|]. split; [reflexivity|].
    cbn [mle_list eq_prefix init_sum_of_vals]. rewrite app_length. cbn [length]. now rewrite Nat.add_1_r.
  - destruct H as (-> & Hc & Hrows). cbn [length Nat.eqb guard obind]. rewrite Hrd, Hn. cbn [length].
    destruct (rows_message n (0 + 1) (n - 1) [] _ _ _ _ ltac:(cbn in *; lia) ltac:(cbn in *; lia) ltac:(cbn in *; lia)
      ltac:(cbn [length] in Hr; replace (S (n - 1)) with n by lia; exact Hrows)) as (hs & Eh & E0 & E1 & E2).
    rewrite Eh. cbn [obind]. rewrite E0, E1, E2. eexists. split; [reflexivity|].
    intros c'. split; [reflexivity|]. split; [reflexivity|].
    exists []. split; [reflexivity|]. split; [exact Hc|]. cbn [length mle_list eq_prefix init_sum_of_vals].
    now rewrite Nat.sub_0_r.
Qed.

(** ** Verification *)
Definition quad (e0 e1 e2 : K) (c : K) : K :=
  let h2 := (e2 + e0) * finv (1 + 1) - e1 in e0 + (e1 - e0 - h2) * c + h2 * (c * c).

Lemma quad_through e0 e1 e2 : (1 + 1 : K) <> 0 -> through e0 e1 e2 (quad e0 e1 e2).
Proof.
  intros H2. split; [|split; [|split]].
  - exists [e0; e1 - e0 - ((e2 + e0) * finv (1 + 1) - e1); (e2 + e0) * finv (1 + 1) - e1]. split; [cbn; lia|].
    intros x. unfold quad. cbn. ring.
  - unfold quad. field. auto.
  - unfold quad. field. auto.
  - unfold quad. field. auto.
Qed.
Lemma quad_unique e0 e1 e2 q : (1 + 1 : K) <> 0 -> through e0 e1 e2 q -> forall x, q x = quad e0 e1 e2 x.
Proof.
  intros H2 ((l & Hl & E) & E0 & E1 & E2) x. rewrite E in *. unfold quad. rewrite <- E0, <- E1, <- E2.
  destruct l as [|a [|b [|d [|? ?]]]]; cbn in Hl; try lia; cbn [peval]; field; auto.
Qed.

Lemma check_step evals ps c cs expected : (1 + 1 : K) <> 0 ->
  check_rounds (evals :: ps) (c :: cs) expected =
  let* e0 := aget evals 0 in let* e1 := aget evals 1 in
  if feqb expected (e0 + e1) then let* e2 := aget evals 2 in check_rounds ps cs (quad e0 e1 e2 c) else Some None.
Proof.
  intros H2. cbn [check_rounds]. destruct (aget evals 0) as [e0|]; auto. destruct (aget evals 1) as [e1|]; auto. cbn [obind].
  destruct (feqb expected (e0 + e1)); auto. destruct (aget evals 2) as [e2|]; auto. cbn [obind].
  unfold inv_two. destruct (feqb (1 + 1) 0) eqn:E; [apply feqb_eq in E; contradiction|]. reflexivity.
Qed.

Section Transcript.
Variable T : Type.
Variable append : list K -> T -> T.
Variable sample : T -> K * T.

Fixpoint vrun (ms : list (list K)) (t : T) : list K * T :=
  match ms with
  | [] => ([], t)
  | m :: r => let (c, t') := sample (append m t) in let (cs, t'') := vrun r t' in (c :: cs, t'')
  end.

Lemma vrun_length ms t : length (fst (vrun ms t)) = length ms.
Proof.
  revert t. induction ms as [|m ms IH]; intros t; cbn [vrun length]; auto.
  destruct (sample (append m t)) as [c t']. specialize (IH t'). destruct (vrun ms t') as [cs t'']. cbn in *. lia.
Qed.

Lemma verify_rounds_gen n pf t done rest cs :
  proofs pf = done ++ rest -> (length done + length rest <= n)%nat -> length cs = length done ->
  (1 <= length rest)%nat ->
  for_in (seq (length done) (length rest)) (fun i st =>
      let '(st, t) := st in
      let* m := aget (proofs pf) i in
      verify_round sample n m (append m t) st) ((length done + 1)%nat, false, cs, done, t)
  = Some (if length done + length rest =? n then n else (length done + length rest + 1)%nat,
          length done + length rest =? n, cs ++ fst (vrun rest t), done ++ rest, snd (vrun rest t)).
Proof.
  revert t done cs. induction rest as [|m rest IH]; intros t done cs Ep Hle Hc H1; cbn [length] in *; [lia|].
  cbn [seq for_in]. unfold aget at 1. rewrite Ep, nth_error_app2, Nat.sub_diag by lia. cbn [nth_error obind].
  unfold verify_round at 1. cbn [negb guard obind]. cbn [vrun].
  destruct (sample (append m t)) as [c t'] eqn:Es.
  destruct rest as [|m' rest].
  - cbn [length seq for_in vrun obind fst snd]. destruct (length done + 1 =? n) eqn:E.
    + apply Nat.eqb_eq in E. rewrite E. reflexivity.
    + reflexivity.
  - replace (length done + 1 =? n) with false by (symmetry; apply Nat.eqb_neq; cbn [length] in *; lia).
    cbn [obind].
    specialize (IH t' (done ++ [m]) (cs ++ [c])). rewrite !app_length in IH. cbn [length] in IH.
    replace (S (length done)) with (length done + 1)%nat by lia. cbn [length] in *.
    rewrite Ep, <- app_assoc in IH. cbn [app] in IH. rewrite IH; [|reflexivity|lia|lia|lia].
    destruct (vrun (m' :: rest) t') as [cs' t''] eqn:Ev. cbn [fst snd].
    rewrite <- !app_assoc. cbn [app].
    replace (length done + 1 + S (length rest))%nat with (length done + S (S (length rest)))%nat by lia.
    reflexivity.
Qed.

Lemma for_in_ext {S} is (f g : nat -> S -> option S) s : (forall i s, In i is -> f i s = g i s) -> for_in is f s = for_in is g s.
Proof.
  revert s. induction is as [|i is IH]; intros s H; cbn [for_in]; auto. rewrite H by (now left).
  destruct (g i s); cbn; auto. apply IH. intros j s'' Hj. apply H. now right.
Qed.

Lemma verify_rounds_ok n pf t : (1 <= n)%nat -> (n <= length (proofs pf))%nat ->
  verify_rounds append sample n pf t
  = Some (n, true, fst (vrun (firstn n (proofs pf)) t), firstn n (proofs pf), snd (vrun (firstn n (proofs pf)) t)).
Proof.
  intros H1 Hle. unfold verify_rounds.
  rewrite (for_in_ext _ _ (fun i st => let '(st, t) := st in
      let* m := aget (proofs {| proofs := firstn n (proofs pf); point := point pf |}) i in
      verify_round sample n m (append m t) st)).
  2:{ intros i [st u] Hi. apply in_seq in Hi. cbn [proofs]. replace (aget (firstn n (proofs pf)) i) with (aget (proofs pf) i); auto.
      unfold aget. rewrite <- (firstn_skipn n (proofs pf)) at 1. rewrite nth_error_app1; auto. rewrite firstn_length. lia. }
  assert (L : length (firstn n (proofs pf)) = n) by (rewrite firstn_length; lia).
  pose proof (verify_rounds_gen n {| proofs := firstn n (proofs pf); point := point pf |} t [] (firstn n (proofs pf)) []) as E.
  cbn [length app] in E. rewrite L in E. cbn [Nat.add] in E. rewrite E by (cbn; auto; lia). rewrite Nat.eqb_refl. reflexivity.
Qed.

Lemma verify_rounds_short n pf t : (length (proofs pf) < n)%nat -> verify_rounds append sample n pf t = None.
Proof.
  intros H. unfold verify_rounds. replace n with (length (proofs pf) + (1 + (n - length (proofs pf) - 1)))%nat at 1 by lia.
  rewrite seq_app, for_in_app. match goal with |- obind ?a _ = _ => destruct a as [[st u]|]; [|reflexivity] end. cbn [obind Nat.add seq for_in].
  unfold aget at 1. rewrite (proj2 (nth_error_None _ _)) by lia. reflexivity.
Qed.

Lemma verify_eq s pf n t : (1 <= n)%nat -> (n <= length (proofs pf))%nat ->
  verify append sample s pf n t =
  let chals := fst (vrun (firstn n (proofs pf)) t) in
  let t' := snd (vrun (firstn n (proofs pf)) t) in
  let* e := check_rounds (firstn n (proofs pf)) chals s in
  match e with
  | Some expected => Some (true, {| sub_point := chals; expected_evaluation := expected |}, t')
  | None => Some (false, default_subclaim, t')
  end.
Proof.
  intros H1 Hle. unfold verify. rewrite verify_rounds_ok by auto. cbn [obind guard].
  rewrite firstn_length, Nat.min_l, Nat.eqb_refl by auto. reflexivity.
Qed.

(** The honest messages. *)
Fixpoint honest (n : nat) (p0 : sop K) (k : nat) (r : list K) (t : T) : list (list K) :=
  match k with
  | O => []
  | S k' => let (c, t') := sample (append (msg n p0 r) t) in msg n p0 r :: honest n p0 k' (r ++ [c]) t'
  end.
Lemma honest_length n p0 k r t : length (honest n p0 k r t) = k.
Proof.
  revert r t. induction k as [|k IH]; intros r t; cbn [honest]; auto.
  destruct (sample (append (msg n p0 r) t)). cbn. now rewrite IH.
Qed.

Lemma prove_loop_ok n p0 k : forall st ch r msgs t, (length r + k = n)%nat -> entry n p0 st ch r ->
  exists st' ch', prove_loop append sample k st ch msgs t
    = Some (st', ch', msgs ++ honest n p0 k r t, snd (vrun (honest n p0 k r t) t)) /\
    entry n p0 st' ch' (r ++ fst (vrun (honest n p0 k r t) t)).
Proof.
  induction k as [|k IH]; intros st ch r msgs t Hk He; cbn [prove_loop honest].
  - cbn [vrun fst snd]. rewrite !app_nil_r. eauto.
  - destruct (prove_round_ok n p0 st ch r ltac:(lia) He) as (st' & E & He'). rewrite E. cbn [obind].
    destruct (sample (append (msg n p0 r) t)) as [c t'] eqn:Es.
    destruct (IH st' (Some c) (r ++ [c]) (msgs ++ [msg n p0 r]) t' ltac:(rewrite app_length; cbn; lia) (He' c))
      as (st'' & ch' & E' & He'').
    exists st'', ch'. rewrite E'. cbn [vrun]. rewrite Es. destruct (vrun _ t') as [cs t'']. cbn [fst snd] in *.
    rewrite <- !app_assoc in *. cbn [app] in *. auto.
Qed.

(** Polynomials of the code are quadratic in every variable. *)
Lemma mle_poly f r s : polyfn 1 (fun x : K => mle f (r ++ x :: s)).
Proof.
  set (A := fun j => mle (fun i => f (i + 2 ^ length r * j)%nat) r).
  assert (E : forall x, mle f (r ++ x :: s) = mle A (x :: s)) by (intros; apply mle_app).
  apply polyfn_ext with (f := fun x => (1 - x) * mle (fun i => A (2 * i)%nat) s + x * mle (fun i => A (2 * i + 1)%nat) s).
  - intros x. rewrite E, mle_cons. reflexivity.
  - exists [mle (fun i => A (2 * i)%nat) s; mle (fun i => A (2 * i + 1)%nat) s - mle (fun i => A (2 * i)%nat) s].
    split; [cbn; lia|]. intros x. cbn. ring.
Qed.
Lemma fprod_poly r s : polyfn 1 (fun x : K => fprod (map (fun r => 1 - r) (r ++ x :: s))).
Proof.
  apply polyfn_ext with (f := fun x => (1 - x) * fprod (map (fun r => 1 - r) (r ++ s))).
  - intros x. rewrite !map_app, !fprod_app. cbn [map fprod]. ring.
  - set (a := fprod _). exists [a; - a]. split; [cbn; lia|]. intros x. cbn. ring.
Qed.
Lemma pair_poly_degree fg n : individual_degree 2 n (pair_poly (K:=K) fg).
Proof.
  intros pre post _. unfold pair_poly. set (m := Nat.log2 (length (fst fg))).
  set (L := length (pre ++ post)).
  assert (HL : forall x : K, length (pre ++ x :: post) = S L) by (intros; unfold L; rewrite !app_length; cbn; lia).
  destruct (Nat.lt_ge_cases (length pre) (S L - m)) as [Hc|Hc].
  - (* x in the prefix *)
    set (k := (S L - m - length pre - 1)%nat).
    assert (E1 : forall x : K, firstn (S L - m) (pre ++ x :: post) = pre ++ x :: firstn k post).
    { intros x. rewrite firstn_app, firstn_all2 by lia. replace (S L - m - length pre)%nat with (S k) by (unfold k; lia). reflexivity. }
    assert (E2 : forall x : K, skipn (S L - m) (pre ++ x :: post) = skipn k post).
    { intros x. rewrite skipn_app, skipn_all2 by lia. replace (S L - m - length pre)%nat with (S k) by (unfold k; lia). reflexivity. }
    apply polyfn_ext with (f := fun x => mle (table (fst fg)) (rev (skipn k post)) * mle (table (snd fg)) (rev (skipn k post)) *
      (fprod (map (fun r => 1 - r) (pre ++ x :: firstn k post)) * fprod (map (fun r => 1 - r) (pre ++ x :: firstn k post)))).
    + intros x. rewrite HL, E1, E2. reflexivity.
    + apply polyfn_scale. apply (polyfn_mul K 1 1); apply fprod_poly.
  - set (k := (S L - m)%nat) in *.
    assert (E1 : forall x : K, firstn k (pre ++ x :: post) = firstn k pre).
    { intros x. rewrite firstn_app. replace (k - length pre)%nat with O by lia. rewrite firstn_O. apply app_nil_r. }
    assert (E2 : forall x : K, rev (skipn k (pre ++ x :: post)) = rev post ++ x :: rev (skipn k pre)).
    { intros x. rewrite skipn_app. replace (k - length pre)%nat with O by lia. rewrite skipn_O, rev_app_distr. cbn [rev].
      rewrite <- app_assoc. reflexivity. }
    set (c := fprod (map (fun r => 1 - r) (firstn k pre))).
    apply polyfn_ext with (f := fun x => (c * c) * (mle (table (fst fg)) (rev post ++ x :: rev (skipn k pre)) * mle (table (snd fg)) (rev post ++ x :: rev (skipn k pre)))).
    + intros x. rewrite HL, E1, E2. fold c. ring.
    + apply polyfn_scale. apply (polyfn_mul K 1 1); apply mle_poly.
Qed.
Lemma sop_degree p n : individual_degree 2 n (sop_poly (K:=K) p).
Proof.
  intros pre post H. unfold sop_poly. induction p as [|fg p IH]; cbn [map fsum].
  - apply polyfn_const.
  - apply polyfn_add; [now apply (pair_poly_degree fg n)|exact IH].
Qed.

Lemma round_poly_degree d n (P : list K -> K) pre : individual_degree d n P -> (length pre < n)%nat -> polyfn d (round_poly n P pre).
Proof.
  intros HP H. unfold round_poly. apply cube_sum_poly. intros b Hb. apply (HP pre b). rewrite app_length. lia.
Qed.

Lemma honest_check n p0 k : (1 + 1 : K) <> 0 -> forall r t, (length r + k = n)%nat ->
  check_rounds (honest n p0 k r t) (fst (vrun (honest n p0 k r t) t)) (cube_sum k (fun b => sop_poly p0 (r ++ b)))
  = Some (Some (sop_poly p0 (r ++ fst (vrun (honest n p0 k r t) t)))).
Proof.
  intros H2. induction k as [|k IH]; intros r t Hk; cbn [honest].
  - cbn [vrun fst check_rounds cube_sum]. reflexivity.
  - destruct (sample (append (msg n p0 r) t)) as [c t'] eqn:Es. cbn [vrun]. rewrite Es.
    specialize (IH (r ++ [c]) t'). destruct (vrun _ t') as [cs t'']. cbn [fst] in *.
    rewrite check_step by auto. unfold aget, msg at 1 2 3. cbn [nth_error obind].
    assert (ER : forall x, R n p0 r x = cube_sum k (fun b => sop_poly p0 (r ++ x :: b))).
    { intros x. unfold R, round_poly. now replace (n - 1 - length r)%nat with k by lia. }
    replace (feqb _ _) with true.
    2:{ symmetry. apply feqb_eq. cbn [cube_sum]. now rewrite !ER. }
    rewrite <- (quad_unique (R n p0 r 0) (R n p0 r 1) (R n p0 r (1 + 1)) (R n p0 r)); auto.
    2:{ split; auto. apply round_poly_degree; [apply sop_degree|lia]. }
    rewrite ER. rewrite app_length in IH. cbn [length] in IH. specialize (IH ltac:(lia)).
    rewrite <- app_assoc in IH. cbn [app] in IH. rewrite <- IH. f_equal.
    apply cube_sum_ext. intros b _. now rewrite <- app_assoc.
Qed.

(** ** Soundness *)
Definition bad (n : nat) (P : list K -> K) (pre : list K) (m : list K) (c : K) : Prop :=
  exists e0 e1 e2 rest, m = e0 :: e1 :: e2 :: rest /\
    (e0, e1) <> (round_poly n P pre 0, round_poly n P pre 1) /\
    quad e0 e1 e2 c = round_poly n P pre c.

Lemma check_sound n (P : list K -> K) : (1 + 1 : K) <> 0 -> forall polys chals pre expected e',
  length polys = length chals -> (length pre + length chals = n)%nat ->
  check_rounds polys chals expected = Some (Some e') -> e' = P (pre ++ chals) ->
  expected <> cube_sum (length chals) (fun b => P (pre ++ b)) ->
  exists i m c, nth_error polys i = Some m /\ nth_error chals i = Some c /\ bad n P (pre ++ firstn i chals) m c.
Proof.
  intros H2. induction polys as [|evals ps IH]; intros [|c cs] pre expected e' L Hn E He Hne; cbn [length] in *; try discriminate.
  - cbn in E. exfalso. apply Hne. cbn. congruence.
  - rewrite check_step in E by auto.
    destruct evals as [|e0 [|e1 [|e2 rest]]]; cbn [aget nth_error obind] in E; try discriminate.
    { destruct (feqb expected (e0 + e1)); discriminate. }
    destruct (feqb expected (e0 + e1)) eqn:Eq; [|discriminate]. apply feqb_eq in Eq.
    assert (ER : forall x, round_poly n P pre x = cube_sum (length cs) (fun b => P (pre ++ x :: b))).
    { intros x. unfold round_poly. now replace (n - 1 - length pre)%nat with (length cs) by lia. }
    destruct (feq_dec (quad e0 e1 e2 c) (round_poly n P pre c)) as [Hq|Hq].
    + exists O, (e0 :: e1 :: e2 :: rest), c. split; [reflexivity|]. split; [reflexivity|].
      rewrite firstn_O, app_nil_r. exists e0, e1, e2, rest. split; [reflexivity|]. split; [|exact Hq].
      intros Hp. apply pair_equal_spec in Hp as (-> & ->). apply Hne. rewrite Eq, !ER. reflexivity.
    + destruct (IH cs (pre ++ [c]) _ _ ltac:(lia) ltac:(rewrite app_length; cbn; lia) E) as (i & m & c' & H1 & H3 & H4).
      * rewrite <- app_assoc. exact He.
      * intros Ha. apply Hq. rewrite Ha, ER. apply cube_sum_ext. intros b _. now rewrite <- app_assoc.
      * exists (S i), m, c'. split; [exact H1|]. split; [exact H3|]. cbn [firstn]. rewrite <- app_assoc in H4. exact H4.
Qed.

End Transcript.

(** ** Counting *)
Lemma vectors_length {A} n (S : list A) : length (vectors n S) = (length S ^ n)%nat.
Proof.
  induction n as [|n IH]; cbn [vectors]; auto. rewrite Nat.pow_succ_r'.
  assert (H : forall l, length (flat_map (fun a => map (cons a) (vectors n S)) l) = (length l * length S ^ n)%nat).
  { induction l as [|a l IHl]; cbn [flat_map length]; auto. rewrite app_length, map_length, IH, IHl. lia. }
  apply H.
Qed.
Lemma vectors_in {A} n (S : list A) v : In v (vectors n S) -> length v = n /\ incl v S.
Proof.
  revert v. induction n as [|n IH]; cbn [vectors]; intros v H.
  - destruct H as [<-|[]]. split; auto. intros x [].
  - apply in_flat_map in H as (a & Ha & H). apply in_map_iff in H as (w & <- & Hw).
    apply IH in Hw as (Hl & Hi). split; [cbn; lia|]. intros x [<-|Hx]; auto.
Qed.
Lemma filter_le {A} (f : A -> bool) l : (length (filter f l) <= length l)%nat.
Proof. induction l as [|a l IH]; cbn; auto. destruct (f a); cbn; lia. Qed.
Lemma filter_map_length {A B} (g : A -> B) (f : B -> bool) l : length (filter f (map g l)) = length (filter (fun a => f (g a)) l).
Proof. induction l as [|a l IH]; cbn; auto. destruct (f (g a)); cbn; lia. Qed.

Fixpoint total (d : nat -> nat) (n : nat) : nat := match n with O => O | S k => (d O + total (fun i => d (S i)) k)%nat end.

(** If every accepted vector has a bad coordinate, and a prefix of length i has
    at most d i bad continuations in S, then few vectors are accepted. *)
Theorem count_bad {A} n : forall (S : list A) (acc : list A -> bool) (bd : list A -> A -> bool) (d : nat -> nat),
  (forall pre, (length pre < n)%nat -> (length (filter (bd pre) S) <= d (length pre))%nat) ->
  (forall v, In v (vectors n S) -> acc v = true -> exists i a, nth_error v i = Some a /\ bd (firstn i v) a = true) ->
  (length (filter acc (vectors n S)) <= total d n * length S ^ (pred n))%nat.
Proof.
  induction n as [|n IH]; intros S acc bd d Hd Hacc.
  - cbn [vectors filter]. destruct (acc []) eqn:E; [|cbn; lia].
    destruct (Hacc [] (or_introl eq_refl) E) as ([|i] & a & H & _); discriminate.
  - cbn [vectors total pred].
    set (q := total (fun i => d (Datatypes.S i)) n).
    assert (HB : forall a, In a S -> (length (filter acc (map (cons a) (vectors n S))) <=
        (if bd [] a then length S ^ n else 0) + q * length S ^ (pred n))%nat).
    { intros a Ha. rewrite filter_map_length. destruct (bd [] a) eqn:Eb.
      - pose proof (filter_le (fun v => acc (a :: v)) (vectors n S)) as H. rewrite vectors_length in H. lia.
      - cbn [Nat.add]. apply (IH S (fun v => acc (a :: v)) (fun pre => bd (a :: pre)) (fun i => d (Datatypes.S i))).
        + intros pre Hp. apply (Hd (a :: pre)). cbn. lia.
        + intros v Hv Hv2. destruct (Hacc (a :: v)) as (i & x & Hi & Hb); auto.
          { cbn [vectors]. apply in_flat_map. exists a. split; auto. now apply in_map. }
          destruct i as [|i]; [cbn in Hi; injection Hi as <-; cbn in Hb; congruence|].
          exists i, x. split; [exact Hi|exact Hb]. }
    assert (HS : forall l, incl l S -> (length (filter acc (flat_map (fun a => map (cons a) (vectors n S)) l)) <=
        length (filter (bd []) l) * length S ^ n + length l * (q * length S ^ (pred n)))%nat).
    { induction l as [|a l IHl]; intros Hi; cbn [flat_map]; [cbn; lia|].
      rewrite filter_app, app_length. specialize (IHl (fun x Hx => Hi x (or_intror Hx))).
      specialize (HB a (Hi a (or_introl eq_refl))). cbn [filter length]. destruct (bd [] a); cbn [length]; lia. }
    specialize (HS S (incl_refl S)). specialize (Hd [] ltac:(cbn; lia)). cbn [length] in Hd.
    assert (Hq : (length S * (q * length S ^ (pred n)) <= q * length S ^ n)%nat).
    { destruct n as [|n']; [unfold q; cbn; lia|]. cbn [pred]. rewrite Nat.pow_succ_r'. lia. }
    apply (Nat.mul_le_mono_r _ _ (length S ^ n)) in Hd. lia.
Qed.

Lemma total_const d n : total (fun _ => d) n = (n * d)%nat.
Proof. induction n as [|n IH]; cbn [total]; auto. rewrite IH. lia. Qed.

End Proofs.
