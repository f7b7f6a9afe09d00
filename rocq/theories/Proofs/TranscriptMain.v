From Coq Require Import List ZArith Bool Arith Lia.
From Verif Require Import Base.Array Model.Transcript Spec.Transcript Proofs.Transcript.
Import ListNotations.
Local Open Scope list_scope.

(** a hash with digests of two bytes *)
Definition toy_hash (l : bytes) : bytes := [(fold_left (fun a x => 31 * a + x + 7) l 1 mod 256)%Z; (Z.of_nat (length l) mod 256)%Z].
Lemma toy_length x : length (toy_hash x) = 2. Proof. reflexivity. Qed.

Section S.
Variables (H : bytes -> bytes) (D : nat).
Hypotheses (HD : 0 < D) (HH : forall x, length (H x) = D).
Lemma forget_refuted c n : exists before1 before2 t1 t2 outs1 outs2 u1 u2 res, everything before1 <> everything before2 /\
  run H D (new D) before1 = Some (t1, outs1) /\ run H D (new D) before2 = Some (t2, outs2) /\
  run H D t1 [Commit c; Sample n] = Some (u1, res) /\ run H D t2 [Commit c; Sample n] = Some (u2, res).
Proof.
  exists [Append [1%Z]], [Append [2%Z]]. destruct (run H D (new D) [Append [1%Z]]) as [(t1, o1)|] eqn:E1; [|discriminate]. destruct (run H D (new D) [Append [2%Z]]) as [(t2, o2)|] eqn:E2; [|discriminate].
  assert (L : locked t1 = locked t2).
  { cbn in E1, E2. injection E1 as <- _. injection E2 as <- _. reflexivity. }
  destruct (run H D t1 [Commit c; Sample n]) as [(u1, res)|] eqn:R.
  - destruct (forgets H D HD HH _ _ t1 t2 o1 o2 c [Sample n] E1 E2 L u1 res R) as (u2 & R2 & _). exists t1, t2, o1, o2, u1, u2, res. split; [discriminate|]. auto.
  - exfalso. cbn [run step] in R. destruct (commit_total H D HH t1 c) as (s & K). rewrite K in R. cbn [obind fst snd run step] in R. discriminate.
Qed.
End S.
Section P.
Variables (S : Type) (absorb : S -> bytes -> S) (size : nat).
Hypothesis Hs : 0 < size.
Lemma pieces_nil f : pieces f size [] = []. Proof. destruct f; reflexivity. Qed.
Lemma pieces_fuel f : forall g l, length l <= f -> length l <= g -> pieces f size l = pieces g size l.
Proof.
  induction f as [|f IH]; intros g l Lf Lg; [destruct l; [now rewrite !pieces_nil|cbn in Lf; lia]|]. destruct l as [|x l]; [now rewrite !pieces_nil|].
  destruct g as [|g]; [cbn in Lg; lia|]. cbn [pieces]. f_equal. apply IH; rewrite skipn_length; cbn [length] in *; lia.
Qed.
Lemma chunks_pieces fuel : forall s l, length l <= fuel -> let (s', r) := chunks_exact S absorb size fuel s l in
  fold_left absorb (pieces (length l + size) size (filled size l)) s = match r with [] => s' | _ => absorb s' (r ++ repeat 0%Z (size - length r)) end.
Proof.
  induction fuel as [|fuel IH]; intros s l Hl.
  - destruct l; [|cbn in Hl; lia]. cbn [chunks_exact]. unfold filled. cbn [length app]. rewrite Nat.mod_0_l, Nat.sub_0_r, Nat.mod_same by lia. cbn [repeat]. now rewrite pieces_nil.
  - cbn [chunks_exact]. destruct (Nat.ltb_spec (length l) size) as [Lt|Ge].
    + destruct l as [|x l].
      * unfold filled. cbn [length app]. rewrite Nat.mod_0_l, Nat.sub_0_r, Nat.mod_same by lia. cbn [repeat]. now rewrite pieces_nil.
      * unfold filled. rewrite (Nat.mod_small (length (x :: l))) by auto. rewrite (Nat.mod_small (size - _)) by (cbn [length]; lia).
        replace (length (x :: l) + size) with (Datatypes.S (length l + size)) by reflexivity.
        assert (E : (x :: l) ++ repeat 0%Z (size - length (x :: l)) = x :: (l ++ repeat 0%Z (size - length (x :: l)))) by reflexivity.
        rewrite E at 1. cbn [pieces]. rewrite <- E. assert (Q : length ((x :: l) ++ repeat 0%Z (size - length (x :: l))) = size) by (rewrite app_length, repeat_length; lia).
        rewrite firstn_all2 by (rewrite Q; auto). rewrite skipn_all2 by (rewrite Q; auto). now rewrite pieces_nil.
    + specialize (IH (absorb s (firstn size l)) (skipn size l)). rewrite skipn_length in IH. specialize (IH ltac:(lia)).
      destruct (chunks_exact S absorb size fuel (absorb s (firstn size l)) (skipn size l)) as (s', r). rewrite <- IH.
      assert (M : (length l - size) mod size = length l mod size) by (replace (length l) with (length l - size + 1 * size) at 2 by lia; now rewrite Nat.mod_add by lia).
      unfold filled. rewrite skipn_length, M. set (z := repeat 0%Z _).
      destruct l as [|x l]; [cbn in Ge; lia|]. replace (length (x :: l) + size) with (Datatypes.S (length l + size)) by reflexivity. cbn [app]. cbn [pieces]. change (x :: l ++ z) with ((x :: l) ++ z).
      rewrite firstn_app, skipn_app. replace (size - length (x :: l)) with 0 by lia. cbn [firstn skipn]. rewrite app_nil_r. cbn [fold_left]. f_equal.
      apply pieces_fuel; rewrite app_length, skipn_length; unfold z; rewrite repeat_length; cbn [length] in *; pose proof (Nat.mod_upper_bound (size - length (x :: l) mod size) size ltac:(lia)); cbn [length] in *; lia.
Qed.
Lemma hash_pieces init l : hash_to_state S absorb size init l = fold_left absorb (pieces (length l + size) size (filled size l)) init.
Proof. unfold hash_to_state. pose proof (chunks_pieces (length l) init l (le_n _)) as Q. destruct (chunks_exact S absorb size (length l) init l) as (s', r). now rewrite Q. Qed.
Lemma pieces_concat f : forall l, length l <= f -> concat (pieces f size l) = l.
Proof.
  induction f as [|f IH]; intros l L; [destruct l; [reflexivity|cbn in L; lia]|]. destruct l as [|x l]; [reflexivity|]. cbn [pieces concat]. rewrite IH; [apply firstn_skipn|]. rewrite skipn_length. cbn [length] in *. lia.
Qed.
Lemma pieces_inj a b : length a = length b -> pieces (length a + size) size (filled size a) = pieces (length b + size) size (filled size b) -> a = b.
Proof.
  intros L E. apply (f_equal (@concat Z)) in E. assert (F : forall l, length (filled size l) <= length l + size).
  { intros l. unfold filled. rewrite app_length, repeat_length. pose proof (Nat.mod_upper_bound (size - length l mod size) size ltac:(lia)). lia. }
  rewrite !pieces_concat in E by apply F. unfold filled in E. rewrite L in E. now apply app_inv_tail in E.
Qed.
End P.
Section B.
Variables (H : bytes -> bytes) (D : nat).
Hypotheses (HD : 0 < D) (HH : forall x, length (H x) = D).
Lemma left_over_sample ops : forall p n, 0 < n -> left_over p (ops ++ [Sample n]) = [].
Proof.
  induction ops as [|o ops IH]; intros p n Hn; cbn [app left_over].
  - destruct n; [lia|reflexivity].
  - destruct o as [b|b|[|k]| | |]; now apply IH.
Qed.
Lemma everything_app a b : everything (a ++ b) = everything a ++ everything b.
Proof. apply flat_map_app. Qed.
Lemma no_commit_snoc ops n : no_commit ops -> no_commit (ops ++ [Sample n]).
Proof. intros N b I. apply in_app_iff in I as [I|[I|[]]]; [now apply (N b)|discriminate]. Qed.
Lemma last_digest t0 ops t outs : wf D t0 -> run H D t0 (ops ++ [Sample D]) = Some (t, outs) -> last outs [] = digest t.
Proof.
  intros W E. rewrite run_app in E. destruct (run H D t0 ops) as [(s, o1)|] eqn:E1; [|discriminate]. cbn [obind fst snd run step] in E. destruct (generate H D D s D) as (s', o2) eqn:G. cbn [obind fst snd] in E. injection E as <- <-.
  rewrite last_last. pose proof (run_wf H D HD HH _ _ _ _ W E1) as Ws. destruct (generate_spec H D HD HH D s D Ws (le_n D) s' o2 G) as (A & _ & _ & _ & _ & _ & _ & B & _).
  rewrite A, B. destruct D as [|d] eqn:ED; [lia|]. cbn [absorbed squeeze]. replace (S d - 1) with d by lia. rewrite Nat.div_small by lia. cbn [repeat app chain fold_left].
  rewrite firstn_app, HH, Nat.sub_diag, firstn_O, app_nil_r. apply firstn_all2. rewrite HH. auto.
Qed.
Lemma challenge_binds ops1 ops2 t1 t2 outs1 outs2 : no_commit ops1 -> no_commit ops2 ->
  run H D (new D) (ops1 ++ [Sample D]) = Some (t1, outs1) -> run H D (new D) (ops2 ++ [Sample D]) = Some (t2, outs2) ->
  length (queries t1) = length (queries t2) -> last outs1 [] = last outs2 [] -> everything ops1 = everything ops2 \/ collision H (queries t1 ++ queries t2).
Proof.
  intros N1 N2 E1 E2 L E. pose proof (wf_new D) as W0.
  rewrite (last_digest (new D) ops1 t1 outs1 W0 E1), (last_digest (new D) ops2 t2 outs2 W0 E2) in E.
  destruct (binding H D HD HH _ _ _ _ _ _ (no_commit_snoc _ D N1) (no_commit_snoc _ D N2) E1 E2 L E) as [Q|C]; [left|auto].
  pose proof (nothing_lost D (ops1 ++ [Sample D]) [] (no_commit_snoc _ D N1)) as P1. pose proof (nothing_lost D (ops2 ++ [Sample D]) [] (no_commit_snoc _ D N2)) as P2.
  rewrite left_over_sample, app_nil_r in P1, P2 by auto. rewrite everything_app in P1, P2. cbn [everything flat_map app] in P1, P2. rewrite app_nil_r in P1, P2. cbn in P1, P2. congruence.
Qed.
End B.
(** ** Examples *)
Lemma binds_met : let ops := [Append [1; 2]%Z; Sample 3; Lock; Append [9%Z]; Unlock; Append [4%Z]; Sync; Sample 2] in
  no_commit ops /\ exists t outs, run toy_hash 2 (new 2) ops = Some (t, outs) /\ length (queries t) = 5 /\
  absorbed 2 [] ops = [[1; 2]%Z; []; [9%Z]; [4%Z]; []] /\ everything ops = [1; 2; 9; 4]%Z /\ unlocked false ops = [1; 2; 4]%Z.
Proof.
  cbv zeta. split; [intros b I; cbn in I; intuition discriminate|]. eexists. eexists. split; [vm_compute; reflexivity|]. repeat split.
Qed.
Local Opaque PCS_DIGEST_LOOP.
Lemma run_commit H D t c r : run H D t (Commit c :: r) = let* s := append_commitment H D t c in let* y := run H D s r in Some (fst y, [] :: snd y).
Proof. cbn [run step]. destruct (append_commitment H D t c); reflexivity. Qed.
Lemma commit_met : exists t outs, run toy_hash 2 (new 2) [Commit [5%Z]; Append [1%Z]; Sample 2] = Some (t, outs) /\ length (queries t) = PCS_DIGEST_LOOP + 2.
Proof.
  destruct (commit_total toy_hash 2 toy_length (new 2) [5%Z]) as (s & K). destruct (commit_spec toy_hash 2 ltac:(lia) toy_length (new 2) [5%Z] s (wf_new 2) K) as (_ & _ & Q & W & _).
  assert (R : exists t outs, run toy_hash 2 s [Append [1%Z]; Sample 2] = Some (t, outs)) by (eexists; eexists; reflexivity). destruct R as (t & outs & R).
  exists t, ([] :: outs). split; [rewrite run_commit, K; cbn [obind]; rewrite R; reflexivity|].
  destruct (run_spec toy_hash 2 ltac:(lia) toy_length [Append [1%Z]; Sample 2] s t outs W) as (_ & _ & Q2 & _); [intros b I; cbn in I; intuition discriminate|exact R|].
  rewrite Q2, Q. cbn [queries new app absorbed]. cbn [length]. rewrite app_length, !inputs_length, repeat_length. cbn [length]. rewrite app_length, repeat_length. change ((2 - 1) / 2) with 0. cbn [length]. lia.
Qed.
Lemma pad_refuted : exists (size : nat) a b, 0 < size /\ a <> b /\ forall S (absorb : S -> bytes -> S) init, hash_to_state S absorb size init a = hash_to_state S absorb size init b.
Proof. exists 32, ([1%Z] ++ repeat 0%Z 5), [1%Z]. split; [lia|]. split; [discriminate|]. intros S absorb init. apply pad_collision; cbn; lia. Qed.
