From Coq Require Import List ZArith Bool Arith Lia Permutation Sorted.
From Verif Require Import Base.Array Base.Machine Spec.Runner Model.Runner.
Import ListNotations.
Local Open Scope list_scope.

(** ** Batches *)
Definition err_of {T} (x : result T) : option T := match x with Ok _ => None | Err m => Some m end.
Definition failures_from {E} (i : nat) (outs : list (option E)) : list (nat * E) :=
  flat_map (fun p => match snd p with Some e => [(fst p, e)] | None => [] end) (combine (seq i (length outs)) outs).

Lemma account_all {T} (outs : list (result T)) : forall i r,
  fold_left (fun r p => account r (fst p) (snd p)) (combine (seq i (length outs)) outs) r =
  {| succeeded := succeeded r + (length outs - length (failures_from i (map err_of outs)));
     failed := failed r + length (failures_from i (map err_of outs));
     errors := errors r ++ failures_from i (map err_of outs) |} /\
  length (failures_from i (map err_of outs)) <= length outs.
Proof.
  induction outs as [|x outs IH]; intros i r.
  - cbn. split; [|lia]. destruct r; cbn. rewrite !Nat.add_0_r, app_nil_r. reflexivity.
  - cbn [length seq combine fold_left map fst snd]. destruct (IH (S i) (account r i x)) as (E & L). rewrite E.
    assert (HF : failures_from i (err_of x :: map err_of outs) =
      match x with Ok _ => failures_from (S i) (map err_of outs) | Err m => (i, m) :: failures_from (S i) (map err_of outs) end).
    { unfold failures_from. cbn [length seq combine flat_map fst snd]. destruct x; reflexivity. }
    rewrite HF. destruct x as [m|m]; cbn [account succeeded failed errors length].
    + split; [|lia]. f_equal; lia.
    + split; [|lia]. rewrite <- app_assoc. f_equal; lia.
Qed.

Lemma batch_loop_runs {S J T} (f : S -> nat -> J -> S * result T) jobs : forall st r i,
  exists outs st', runs f st i jobs outs st' /\ length outs = length jobs /\
    batch_loop f st r i jobs = (st', fold_left (fun r p => account r (fst p) (snd p)) (combine (seq i (length outs)) outs) r).
Proof.
  induction jobs as [|j jobs IH]; intros st r i.
  - exists [], st. repeat split. constructor.
  - cbn [batch_loop]. destruct (f st i j) as (st1, x) eqn:E.
    destruct (IH st1 (account r i x) (i + 1)) as (outs & st' & R & L & B).
    exists (x :: outs), st'. split; [econstructor; eassumption|]. split; [cbn; lia|]. rewrite B.
    cbn [length seq combine fold_left fst snd]. now rewrite Nat.add_1_r.
Qed.

Lemma sequential_ok {S J T} (f : S -> nat -> J -> S * result T) st jobs :
  exists outs st' r, runs f st 0 jobs outs st' /\ length outs = length jobs /\ run_batch_loop f st jobs = (st', r) /\
    errors r = failures (map err_of outs) /\ failed r = length (errors r) /\ succeeded r + failed r = length jobs.
Proof.
  destruct (batch_loop_runs f jobs st empty_result 0) as (outs & st' & R & L & B).
  destruct (account_all outs 0 empty_result) as (E & LE).
  exists outs, st', (fold_left (fun r p => account r (fst p) (snd p)) (combine (seq 0 (length outs)) outs) empty_result).
  split; auto. split; auto. split; [exact B|]. rewrite E. cbn [errors failed succeeded empty_result app].
  split; [reflexivity|]. split; [reflexivity|]. lia.
Qed.

Lemma failures_increasing {E} (outs : list (option E)) : forall i,
  StronglySorted (fun a b => fst a < fst b) (failures_from i outs) /\ Forall (fun a => i <= fst a) (failures_from i outs).
Proof.
  induction outs as [|x outs IH]; intros i; cbn; [split; constructor|].
  unfold failures_from in *. destruct (IH (S i)) as (A & B).
  destruct x as [e|]; cbn [app snd fst].
  - split; [constructor; auto|constructor; cbn; auto]; eapply Forall_impl; try exact B; cbn; intros; lia.
  - split; auto. eapply Forall_impl; try exact B; cbn; intros; lia.
Qed.
Lemma failures_own {E} (outs : list (option E)) k e : forall i,
  In (k, e) (failures_from i outs) <-> i <= k /\ nth_error outs (k - i) = Some (Some e).
Proof.
  induction outs as [|x outs IH]; intros i; unfold failures_from in *; cbn.
  - split; [tauto|]. intros (_ & H). destruct (k - i); discriminate.
  - rewrite in_app_iff, IH. split.
    + intros [H|(H & N)].
      * destruct x; cbn in H; [|tauto]. destruct H as [H|[]]. injection H as -> ->. rewrite Nat.sub_diag. auto.
      * split; [lia|]. replace (k - i) with (S (k - S i)) by lia. auto.
    + intros (H & N). destruct (Nat.eq_dec i k) as [->|D].
      * left. rewrite Nat.sub_diag in N. cbn in N. injection N as ->. cbn. auto.
      * right. split; [lia|]. replace (k - i) with (S (k - S i)) in N by lia. auto.
Qed.
Lemma failures_spec {E} (outs : list (option E)) :
  StronglySorted (fun a b => fst a < fst b) (failures outs) /\
  forall k e, In (k, e) (failures outs) <-> nth_error outs k = Some (Some e).
Proof.
  split; [apply (failures_increasing outs 0)|]. intros k e.
  rewrite (failures_own outs k e 0), Nat.sub_0_r. intuition lia.
Qed.

Section Parallel.
Context {J T P C : Type} (execute : nat -> J -> result T * option (P * C)) (jobs : list J).

Lemma run_slots_ok sched : forall slots files, length slots = length jobs ->
  Forall (fun i => i < length jobs) sched ->
  exists slots' files', run_slots execute jobs sched slots files = Some (slots', files') /\ length slots' = length jobs /\
    forall i j, nth_error jobs i = Some j ->
      nth_error slots' i = if in_dec Nat.eq_dec i sched then Some (Some (i, fst (execute i j))) else nth_error slots i.
Proof.
  induction sched as [|k sched IH]; intros slots files L HF.
  - exists slots, files. repeat split; auto.
  - apply Forall_inv in HF as Hk. apply Forall_inv_tail in HF. cbn [run_slots].
    destruct (nth_error jobs k) as [jk|] eqn:Ejk; [|apply nth_error_None in Ejk; lia].
    unfold aget. rewrite Ejk. cbn [obind]. destruct (execute k jk) as (x, w) eqn:Ex.
    destruct (aset_some slots k (Some (k, x))) as (slots1 & E1 & L1 & N1); [lia|]. rewrite E1. cbn [obind].
    destruct (IH slots1 (match w with Some f => f :: files | None => files end)) as (slots' & files' & E & L' & N); [lia|auto|].
    exists slots', files'. split; [exact E|]. split; [exact L'|]. intros i j Ej. rewrite (N i j Ej).
    destruct (in_dec Nat.eq_dec i sched) as [I|I]; destruct (in_dec Nat.eq_dec i (k :: sched)) as [I'|I'].
    + reflexivity.
    + exfalso. apply I'. now right.
    + destruct I' as [ -> |I']; [|contradiction]. rewrite N1, Nat.eqb_refl. rewrite Ejk in Ej. injection Ej as ->. now rewrite Ex.
    + rewrite N1. destruct (Nat.eqb_spec i k) as [ -> |]; auto. exfalso. apply I'. now left.
Qed.

Lemma runs_stateless js : forall i outs st',
  runs (fun (_ : unit) i j => (tt, fst (execute i j))) tt i js outs st' ->
  outs = map (fun p => fst (execute (fst p) (snd p))) (combine (seq i (length js)) js).
Proof.
  induction js as [|j js IH]; intros i outs st' R; inversion R; subst; auto.
  cbn [length seq combine map fst snd]. match goal with H : (tt, _) = _ |- _ => injection H as <- <- end.
  f_equal. rewrite <- Nat.add_1_r. eapply IH. eassumption.
Qed.

Lemma omap_slots sl : forall (rs : list (nat * result T)), sl = map Some rs -> omap (fun s => s) sl = Some rs.
Proof. induction sl as [|a sl IH]; intros [|r rs] E; try discriminate; auto. cbn in E. injection E as -> ->. cbn. now rewrite (IH rs). Qed.

Lemma combine_seq_nth {B} (l : list B) : forall s i, nth_error (combine (seq s (length l)) l) i = option_map (fun x => (s + i, x)) (nth_error l i).
Proof.
  induction l as [|a l IH]; intros s [|i]; cbn; auto.
  - now rewrite Nat.add_0_r.
  - rewrite IH. destruct (nth_error l i); cbn; auto. now rewrite Nat.add_succ_r.
Qed.

Lemma parallel_ok sched files : Permutation sched (seq 0 (length jobs)) ->
  exists files', run_batch_loop_parallel execute jobs sched files =
    Some (snd (run_batch_loop (fun (_ : unit) i j => (tt, fst (execute i j))) tt jobs), files').
Proof.
  intros HP. unfold run_batch_loop_parallel.
  destruct (run_slots_ok sched (repeat None (length jobs)) files) as (slots & files' & E & L & N).
  { apply repeat_length. }
  { apply Forall_forall. intros i Hi. apply (Permutation_in _ HP), in_seq in Hi. lia. }
  rewrite E. cbn [obind]. exists files'.
  destruct (batch_loop_runs (fun (_ : unit) i j => (tt, fst (execute i j))) jobs tt empty_result 0) as (outs & st' & R & LO & B).
  pose proof (runs_stateless _ _ _ _ R) as EO.
  rewrite (omap_slots slots (combine (seq 0 (length outs)) outs)).
  - cbn [obind]. unfold run_batch_loop. now rewrite B.
  - apply nth_error_ext'. intros i. rewrite nth_error_map, combine_seq_nth, EO, nth_error_map, combine_seq_nth.
    destruct (nth_error jobs i) as [j|] eqn:Ej; cbn.
    + rewrite (N i j Ej). destruct (in_dec Nat.eq_dec i sched) as [|H]; auto.
      exfalso. apply H. apply (Permutation_in _ (Permutation_sym HP)), in_seq.
      assert (i < length jobs) by (apply nth_error_Some; congruence). lia.
    + apply nth_error_None. apply nth_error_None in Ej. lia.
Qed.

(** The files *)
Variables (eqb : P -> P -> bool) (path : J -> P).
Hypothesis eqb_spec : forall a b, eqb a b = true <-> a = b.
Lemma unique_nodup paths : forall seen, unique_from eqb seen paths = true <-> NoDup paths /\ forall p, In p paths -> ~ In p seen.
Proof.
  induction paths as [|p paths IH]; intros seen; cbn [unique_from].
  - split; auto. intros _. split; [constructor|]. intros p [].
  - destruct (existsb (eqb p) seen) eqn:E.
    + split; [discriminate|]. intros (_ & H). exfalso. apply existsb_exists in E as (q & I & Q).
      apply eqb_spec in Q. subst q. exact (H p (or_introl eq_refl) I).
    + rewrite IH. split.
      * intros (D & H). split.
        { constructor; auto. intros I. apply (H p I). now left. }
        intros q [ <- |I] S; [|apply (H q I); now right].
        enough (existsb (eqb p) seen = true) by congruence. apply existsb_exists. exists p. split; auto. now apply eqb_spec.
      * intros (D & H). inversion D; subst. split; auto. intros q I [ <- |S]; [contradiction|]. apply (H q); auto. now right.
Qed.
Lemma ensure_unique_iff paths : ensure_unique_witness_paths eqb paths = true <-> NoDup paths.
Proof. unfold ensure_unique_witness_paths. rewrite unique_nodup. split; [tauto|]. intros H. split; auto. Qed.

Hypothesis own : forall i j p c, snd (execute i j) = Some (p, c) -> p = path j.

Lemma nodup_path i k j jk : NoDup (map path jobs) -> nth_error jobs i = Some j -> nth_error jobs k = Some jk -> path j = path jk -> i = k.
Proof.
  intros D Ei Ek Q. rewrite NoDup_nth_error in D. apply D.
  - rewrite map_length. apply nth_error_Some. congruence.
  - rewrite !nth_error_map, Ei, Ek. cbn. now f_equal.
Qed.

Lemma files_from sched : NoDup sched -> NoDup (map path jobs) -> Forall (fun i => i < length jobs) sched ->
  forall slots files slots' files', run_slots execute jobs sched slots files = Some (slots', files') ->
  (forall i j, nth_error jobs i = Some j ->
    content eqb files' (path j) =
      match (if in_dec Nat.eq_dec i sched then snd (execute i j) else None) with
      | Some (_, c) => Some c
      | None => content eqb files (path j)
      end) /\
  (forall p, ~ In p (map path jobs) -> content eqb files' p = content eqb files p).
Proof.
  intros DS D. induction sched as [|k sched IH]; intros HF slots files slots' files' E.
  - cbn in E. injection E as <- <-. split; auto.
  - apply Forall_inv in HF as Hk. apply Forall_inv_tail in HF. inversion DS as [|? ? Hnk DS']; subst. cbn [run_slots] in E.
    unfold aget in E. destruct (nth_error jobs k) as [jk|] eqn:Ejk; [|discriminate]. cbn [obind] in E.
    destruct (execute k jk) as (x, w) eqn:Ex. destruct (aset slots k (Some (k, x))) as [slots1|] eqn:E1; [|discriminate]. cbn [obind] in E.
    destruct (IH DS' HF _ _ _ _ E) as (A & B). split.
    + intros i j Ej. rewrite (A i j Ej).
      assert (HW : i <> k -> content eqb (match w with Some f => f :: files | None => files end) (path j) = content eqb files (path j)).
      { intros NE. destruct w as [(p, c)|]; auto. cbn [content].
        pose proof (own k jk p c) as O. rewrite Ex in O. specialize (O eq_refl). subst p.
        destruct (eqb (path jk) (path j)) eqn:Q; auto. apply eqb_spec in Q.
        exfalso. apply NE. eapply (nodup_path i k j jk); auto. }
      destruct (Nat.eq_dec i k) as [ -> |NE].
      * destruct (in_dec Nat.eq_dec k sched); [contradiction|].
        destruct (in_dec Nat.eq_dec k (k :: sched)) as [_|H]; [|exfalso; apply H; now left].
        rewrite Ejk in Ej. injection Ej as ->. rewrite Ex. cbn [snd]. destruct w as [(p, c)|]; auto. cbn [content].
        pose proof (own k j p c) as O. rewrite Ex in O. specialize (O eq_refl). subst p.
        now rewrite (proj2 (eqb_spec _ _) eq_refl).
      * rewrite (HW NE). destruct (in_dec Nat.eq_dec i sched) as [I|I]; destruct (in_dec Nat.eq_dec i (k :: sched)) as [I'|I']; auto.
        { exfalso. apply I'. now right. }
        { destruct I' as [ <- |]; contradiction. }
    + intros p Hp. rewrite (B p Hp). destruct w as [(q, c)|]; auto. cbn [content].
      pose proof (own k jk q c) as O. rewrite Ex in O. specialize (O eq_refl). subst q.
      destruct (eqb (path jk) p) eqn:Q; auto. apply eqb_spec in Q. subst p.
      exfalso. apply Hp. apply in_map. eapply nth_error_In. eassumption.
Qed.

Lemma files_ok sched files r files' : ensure_unique_witness_paths eqb (map path jobs) = true ->
  Permutation sched (seq 0 (length jobs)) -> run_batch_loop_parallel execute jobs sched files = Some (r, files') ->
  (forall i j, nth_error jobs i = Some j ->
    content eqb files' (path j) =
      match snd (execute i j) with Some (_, c) => Some c | None => content eqb files (path j) end) /\
  (forall p, ~ In p (map path jobs) -> content eqb files' p = content eqb files p).
Proof.
  intros U HP E. apply ensure_unique_iff in U. unfold run_batch_loop_parallel in E.
  destruct (run_slots execute jobs sched (repeat None (length jobs)) files) as [(slots, fl)|] eqn:ER; [|discriminate]. cbn [obind] in E.
  destruct (omap (fun s => s) slots); [|discriminate]. cbn [obind] in E. injection E as _ <-.
  destruct (files_from sched) with (slots := repeat (@None (nat * result T)) (length jobs)) (files := files) (slots' := slots) (files' := fl) as (A & B); auto.
  { eapply Permutation_NoDup; [apply Permutation_sym; exact HP|apply seq_NoDup]. }
  { apply Forall_forall. intros i Hi. apply (Permutation_in _ HP), in_seq in Hi. lia. }
  split; auto. intros i j Ej. rewrite (A i j Ej). destruct (in_dec Nat.eq_dec i sched) as [|H]; auto.
  exfalso. apply H. apply (Permutation_in _ (Permutation_sym HP)), in_seq.
  assert (i < length jobs) by (apply nth_error_Some; congruence). lia.
Qed.
End Parallel.

Lemma check_ok {S J T} (f : S -> nat -> J -> S * result T) st jobs :
  (check_batch_result (snd (run_batch_loop f st jobs)) = None <->
   forall outs st', runs f st 0 jobs outs st' -> Forall (fun x => exists m, x = Ok m) outs) /\
  (forall n l, check_batch_result (snd (run_batch_loop f st jobs)) = Some (n, l) ->
    n = length l /\ 0 < n /\ forall outs st', runs f st 0 jobs outs st' -> l = failures (map err_of outs)).
Proof.
  assert (U : forall jobs st i outs st' outs2 st2, runs f st i jobs outs st' -> runs f st i jobs outs2 st2 -> outs = outs2).
  { clear. induction jobs as [|j jobs IH]; intros st i outs st' outs2 st2 R R2; inversion R; inversion R2; subst; auto.
    match goal with H1 : f st i j = _, H2 : f st i j = _ |- _ => rewrite H1 in H2; injection H2 as -> -> end.
    f_equal. eapply IH; eassumption. }
  destruct (sequential_ok f st jobs) as (outs & st' & r & R & L & E & EE & EF & ES). rewrite E. cbn [snd].
  unfold check_batch_result.
  assert (HF : failed r = 0 <-> Forall (fun x => exists m, x = Ok m) outs).
  { rewrite EF, EE. destruct (failures_spec (map err_of outs)) as (_ & FS). split.
    - intros H0. apply length_zero_iff_nil in H0. apply Forall_forall. intros x I.
      destruct x as [m|m]; [eauto|]. exfalso. apply In_nth_error in I as (k & Ek).
      assert (In (k, m) (failures (map err_of outs))) by (apply FS; rewrite nth_error_map, Ek; reflexivity).
      rewrite H0 in H. destruct H.
    - intros H. apply length_zero_iff_nil. destruct (failures (map err_of outs)) as [|(k, e) l] eqn:El; auto.
      assert (I : In (k, e) (failures (map err_of outs))) by (rewrite El; now left).
      rewrite <- El in FS. apply FS in I. rewrite nth_error_map in I. destruct (nth_error outs k) eqn:Ek; [|discriminate]. cbn in I.
      rewrite Forall_forall in H. apply nth_error_In in Ek. destruct (H _ Ek) as (m & ->). discriminate. }
  destruct (Nat.ltb_spec 0 (failed r)) as [HL|HL].
  - split.
    + split; [discriminate|]. intros H. specialize (H _ _ R). apply HF in H. lia.
    + intros n l H. injection H as <- <-. split; auto. split; auto. intros o2 s2 R2. rewrite EE. now rewrite (U _ _ _ _ _ _ _ R R2).
  - split; [|discriminate]. split; auto. intros _ o2 s2 R2. rewrite <- (U _ _ _ _ _ _ _ R R2). apply HF. lia.
Qed.

(** ** Orders *)
Section Cmp.
Definition good {A} (c : A -> A -> comparison) : Prop :=
  (forall a, c a a = Eq) /\ (forall a b, c b a = CompOpp (c a b)) /\
  (forall a b d, c a b = Eq -> c a d = c b d) /\ (forall a b d, c a b = Lt -> c b d = Lt -> c a d = Lt).
Lemma good_on {A B} (f : A -> B) c : good c -> good (fun a b => c (f a) (f b)).
Proof. intros (R & S & E & T). repeat split; eauto. Qed.
Lemma good_then {A} (c d : A -> A -> comparison) : good c -> good d -> good (fun a b => then_with (c a b) (d a b)).
Proof.
  intros (R & S & E & T) (R' & S' & E' & T'). unfold then_with. repeat split.
  - intros a. now rewrite R.
  - intros a b. rewrite S, S'. destruct (c a b); reflexivity.
  - intros a b x H. destruct (c a b) eqn:Q; try discriminate. rewrite (E _ _ x Q), (E' _ _ x H). reflexivity.
  - intros a b x H1 H2. destruct (c a b) eqn:Q; try discriminate.
    + rewrite (E _ _ x Q). destruct (c b x); try discriminate; eauto.
    + destruct (c b x) eqn:Q2; try discriminate.
      * assert (H : c x b = Eq) by (rewrite S, Q2; reflexivity).
        pose proof (E _ _ a H) as K. rewrite (S x a), K, (S a b), Q. reflexivity.
      * now rewrite (T _ _ _ Q Q2).
Qed.
End Cmp.

Lemma bytes_cmp_eq a : forall b, bytes_cmp a b = Eq <-> a = b.
Proof.
  induction a as [|x a IH]; intros [|y b]; cbn; try (split; congruence).
  destruct (Z.compare_spec x y) as [ -> |H|H].
  - rewrite IH. split; congruence.
  - split; [discriminate|]. intros Q. injection Q as -> _. lia.
  - split; [discriminate|]. intros Q. injection Q as -> _. lia.
Qed.
Lemma bytes_cmp_good : good bytes_cmp.
Proof.
  repeat split.
  - intros a. now apply bytes_cmp_eq.
  - induction a as [|x a IH]; intros [|y b]; cbn; auto. rewrite (Z.compare_antisym x y). destruct (x ?= y)%Z; cbn; auto.
  - intros a b d H. apply bytes_cmp_eq in H. now subst.
  - induction a as [|x a IH]; intros [|y b] [|z d]; cbn; try discriminate; auto.
    destruct (Z.compare_spec x y); destruct (Z.compare_spec y z); try discriminate; intros H1 H2.
    + subst. rewrite Z.compare_refl. eauto.
    + subst. now rewrite (proj2 (Z.compare_lt_iff _ _)).
    + subst. now rewrite (proj2 (Z.compare_lt_iff _ _)).
    + rewrite (proj2 (Z.compare_lt_iff x z)) by lia. reflexivity.
Qed.
Lemma opt_cmp_good : good opt_cmp.
Proof.
  repeat split.
  - intros [x|]; cbn; auto. apply Z.compare_refl.
  - intros [x|] [y|]; cbn; auto. apply Z.compare_antisym.
  - intros [x|] [y|] d; cbn; try discriminate; auto. intros H. apply Z.compare_eq in H. now subst.
  - intros [x|] [y|] [z|]; cbn; try discriminate; auto. rewrite !Z.compare_lt_iff. lia.
Qed.

(** ** Splitting names *)
Lemma digitb_iff b : digitb b = true <-> is_digit b.
Proof. unfold digitb, is_digit. rewrite andb_true_iff, !Z.leb_le. tauto. Qed.
Lemma rfind_digits ds : Forall (fun b => digitb b || contb b = true) ds -> forall i, rfind_from i ds = None.
Proof. induction 1 as [|b ds H _ IH]; intros i; cbn; auto. now rewrite IH, H. Qed.
Lemma rfind_app p x ds : digitb x || contb x = false -> Forall (fun b => digitb b || contb b = true) ds ->
  forall i, rfind_from i (p ++ x :: ds) = Some (i + length p).
Proof.
  intros HX HD. induction p as [|b p IH]; intros i; cbn.
  - rewrite rfind_digits, HX by auto. f_equal. lia.
  - rewrite IH. f_equal. lia.
Qed.
Lemma digits_forall ds : Forall is_digit ds -> Forall (fun b => digitb b || contb b = true) ds.
Proof. intros H. eapply Forall_impl; [|exact H]. intros b Hb. apply digitb_iff in Hb. now rewrite Hb. Qed.
Lemma digit_not_cont b : is_digit b -> contb b = false.
Proof. unfold is_digit, contb. intros H. apply andb_false_iff. left. apply Z.leb_gt. lia. Qed.

Definition prefix_ok (p : list Z) : Prop := p = [] \/ exists q x, p = q ++ [x] /\ (0 <= x < 128)%Z /\ ~ is_digit x.

Lemma split_ok p ds : prefix_ok p -> Forall is_digit ds ->
  split_trailing_number (p ++ ds) = Some (p, match ds with [] => None | _ => parse_u64 ds end).
Proof.
  intros HP HD. unfold split_trailing_number.
  assert (EP : match rfind (p ++ ds) with Some i => i + 1 | None => 0 end = length p).
  { destruct HP as [ -> |(q & x & -> & HX & HN)].
    - unfold rfind. cbn [app]. now rewrite (rfind_digits ds (digits_forall ds HD)).
    - rewrite <- app_assoc. unfold rfind. cbn [app]. rewrite rfind_app; [rewrite app_length; cbn; lia| |now apply digits_forall].
      apply orb_false_iff. split.
      + destruct (digitb x) eqn:D; auto. apply digitb_iff in D. contradiction.
      + unfold contb. apply andb_false_iff. left. apply Z.leb_gt. lia. }
  rewrite EP, app_length. destruct ds as [|d ds].
  - rewrite Nat.add_0_r, Nat.ltb_irrefl, app_nil_r. reflexivity.
  - destruct (Nat.ltb_spec (length p) (length p + length (d :: ds))) as [_|H]; [|cbn in H; lia].
    rewrite nth_error_app2, Nat.sub_diag by lia. cbn [nth_error].
    rewrite (digit_not_cont d (Forall_inv HD)).
    rewrite firstn_app, Nat.sub_diag, firstn_all, firstn_O, app_nil_r.
    rewrite skipn_app, Nat.sub_diag, skipn_all, skipn_O. reflexivity.
Qed.
Lemma split_plain s : plain_name s -> exists r, split_trailing_number s = Some r.
Proof. intros (p & ds & -> & HD & HP). rewrite split_ok; eauto. Qed.

Lemma split_panics p x cs ds : (192 <= x)%Z -> cs <> [] -> Forall (fun b => 128 <= b <= 191)%Z cs -> Forall is_digit ds ->
  split_trailing_number (p ++ [x] ++ cs ++ ds) = None.
Proof.
  intros HX HC HF HD. unfold split_trailing_number, rfind. cbn [app]. rewrite rfind_app.
  - rewrite app_length. cbn [length]. rewrite app_length. destruct cs as [|c cs]; [congruence|]. cbn [length Nat.add].
    destruct (Nat.ltb_spec (length p + 1) (length p + S (S (length cs + length ds)))) as [_|H]; [|lia].
    rewrite nth_error_app2 by lia. replace (length p + 1 - length p) with 1 by lia. cbn [nth_error app].
    pose proof (Forall_inv HF) as Hc. cbn beta in Hc. unfold contb.
    rewrite (proj2 (Z.leb_le 128 c)), (proj2 (Z.leb_le c 191)) by lia. reflexivity.
  - apply orb_false_iff. split.
    + apply andb_false_iff. right. apply Z.leb_gt. lia.
    + apply andb_false_iff. right. apply Z.leb_gt. lia.
  - apply Forall_app. split; [|now apply digits_forall]. eapply Forall_impl; [|exact HF]. intros b Hb. cbn beta in Hb |- *. apply orb_true_iff. right.
    unfold contb. rewrite (proj2 (Z.leb_le 128 b)), (proj2 (Z.leb_le b 191)) by lia. reflexivity.
Qed.
Lemma cmp_panics a b : split_trailing_number a = None -> natural_key_cmp a b = None /\ natural_key_cmp b a = None.
Proof.
  intros H. unfold natural_key_cmp. rewrite H. cbn. split; auto.
  destruct (split_trailing_number b) as [(p, n)|]; reflexivity.
Qed.

Definition key (s : list Z) : list Z * option Z := match split_trailing_number s with Some r => r | None => ([], None) end.
Definition nat_cmp (a b : list Z) : comparison :=
  then_with (bytes_cmp (fst (key a)) (fst (key b))) (then_with (opt_cmp (snd (key a)) (snd (key b))) (bytes_cmp a b)).
Lemma nat_cmp_good : good nat_cmp.
Proof.
  apply (good_then (fun a b => bytes_cmp (fst (key a)) (fst (key b)))).
  - apply (good_on (fun a => fst (key a))). exact bytes_cmp_good.
  - apply (good_then (fun a b => opt_cmp (snd (key a)) (snd (key b)))).
    + apply (good_on (fun a => snd (key a))). exact opt_cmp_good.
    + exact bytes_cmp_good.
Qed.
Lemma nat_cmp_eq a b : nat_cmp a b = Eq <-> a = b.
Proof.
  split; [|intros ->; apply (proj1 nat_cmp_good)]. unfold nat_cmp, then_with.
  destruct (bytes_cmp _ _); try discriminate. destruct (opt_cmp _ _); try discriminate. apply bytes_cmp_eq.
Qed.
Lemma natural_total a b : plain_name a -> plain_name b -> natural_key_cmp a b = Some (nat_cmp a b).
Proof.
  intros HA HB. unfold natural_key_cmp, nat_cmp, key. destruct (split_plain a HA) as ((pa, na) & ->).
  destruct (split_plain b HB) as ((pb, nb) & ->). reflexivity.
Qed.
Lemma natural_order : total_order plain_name natural_key_cmp.
Proof.
  destruct nat_cmp_good as (R & S & E & T). repeat split.
  - intros a b HA HB. exists (nat_cmp a b). now apply natural_total.
  - rewrite natural_total by auto. intros Q. injection Q as Q. now apply nat_cmp_eq.
  - intros ->. rewrite natural_total by auto. now rewrite R.
  - rewrite !natural_total by auto. intros Q. injection Q as Q. rewrite S, Q. reflexivity.
  - rewrite !natural_total by auto. intros Q. injection Q as Q. rewrite S, Q. reflexivity.
  - intros a b c HA HB HC. rewrite !natural_total by auto. intros Q1 Q2. injection Q1 as Q1. injection Q2 as Q2. f_equal. eauto.
Qed.

Lemma digits_value_ok ds : Forall is_digit ds -> forall acc, digits_value acc ds = Some (fold_left (fun acc b => acc * 10 + (b - 48))%Z ds acc).
Proof. induction 1 as [|b ds H _ IH]; intros acc; cbn; auto. apply digitb_iff in H. now rewrite H, IH. Qed.
Lemma numeric_order p da db : prefix_ok p -> da <> [] -> db <> [] -> Forall is_digit da -> Forall is_digit db ->
  (decimal da < decimal db < U64)%Z -> natural_key_cmp (p ++ da) (p ++ db) = Some Lt.
Proof.
  intros HP NA NB HA HB HL. unfold natural_key_cmp. rewrite !split_ok by auto. cbn [obind].
  destruct da as [|a da]; [congruence|]. destruct db as [|b db]; [congruence|].
  unfold parse_u64. rewrite !digits_value_ok by auto. cbn [obind].
  fold (decimal (a :: da)) (decimal (b :: db)).
  rewrite (proj2 (Z.ltb_lt (decimal (a :: da)) U64)), (proj2 (Z.ltb_lt (decimal (b :: db)) U64)) by lia.
  rewrite (proj2 (bytes_cmp_eq p p) eq_refl). cbn [then_with opt_cmp].
  rewrite (proj2 (Z.compare_lt_iff _ _)) by lia. reflexivity.
Qed.

(** ** Sorting *)
Section Sort.
Context {V : Type} (P : list Z -> Prop) (cmp : list Z -> list Z -> option comparison).
Hypothesis HT : total_order P cmp.
Definition le_entry (x y : list Z * V) : Prop := cmp (fst x) (fst y) = Some Lt \/ fst x = fst y.
Lemma le_entry_trans x y z : P (fst x) -> P (fst y) -> P (fst z) -> le_entry x y -> le_entry y z -> le_entry x z.
Proof.
  destruct HT as (_ & _ & _ & T). unfold le_entry. intros Px Py Pz [H1|H1] [H2|H2].
  - left. eauto.
  - left. now rewrite <- H2.
  - left. now rewrite H1.
  - right. congruence.
Qed.
Lemma insert_ok x l : P (fst x) -> Forall (fun y => P (fst y)) l -> StronglySorted le_entry l ->
  exists l', insert_by cmp x l = Some l' /\ Permutation (x :: l) l' /\ StronglySorted le_entry l'.
Proof.
  destruct HT as (D & E & S & T). intros Px. induction l as [|y l IH]; intros HP HS; cbn [insert_by].
  - exists [x]. repeat split; auto. repeat constructor.
  - inversion HP as [|? ? Py HP']; subst. inversion HS as [|? ? HS' HF]; subst.
    destruct (D (fst x) (fst y) Px Py) as (c & Ec). rewrite Ec. cbn [obind].
    assert (HLE : le_entry x y -> exists l', Some (x :: y :: l) = Some l' /\ Permutation (x :: y :: l) l' /\ StronglySorted le_entry l').
    { intros L. exists (x :: y :: l). repeat split; auto. constructor; auto. constructor; auto.
      rewrite Forall_forall in *. intros z I. eapply (le_entry_trans x y z); auto. }
    destruct c.
    + apply HLE. right. now apply E.
    + apply HLE. now left.
    + destruct (IH HP' HS') as (l' & -> & Pl & Sl). cbn [obind]. exists (y :: l'). split; auto. split.
      * rewrite perm_swap. now apply perm_skip.
      * constructor; auto. apply Forall_forall. intros z I. apply (Permutation_in _ (Permutation_sym Pl)) in I. destruct I as [ <- |I].
        { left. now apply S. }
        { rewrite Forall_forall in HF. auto. }
Qed.
Lemma sort_ok (l : list (list Z * V)) : Forall (fun y => P (fst y)) l ->
  exists l', sort_by cmp l = Some l' /\ Permutation l l' /\ StronglySorted le_entry l'.
Proof.
  induction l as [|x l IH]; intros HP; cbn [sort_by].
  - exists []. repeat split; auto. constructor.
  - inversion HP as [|? ? Px HP']; subst. destruct (IH HP') as (l1 & -> & P1 & S1). cbn [obind].
    destruct (insert_ok x l1 Px) as (l' & E & P' & S'); auto.
    { eapply Permutation_Forall; eassumption. }
    exists l'. split; auto. split; auto. rewrite <- P'. now apply perm_skip.
Qed.
Lemma le_anti x y : P (fst x) -> P (fst y) -> le_entry x y -> le_entry y x -> fst x = fst y.
Proof.
  destruct HT as (D & E & S & T). intros Px Py [H|H] [H'|H']; auto.
  apply E; auto. exfalso. apply S in H; auto. congruence.
Qed.
Lemma sorted_unique l m : Forall (fun y => P (fst y)) l -> NoDup (map fst l) -> Permutation l m ->
  StronglySorted le_entry l -> StronglySorted le_entry m -> l = m.
Proof.
  revert m. induction l as [|x l IH]; intros m HP HN HM SL SM.
  - apply Permutation_nil in HM. now subst.
  - destruct m as [|y m]; [apply Permutation_sym, Permutation_nil in HM; discriminate|].
    assert (HPm : Forall (fun y => P (fst y)) (y :: m)) by (eapply Permutation_Forall; eassumption).
    inversion HP as [|? ? Px HP']; subst. inversion HPm as [|? ? Py HPm']; subst.
    inversion SL as [|? ? SL' FL]; subst. inversion SM as [|? ? SM' FM]; subst.
    assert (x = y) as ->.
    { assert (Ix : In x (y :: m)) by (eapply Permutation_in; [exact HM|now left]).
      assert (Iy : In y (x :: l)) by (eapply Permutation_in; [apply Permutation_sym; exact HM|now left]).
      destruct Ix as [ <- |Ix]; auto. destruct Iy as [ <- |Iy]; auto.
      rewrite Forall_forall in FL, FM. pose proof (le_anti x y Px Py (FL _ Iy) (FM _ Ix)) as Q.
      exfalso. cbn in HN. apply NoDup_cons_iff in HN as (HN & _). apply HN. rewrite Q. now apply in_map. }
    f_equal. apply IH; auto.
    + cbn in HN. now apply NoDup_cons_iff in HN.
    + eapply Permutation_cons_inv. exact HM.
Qed.
Lemma sort_perm (l m : list (list Z * V)) : Forall (fun y => P (fst y)) l -> NoDup (map fst l) -> Permutation l m -> sort_by cmp l = sort_by cmp m.
Proof.
  intros HP HN HM. destruct (sort_ok l HP) as (l' & -> & P1 & S1).
  destruct (sort_ok m) as (m' & -> & P2 & S2); [eapply Permutation_Forall; eassumption|]. f_equal.
  apply sorted_unique; auto.
  - eapply Permutation_Forall; eassumption.
  - eapply Permutation_NoDup; [|exact HN]. now apply Permutation_map.
  - rewrite <- P1, <- P2. exact HM.
Qed.
End Sort.

(** ** Flattening *)
Lemma string_entries_perm {V} (l m : list (option (list Z) * V)) : Permutation l m -> Permutation (string_entries l) (string_entries m).
Proof.
  unfold string_entries. induction 1; cbn; auto.
  - now apply Permutation_app_head.
  - rewrite !app_assoc. apply Permutation_app_tail, Permutation_app_comm.
  - etransitivity; eassumption.
Qed.
Definition flat_entries {T} (l : list (option (list Z) * value T)) := map (fun e => (fst e, flatten (snd e))) l.
Lemma string_entries_map {V W} (f : V -> W) l :
  string_entries (map (fun e => (fst e, f (snd e))) l) = map (fun e => (fst e, f (snd e))) (string_entries l).
Proof. unfold string_entries. induction l as [|(k, v) l IH]; cbn; auto. destruct k; cbn; now rewrite IH. Qed.

Definition results {T} := fix seq_results (l : list (list Z * option (option (list T)))) : option (option (list T)) := match l with
  | [] => Some (Some [])
  | (_, x) :: r => let* a := x in
      match a with None => Some None | Some a => let* b := seq_results r in Some (and_then (Some a) b) end
  end.
Lemma flatten_map {T} (l : list (option (list Z) * value T)) :
  flatten (Map l) = let* sorted := sort_by natural_key_cmp (string_entries (flat_entries l)) in results sorted.
Proof.
  cbn [flatten]. fold (@results T). f_equal. f_equal. f_equal. unfold flat_entries.
  induction l as [|(k, v) l IH]; cbn; auto. now rewrite IH.
Qed.

Lemma flatten_perm {T} (l m : list (option (list Z) * value T)) :
  Permutation l m -> Forall (fun e => plain_name (fst e)) (string_entries l) -> NoDup (map fst (string_entries l)) ->
  flatten (Map l) = flatten (Map m).
Proof.
  intros HP HF HN. rewrite !flatten_map. f_equal. apply (sort_perm plain_name).
  - exact natural_order.
  - unfold flat_entries. rewrite (string_entries_map flatten). rewrite Forall_map. exact HF.
  - unfold flat_entries. rewrite (string_entries_map flatten), map_map. exact HN.
  - apply string_entries_perm. unfold flat_entries. now apply Permutation_map.
Qed.

(** The order of a map's entries deep inside a value does not matter either *)
Inductive context (T : Type) :=
  | Here
  | InArray (before : list (value T)) (c : context T) (after : list (value T))
  | InMap (before : list (option (list Z) * value T)) (key : option (list Z)) (c : context T) (after : list (option (list Z) * value T)).
Arguments Here {T}. Arguments InArray {T}. Arguments InMap {T}.
Fixpoint plug {T} (c : context T) (v : value T) : value T :=
  match c with
  | Here => v
  | InArray b c a => Array (b ++ plug c v :: a)
  | InMap b k c a => Map (b ++ (k, plug c v) :: a)
  end.
Lemma flatten_array {T} (l : list (value T)) :
  flatten (Array l) = results (map (fun v => ([], flatten v)) l).
Proof.
  cbn [flatten]. induction l as [|v l IH]; cbn; auto. destruct (flatten v) as [[x|]|]; cbn; auto. exact (f_equal (fun o => obind o (fun b => Some (and_then (Some x) b))) IH).
Qed.
Lemma flatten_plug {T} (c : context T) v w : flatten v = flatten w -> flatten (plug c v) = flatten (plug c w).
Proof.
  intros H. induction c as [|b c IH a|b k c IH a]; cbn [plug]; auto.
  - rewrite !flatten_array, !map_app. cbn [map]. now rewrite IH.
  - rewrite !flatten_map. unfold flat_entries. rewrite !map_app. cbn [map fst snd]. now rewrite IH.
Qed.

(** What flattening returns: the entries in order of their names *)
Lemma flatten_sorted {T} (l : list (option (list Z) * value T)) :
  Forall (fun e => plain_name (fst e)) (string_entries l) ->
  exists order, Permutation (string_entries l) order /\
    StronglySorted (fun x y => natural_key_cmp (fst x) (fst y) = Some Lt \/ fst x = fst y) order /\
    flatten (Map l) = flatten (Array (map snd order)).
Proof.
  intros HF. rewrite flatten_map. unfold flat_entries. rewrite (string_entries_map flatten).
  assert (HS : forall l : list (list Z * value T), Forall (fun e => plain_name (fst e)) l ->
    sort_by natural_key_cmp (map (fun e => (fst e, flatten (snd e))) l) =
    option_map (map (fun e => (fst e, flatten (snd e)))) (sort_by natural_key_cmp l)).
  { clear. assert (HI : forall (x : list Z * value T) l,
      insert_by natural_key_cmp (fst x, flatten (snd x)) (map (fun e => (fst e, flatten (snd e))) l) =
      option_map (map (fun e => (fst e, flatten (snd e)))) (insert_by natural_key_cmp x l)).
    { intros x. induction l as [|y l IH]; cbn; auto. destruct (natural_key_cmp (fst x) (fst y)) as [[| |]|]; cbn; auto.
      rewrite IH. destruct (insert_by natural_key_cmp x l); reflexivity. }
    induction l as [|x l IH]; intros HF; cbn; auto. rewrite IH by (now inversion HF).
    destruct (sort_by natural_key_cmp l); cbn; auto. }
  rewrite HS by auto. destruct (sort_ok plain_name natural_key_cmp natural_order (string_entries l) HF) as (l' & -> & HP & SS).
  exists l'. split; auto. split; auto. cbn [option_map obind]. rewrite flatten_array. clear.
  induction l' as [|(k, v) l IH]; cbn; auto. destruct (flatten v) as [[a|]|]; cbn; auto. now rewrite IH.
Qed.
