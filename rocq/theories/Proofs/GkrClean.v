(** The GKR verifier without scratch pads, and its equivalence with the modelled one. *)
From Coq Require Import List Bool Arith Lia Ring Field.
From Verif Require Import Base.Field Base.Array Spec.Multilinear Spec.Gkr Model.Polynomials Model.Layered Model.Gkr
  Proofs.Multilinear Proofs.Polynomials.
Import ListNotations.

Section Proofs.
Variable K : field.
Add Field Kf : (fth K).
Local Open Scope fld_scope.
Variables simd_vars mpi_vars : nat.
Local Notation player := (player K).
Local Notation pgate := (pgate K).

Definition in0 (g : pgate) : nat := nth 0 (pg_in K g) 0%nat.
Definition in1 (g : pgate) : nat := nth 1 (pg_in K g) 0%nat.

(** The weight of output o in the combined claim. *)
Definition weight (ch : dual_challenge K) (alpha : option K) (o : nat) : K :=
  eq_point (rz_0 ch) o + match alpha, rz_1 ch with Some a, Some z => a * eq_point z o | _, _ => 0 end.
Definition pub_mle (pub : list (list K)) (ch : dual_challenge K) (idx : nat) : K :=
  sumn (2 ^ simd_vars) (fun l => sumn (2 ^ mpi_vars) (fun k =>
    eq_point (r_mpi ch) k * nth l (nth (k * (length pub / 2 ^ mpi_vars) + idx) pub []) 0) * eq_point (r_simd ch) l).
Definition clean_cst (gates : list pgate) (pub : list (list K)) ch alpha : K :=
  fsum (map (fun g => weight ch alpha (pg_out K g) *
    match pg_ctype K g with TPublicInput idx => pub_mle pub ch idx | _ => pg_coef K g end) gates).
Definition clean_add (gates : list pgate) ch alpha (rx rs rm : list K) : K :=
  fsum (map (fun g => weight ch alpha (pg_out K g) * eq_point rx (in0 g) * pg_coef K g) gates)
    * eq_vec (r_simd ch) rs * eq_vec (r_mpi ch) rm.
Definition clean_mul (gates : list pgate) ch alpha (rx ry rs rm : list K) : K :=
  fsum (map (fun g => weight ch alpha (pg_out K g) * (eq_point rx (in0 g) * eq_point ry (in1 g) * pg_coef K g)) gates)
    * eq_vec (r_simd ch) rs * eq_vec (r_mpi ch) rm.

Section Transcript.
Variable T : Type.
Variable append : K -> T -> T.
Variable sample : T -> option (K * T).
Local Notation verify_rounds := (verify_rounds K T append sample).
Local Notation verify_layer := (verify_layer K simd_vars mpi_vars T append sample).

Definition clean_layer (lag : lagrange K) (l : player) (pub : list (list K)) (ch : dual_challenge K) (v0 : K) (v1 alpha : option K)
    (rd : reader K) (t : T) : option (bool * dual_challenge K * K * option K * reader K * T) :=
  let sum := match v1, alpha with Some v1, Some a => v0 + v1 * a | _, _ => v0 end - clean_cst (pl_const K l) pub ch alpha in
  let* (verified, sum, rx, rd, t) := verify_rounds lag (pl_ivars K l) 2 true sum [] rd t in
  let* (verified, sum, rs, rd, t) := verify_rounds lag simd_vars 3 verified sum [] rd t in
  let* (verified, sum, rm, rd, t) := verify_rounds lag mpi_vars 3 verified sum [] rd t in
  let '(vx, vx_ok, rd) := try_deserialize_field K rd in
  let verified := verified && vx_ok in
  let sum := sum - vx * clean_add (pl_add K l) ch alpha rx rs rm in
  let t := append vx t in
  if negb (empty (pl_mul K l)) then
    let* (verified, sum, ry, rd, t) := verify_rounds lag (pl_ivars K l) 2 verified sum [] rd t in
    let '(vy, vy_ok, rd) := try_deserialize_field K rd in
    let verified := verified && vy_ok in
    let t := append vy t in
    Some (verified && feqb sum (vx * vy * clean_mul (pl_mul K l) ch alpha rx ry rs rm),
          {| rz_0 := rx; rz_1 := Some ry; r_simd := rs; r_mpi := rm |}, vx, Some vy, rd, t)
  else Some (verified && feqb sum 0, {| rz_0 := rx; rz_1 := None; r_simd := rs; r_mpi := rm |}, vx, None, rd, t).

Fixpoint clean_layers (lag : lagrange K) (rev_layers : list player) (pub : list (list K)) (verified : bool)
    (ch : dual_challenge K) (v0 : K) (v1 alpha : option K) (rd : reader K) (t : T)
  : option (bool * dual_challenge K * K * option K * reader K * T) :=
  match rev_layers with
  | [] => Some (verified, ch, v0, v1, rd, t)
  | l :: rest =>
    let* (cur, ch, v0, v1, rd, t) := clean_layer lag l pub ch v0 v1 alpha rd t in
    let* (alpha, t) := sample_alpha K T sample ch t in
    clean_layers lag rest pub (verified && cur) ch v0 v1 alpha rd t
  end.
Definition clean_verify (layers : list player) (pub : list (list K)) (claimed_v : K) (rd : reader K) (t : T) :=
  let* lag := new_lagrange K in
  let* last := aget layers (length layers - 1) in
  let* (ch, t) := sample_from_transcript K simd_vars mpi_vars T sample (pl_ovars K last) t in
  clean_layers lag (rev layers) pub true ch claimed_v None None rd (append claimed_v t).
End Transcript.

(** ** Tables *)
Definition pre (l : list K) (N n : nat) (f : nat -> K) : Prop :=
  length l = N /\ (n <= N)%nat /\ forall i, (i < n)%nat -> nth_error l i = Some (f i).
Lemma pre_get l N n f i : pre l N n f -> (i < n)%nat -> aget l i = Some (f i).
Proof. intros (_ & _ & H) Hi. now apply H. Qed.
Lemma pre_arr l n f : pre l n n f -> arr l n f.
Proof. intros (L & _ & H). split; auto. Qed.
Lemma pre_ext l N n f g : pre l N n f -> (forall i, (i < n)%nat -> f i = g i) -> pre l N n g.
Proof. intros (L & Hn & H) E. split; [auto|split; auto]. intros i Hi. rewrite <- E by auto. auto. Qed.

Lemma eq_eval_pre r e s1 s2 Ne N : length e = Ne -> length s1 = N -> length s2 = N ->
  (2 ^ length r <= Ne)%nat -> (2 ^ length r <= N)%nat ->
  exists e' s1' s2', eq_eval_at r 1 e s1 s2 = Some (e', s1', s2') /\
    pre e' Ne (2 ^ length r) (eq_point r) /\ length s1' = N /\ length s2' = N.
Proof.
  intros He H1 H2 HNe HN.
  destruct (eq_eval_at_ok K r 1 e s1 s2 Ne N N (fun i => nth i e 0) (fun i => nth i s1 0) (fun i => nth i s2 0))
    as (e' & s1' & s2' & E & (Le & Ha) & L1 & L2).
  - rewrite <- He. apply arr_self.
  - rewrite <- H1. apply arr_self.
  - rewrite <- H2. apply arr_self.
  - etransitivity; [|exact HN]. apply Nat.pow_le_mono_r; [lia|]. apply Nat.div_le_upper_bound; lia.
  - etransitivity; [|exact HN]. apply Nat.pow_le_mono_r; lia.
  - exists e', s1', s2'. split; [exact E|]. split; [|auto]. split; [auto|]. split; [auto|].
    intros i Hi. rewrite Ha by lia. apply Nat.ltb_lt in Hi. rewrite Hi. f_equal. ring.
Qed.

Lemma for_in_ext' {S} is (f g : nat -> S -> option S) s : (forall i s, In i is -> f i s = g i s) -> for_in is f s = for_in is g s.
Proof.
  revert s. induction is as [|i is IH]; intros s H; cbn [for_in]; auto. rewrite H by (now left).
  destruct (g i s); cbn; auto. apply IH. intros j s'' Hj. apply H. now right.
Qed.

Lemma add_scaled_ok n c b a N M f g : pre a N n f -> pre b M n g ->
  exists a', add_scaled K n c b a = Some a' /\ pre a' N n (fun i => f i + c * g i).
Proof.
  intros Ha Hb. unfold add_scaled.
  destruct (for_seq (fun j a' => length a' = N /\ forall i, (i < n)%nat -> nth_error a' i = Some (if (i <? j)%nat then f i + c * g i else f i))
    (fun i a => let* x := aget a i in let* y := aget b i in aset a i (x + c * y)) 0 n a) as (a' & E & L & H).
  - destruct Ha as (L & _ & Ha). split; auto.
  - intros j s Hj (L & H). unfold aget at 1. rewrite (H j) by lia. cbn [obind].
    rewrite (pre_get _ _ _ _ j Hb) by lia. cbn [obind].
    destruct Ha as (La & Hn & _). destruct (aset_some s j ((if (j <? j)%nat then f j + c * g j else f j) + c * g j)) as (s' & E & L' & N'); [lia|].
    exists s'. split; [exact E|]. split; [lia|]. intros i Hi. rewrite N'. rewrite H by lia. rewrite Nat.ltb_irrefl. nb; subst; auto; try lia.
  - exists a'. split; [exact E|]. destruct Ha as (La & Hn & _). split; [auto|split; [auto|]]. intros i Hi. rewrite H by lia. nb. reflexivity.
Qed.
Lemma copy_prefix_ok n b a N M f : length a = N -> (n <= N)%nat -> pre b M n f ->
  exists a', copy_prefix K n b a = Some a' /\ pre a' N n f.
Proof.
  intros La Hn (Lb & Hm & Hb). unfold copy_prefix.
  replace (n <=? length b) with true by (symmetry; apply Nat.leb_le; lia).
  replace (n <=? length a) with true by (symmetry; apply Nat.leb_le; lia). cbn [andb guard obind].
  eexists. split; [reflexivity|]. split; [rewrite app_length, firstn_length, skipn_length; lia|]. split; [lia|].
  intros i Hi. rewrite nth_error_app1 by (rewrite firstn_length; lia).
  rewrite <- (Hb i Hi). rewrite <- (firstn_skipn n b) at 2. rewrite nth_error_app1; auto. rewrite firstn_length. lia.
Qed.

(** ** The scratch pad *)
Variable M : nat.
Definition part_size : nat := Nat.max (Nat.max (2 ^ M) (2 ^ simd_vars)) (2 ^ mpi_vars).
Record pad_ok (lag : lagrange K) (sp : vpad K) : Prop := {
  ok_rz0 : length (eq_evals_at_rz0 sp) = (2 ^ M)%nat;
  ok_rx : length (eq_evals_at_rx sp) = (2 ^ M)%nat;
  ok_ry : length (eq_evals_at_ry sp) = (2 ^ M)%nat;
  ok_simd : length (eq_evals_at_r_simd sp) = (2 ^ simd_vars)%nat;
  ok_mpi : length (eq_evals_at_r_mpi sp) = (2 ^ mpi_vars)%nat;
  ok_p1 : length (eq_evals_first_part sp) = part_size;
  ok_p2 : length (eq_evals_second_part sp) = part_size;
  ok_lag : sp_lagrange sp = lag }.
Record ch_ok (n : nat) (ch : dual_challenge K) : Prop := {
  ok_z0 : length (rz_0 ch) = n;
  ok_z1 : forall z, rz_1 ch = Some z -> length z = n;
  ok_rs : length (r_simd ch) = simd_vars;
  ok_rm : length (r_mpi ch) = mpi_vars }.
(** The tables for the previous layer's challenges, as the sequential verifier leaves them. *)
Definition ready (ch : dual_challenge K) (sp : vpad K) : Prop :=
  pre (eq_evals_at_rx sp) (2 ^ M) (2 ^ length (rz_0 ch)) (eq_point (rz_0 ch)) /\
  forall z, rz_1 ch = Some z -> pre (eq_evals_at_ry sp) (2 ^ M) (2 ^ length z) (eq_point z).

Lemma pow_le a b : (a <= b)%nat -> (2 ^ a <= 2 ^ b)%nat.
Proof. intros. apply Nat.pow_le_mono_r; lia. Qed.

(** What [prepare_layer] and [prepare_layer_non_sequential] leave. *)
Record prepared (lag : lagrange K) (ch : dual_challenge K) (alpha : option K) (n : nat) (sp : vpad K) : Prop := {
  pr_pad : pad_ok lag sp;
  pr_z : pre (eq_evals_at_rz0 sp) (2 ^ M) (2 ^ n) (weight ch alpha);
  pr_es : arr (eq_evals_at_r_simd sp) (2 ^ simd_vars) (eq_point (r_simd ch));
  pr_em : arr (eq_evals_at_r_mpi sp) (2 ^ mpi_vars) (eq_point (r_mpi ch));
  pr_rs : sp_r_simd sp = r_simd ch;
  pr_rm : sp_r_mpi sp = r_mpi ch }.

Lemma prepare_lanes_ok lag ch alpha n sp : pad_ok lag sp -> ch_ok n ch ->
  pre (eq_evals_at_rz0 sp) (2 ^ M) (2 ^ n) (weight ch alpha) ->
  exists sp', prepare_lanes K ch sp = Some sp' /\ prepared lag ch alpha n sp'.
Proof.
  intros P C Z. destruct P, C. unfold prepare_lanes.
  destruct (eq_eval_pre (r_simd ch) (eq_evals_at_r_simd sp) (eq_evals_first_part sp) (eq_evals_second_part sp) (2 ^ simd_vars) part_size)
    as (es & p1 & p2 & E1 & A1 & L1 & L2); auto; try (rewrite ok_rs0; unfold part_size; lia).
  rewrite E1. cbn [obind].
  destruct (eq_eval_pre (r_mpi ch) (eq_evals_at_r_mpi sp) p1 p2 (2 ^ mpi_vars) part_size)
    as (em & q1 & q2 & E2 & A2 & L3 & L4); auto; try (rewrite ok_rm0; unfold part_size; lia).
  rewrite E2. cbn [obind]. eexists. split; [reflexivity|]. rewrite ok_rs0 in A1. rewrite ok_rm0 in A2.
  constructor; cbn; auto using pre_arr. constructor; cbn; auto; try (now destruct A1); now destruct A2.
Qed.

Lemma weight_none ch o : weight ch None o = eq_point (rz_0 ch) o.
Proof. unfold weight. ring. Qed.

Lemma prepare_layer_ok lag l alpha ch (is_out : bool) sp : pad_ok lag sp -> ch_ok (pl_ovars K l) ch -> (pl_ovars K l <= M)%nat ->
  same_none alpha (rz_1 ch) = true ->
  (if is_out then rz_1 ch = None else ready ch sp) ->
  exists sp', prepare_layer K l alpha ch is_out sp = Some sp' /\ prepared lag ch alpha (pl_ovars K l) sp'.
Proof.
  intros P C HM Hs Hr. unfold prepare_layer. rewrite Hs. cbn [guard obind]. destruct is_out.
  - rewrite Hr in Hs. destruct alpha; [discriminate|]. pose proof P as []. pose proof C as [].
    destruct (eq_eval_pre (rz_0 ch) (eq_evals_at_rz0 sp) (eq_evals_first_part sp) (eq_evals_second_part sp) (2 ^ M) part_size)
      as (z & p1 & p2 & E1 & A1 & L1 & L2); auto.
    { rewrite ok_z2. now apply pow_le. } { rewrite ok_z2. unfold part_size. assert (A := pow_le _ _ HM). lia. }
    rewrite E1. cbn [obind]. apply prepare_lanes_ok; auto.
    + constructor; cbn; auto. now destruct A1.
    + cbn. rewrite ok_z2 in A1. eapply pre_ext; [exact A1|]. intros i _. now rewrite weight_none.
  - destruct Hr as (Hx & Hy). pose proof P as []. pose proof C as []. rewrite ok_z2 in *.
    destruct (copy_prefix_ok (2 ^ pl_ovars K l) (eq_evals_at_rx sp) (eq_evals_at_rz0 sp) (2 ^ M) (2 ^ M) (eq_point (rz_0 ch)))
      as (z & E & A); auto. { now apply pow_le. }
    rewrite E. cbn [obind].
    assert (G : exists z', match alpha, rz_1 ch with
      | Some a, Some _ => add_scaled K (2 ^ pl_ovars K l) a (eq_evals_at_ry sp) z | _, _ => Some z end = Some z' /\
      pre z' (2 ^ M) (2 ^ pl_ovars K l) (weight ch alpha)).
    { unfold weight. destruct alpha as [a|], (rz_1 ch) as [z1|] eqn:Ez; try discriminate.
      - specialize (Hy z1 eq_refl). rewrite (ok_z3 z1 eq_refl) in Hy. apply (add_scaled_ok _ _ _ _ _ _ _ _ A Hy).
      - exists z. split; auto. eapply pre_ext; [exact A|]. intros i _; cbn beta; ring. }
    destruct G as (z' & E' & A'). rewrite E'. cbn [obind]. apply prepare_lanes_ok; auto.
    constructor; cbn; auto. now destruct A'.
Qed.

Lemma prepare_non_seq_ok lag l alpha ch sp : pad_ok lag sp -> ch_ok (pl_ovars K l) ch -> (pl_ovars K l <= M)%nat ->
  exists sp', prepare_layer_non_sequential K l alpha ch sp = Some sp' /\ prepared lag ch alpha (pl_ovars K l) sp'.
Proof.
  intros P C HM. unfold prepare_layer_non_sequential. pose proof P as []. pose proof C as [].
  assert (HM' := pow_le _ _ HM).
  assert (HP : (2 ^ pl_ovars K l <= part_size)%nat) by (unfold part_size; lia).
  destruct (eq_eval_pre (rz_0 ch) (eq_evals_at_rz0 sp) (eq_evals_first_part sp) (eq_evals_second_part sp) (2 ^ M) part_size)
    as (z & p1 & p2 & E1 & A1 & L1 & L2); auto; try (rewrite ok_z2; auto).
  rewrite E1. cbn [obind]. rewrite ok_z2 in A1.
  assert (D : (alpha = None \/ rz_1 ch = None) \/ exists a z1, alpha = Some a /\ rz_1 ch = Some z1).
  { destruct alpha, (rz_1 ch); eauto. }
  destruct D as [D|(a & z1 & -> & Ez)].
  - assert (E : forall X (f : K -> list K -> X) (n : X), match alpha with Some a => match rz_1 ch with Some z => f a z | None => n end | None => n end = n).
    { intros. destruct D as [D|D]; rewrite D; [|destruct alpha]; reflexivity. }
    rewrite E. clear E.
    cbn [obind]. apply prepare_lanes_ok; auto.
    + constructor; cbn; auto. now destruct A1.
    + cbn. eapply pre_ext; [exact A1|]. intros i _. unfold weight. destruct D as [D|D]; rewrite D; [|destruct alpha]; ring.
  - rewrite Ez. specialize (ok_z3 z1 Ez).
    destruct (eq_eval_pre z1 (eq_evals_at_rx sp) p1 p2 (2 ^ M) part_size)
      as (x & q1 & q2 & E2 & A2 & L3 & L4); auto; try (rewrite ok_z3; auto).
    rewrite E2. cbn [obind]. rewrite ok_z3 in A2.
    destruct (add_scaled_ok _ a _ _ _ _ _ _ A1 A2) as (z' & E' & A'). rewrite E'. cbn [obind].
    apply prepare_lanes_ok; auto.
    + constructor; cbn; auto; [now destruct A'|now destruct A2].
    + cbn. eapply pre_ext; [exact A'|]. intros i _. unfold weight. now rewrite Ez.
Qed.

(** ** Gate sums *)
Lemma for_each_sum {A} (f : A -> K -> option K) (h : A -> K) xs v : (forall x v, In x xs -> f x v = Some (v + h x)) ->
  for_each xs f v = Some (v + fsum (map h xs)).
Proof.
  revert v. induction xs as [|x xs IH]; intros v H; cbn [for_each map fsum]; [f_equal; ring|].
  rewrite H by (now left). cbn [obind]. rewrite IH by (intros; apply H; now right). f_equal. ring.
Qed.
Lemma in0_get l (g : pgate) (a b : nat) (rest : list nat) : pg_in K g = l -> (l = a :: rest -> aget (pg_in K g) 0 = Some a /\ in0 g = a).
Proof. intros <- E. unfold in0. rewrite E. auto. Qed.

Lemma vadd_nth (a b : list K) n i : length a = n -> length b = n -> (i < n)%nat ->
  length (vadd K a b) = n /\ nth i (vadd K a b) 0 = nth i a 0 + nth i b 0.
Proof.
  intros La Lb Hi. unfold vadd, vmap2. split; [rewrite map_length, combine_length; lia|].
  assert (A := arr_map _ _ _ (fun p : K * K => fst p + snd p) (arr_combine _ _ _ _ _ (arr_self a 0) (eq_ind_r (fun n => arr b n _) (arr_self b 0) (eq_trans La (eq_sym Lb))))).
  destruct A as (_ & A). specialize (A i ltac:(lia)). cbn [fst snd] in A. now apply nth_error_nth.
Qed.
Lemma map_nth' (f : K -> K) (l : list K) i : (i < length l)%nat -> nth i (map f l) 0 = f (nth i l 0).
Proof. intros H. rewrite (nth_indep _ 0 (f 0)) by (now rewrite map_length). apply map_nth. Qed.
Lemma combine_fold (input : list (list K)) (cs : list K) n acc : length acc = n -> (forall v, In v input -> length v = n) ->
  let r := fold_left (fun acc vc => vadd K acc (map (fun x => snd vc * x) (fst vc))) (combine input cs) acc in
  length r = n /\ forall i, (i < n)%nat -> nth i r 0 = nth i acc 0 + fsum (map (fun vc => snd vc * nth i (fst vc) 0) (combine input cs)).
Proof.
  revert cs acc. induction input as [|v input IH]; intros cs acc La Hv; cbn zeta.
  - cbn. split; auto. intros. ring.
  - destruct cs as [|c cs]; cbn [combine fold_left map fsum fst snd]; [split; auto; intros; ring|].
    assert (Lv : length v = n) by (apply Hv; now left).
    assert (L' : length (vadd K acc (map (fun x => c * x) v)) = n).
    { unfold vadd, vmap2. rewrite map_length, combine_length, map_length. lia. }
    destruct (IH cs _ L' (fun v H => Hv v (or_intror H))) as (L & H). split; [exact L|].
    intros i Hi. rewrite H by auto. destruct (vadd_nth acc (map (fun x => c * x) v) n i) as (_ & E); auto; [now rewrite map_length|].
    rewrite E, map_nth' by lia. ring.
Qed.
Lemma arr_fsum_combine (l m : list K) n f g : arr l n f -> arr m n g ->
  fsum (map (fun pc => fst pc * snd pc) (combine l m)) = sumn n (fun i => f i * g i).
Proof. intros Hl Hm. rewrite <- (sum_combine K l m n f g Hl Hm), fold_fadd. ring. Qed.

Lemma eval_cst_ok lag ch alpha n sp (gates : list pgate) pub : prepared lag ch alpha n sp -> ch_ok n ch ->
  simd_ok simd_vars pub ->
  (forall g, In g gates -> (pg_out K g < 2 ^ n)%nat /\
     match pg_ctype K g with TPublicInput id => (id < length pub / 2 ^ mpi_vars)%nat | _ => True end) ->
  eval_cst K simd_vars gates pub sp = Some (clean_cst gates pub ch alpha).
Proof.
  intros [P Z Es Em _ _] C Hp Hg. unfold eval_cst. rewrite (proj1 Em). unfold clean_cst.
  rewrite (for_each_sum _ (fun g => weight ch alpha (pg_out K g) *
    match pg_ctype K g with TPublicInput idx => pub_mle pub ch idx | _ => pg_coef K g end)); [f_equal; ring|].
  intros g v Hin. destruct (Hg g Hin) as (Ho & Hid).
  rewrite (pre_get _ _ _ _ _ Z Ho).
  destruct (pg_ctype K g) as [| |idx]; cbn [obind]; auto.
  set (local := (length pub / 2 ^ mpi_vars)%nat) in *.
  assert (Hin' : forall i, (i < 2 ^ mpi_vars)%nat -> (i * local + idx < length pub)%nat).
  { intros i Hi. assert (local * 2 ^ mpi_vars <= length pub)%nat.
    { unfold local. rewrite Nat.mul_comm. apply Nat.mul_div_le, pow2_nz. } nia. }
  rewrite (omap_total _ (fun i => nth (i * local + idx) pub [])).
  2:{ intros i Hi. apply in_seq in Hi. apply nth_error_nth'. apply Hin'. lia. }
  cbn [obind]. do 2 f_equal. f_equal. unfold unpack_and_combine.
  destruct (combine_fold (map (fun i => nth (i * local + idx) pub []) (seq 0 (2 ^ mpi_vars))) (eq_evals_at_r_mpi sp) (2 ^ simd_vars)
    (repeat 0 (2 ^ simd_vars))) as (L & H).
  { apply repeat_length. }
  { intros w Hw. apply in_map_iff in Hw. destruct Hw as (i & <- & Hi). apply in_seq in Hi. apply Hp, nth_In, Hin'. lia. }
  set (r := fold_left _ _ _) in *.
  assert (Ar : arr r (2 ^ simd_vars) (fun l => sumn (2 ^ mpi_vars) (fun k => eq_point (r_mpi ch) k * nth l (nth (k * local + idx) pub []) 0))).
  { split; [exact L|]. intros l Hl. rewrite (nth_error_nth' _ 0) by lia. f_equal. rewrite H by auto.
    rewrite nth_repeat. rewrite (arr_list _ _ _ Em). unfold sumn.
    rewrite fadd_0_l. generalize (seq 0 (2 ^ mpi_vars)). intros q. induction q as [|k q IH]; cbn; auto. now rewrite IH. }
  rewrite (arr_fsum_combine _ _ _ _ _ Ar Es). reflexivity.
Qed.

Lemma eval_add_ok lag ch alpha n m sp (gates : list pgate) rx rs rm : prepared lag ch alpha n sp ->
  pre (eq_evals_at_rx sp) (2 ^ M) (2 ^ m) (eq_point rx) ->
  eq_r_simd_r_simd_xy sp = eq_vec (r_simd ch) rs -> eq_r_mpi_r_mpi_xy sp = eq_vec (r_mpi ch) rm ->
  (forall g, In g gates -> exists a rest, pg_in K g = a :: rest /\ (a < 2 ^ m)%nat /\ (pg_out K g < 2 ^ n)%nat) ->
  eval_add K gates sp = Some (clean_add gates ch alpha rx rs rm).
Proof.
  intros [P Z Es Em _ _] Hx E1 E2 Hg. unfold eval_add, clean_add. rewrite E1, E2.
  rewrite (for_each_sum _ (fun g => weight ch alpha (pg_out K g) * eq_point rx (in0 g) * pg_coef K g)).
  - cbn [obind]. f_equal. ring.
  - intros g v Hin. destruct (Hg g Hin) as (a & rest & Eg & Ha & Ho). rewrite (pre_get _ _ _ _ _ Z Ho). cbn [obind].
    unfold in0. rewrite Eg. cbn [aget nth_error obind nth]. now rewrite (pre_get _ _ _ _ _ Hx Ha).
Qed.
Lemma eval_mul_ok lag ch alpha n m sp (gates : list pgate) rx ry rs rm : prepared lag ch alpha n sp ->
  pre (eq_evals_at_rx sp) (2 ^ M) (2 ^ m) (eq_point rx) -> pre (eq_evals_at_ry sp) (2 ^ M) (2 ^ m) (eq_point ry) ->
  eq_r_simd_r_simd_xy sp = eq_vec (r_simd ch) rs -> eq_r_mpi_r_mpi_xy sp = eq_vec (r_mpi ch) rm ->
  (forall g, In g gates -> exists a b rest, pg_in K g = a :: b :: rest /\ (a < 2 ^ m)%nat /\ (b < 2 ^ m)%nat /\ (pg_out K g < 2 ^ n)%nat) ->
  eval_mul K gates sp = Some (clean_mul gates ch alpha rx ry rs rm).
Proof.
  intros [P Z Es Em _ _] Hx Hy E1 E2 Hg. unfold eval_mul, clean_mul. rewrite E1, E2.
  rewrite (for_each_sum _ (fun g => weight ch alpha (pg_out K g) * (eq_point rx (in0 g) * eq_point ry (in1 g) * pg_coef K g))).
  - cbn [obind]. f_equal. ring.
  - intros g v Hin. destruct (Hg g Hin) as (a & b & rest & Eg & Ha & Hb & Ho). rewrite (pre_get _ _ _ _ _ Z Ho).
    unfold in0, in1. rewrite Eg. cbn [aget nth_error obind nth]. rewrite (pre_get _ _ _ _ _ Hx Ha). cbn [obind].
    now rewrite (pre_get _ _ _ _ _ Hy Hb).
Qed.
End Proofs.
