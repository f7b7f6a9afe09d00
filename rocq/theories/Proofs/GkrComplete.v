(** Completeness of the GKR protocol: the modelled verifier accepts the modelled prover. *)
From Coq Require Import List Bool Arith Lia Ring Field.
From Verif Require Import Base.Field Base.Array Spec.Multilinear Spec.Sumcheck Spec.Gkr Model.Polynomials Model.Layered Model.Gkr Model.GkrProver
  Proofs.Multilinear Proofs.Polynomials Proofs.Sumcheck Proofs.GkrClean Proofs.GkrVerify Proofs.GkrAlg Proofs.GkrLayer Proofs.GkrSound Proofs.GkrHonest Proofs.GkrRounds Proofs.GkrProve.
From Verif Require Base.ListX.
Import ListNotations.

Section Proofs.
Variable K : field.
Add Field Kf : (fth K).
Local Open Scope fld_scope.

(** ** Interpolation points *)
Lemma of_nat_neq n : (forall k, (1 <= k < n)%nat -> f_of_nat k <> 0 :> K) -> forall i j, (i < n)%nat -> (j < n)%nat -> i <> j -> f_of_nat i - f_of_nat j <> 0 :> K.
Proof.
  intros H i j Hi Hj Hne E.
  destruct (Nat.lt_ge_cases i j) as [L|L].
  - apply (H (j - i)%nat); [lia|]. replace j with (i + (j - i))%nat in E by lia. rewrite f_of_nat_add in E.
    transitivity (- (f_of_nat i - (f_of_nat i + f_of_nat (j - i))) : K); [ring|]. rewrite E. ring.
  - apply (H (i - j)%nat); [lia|]. replace i with (j + (i - j))%nat in E by lia. rewrite f_of_nat_add in E.
    rewrite <- E. ring.
Qed.
Lemma omap_ex {A B} (f : A -> option B) l : (forall a, In a l -> f a <> None) -> exists r, omap f l = Some r.
Proof.
  induction l as [|a l IH]; intros H; [exists []; reflexivity|]. cbn [omap].
  destruct (f a) as [b|] eqn:E; [|now elim (H a (or_introl eq_refl))]. cbn [obind].
  destruct IH as (r & ->); [intros; apply H; now right|]. exists (b :: r). reflexivity.
Qed.
Lemma denoms_some n : (forall k, (1 <= k < n)%nat -> f_of_nat k <> 0 :> K) -> exists d, lag_denoms_inv K (map f_of_nat (seq 0 n)) = Some d.
Proof.
  intros H. unfold lag_denoms_inv. rewrite map_length, seq_length. apply omap_ex. intros i Hi. apply in_seq in Hi.
  assert (G : forall j, (j < n)%nat -> aget (map f_of_nat (seq 0 n)) j = Some (f_of_nat j : K)).
  { intros j Hj. unfold aget. rewrite (map_nth_error f_of_nat j (seq 0 n) (d := j)); [reflexivity|].
    rewrite (nth_error_nth' _ O) by (now rewrite seq_length). now rewrite seq_nth. }
  rewrite G by lia. cbn [obind].
  destruct (for_seq (fun _ (d : K) => d <> 0) (fun j d => if (j =? i)%nat then Some d else let* pj := aget (map f_of_nat (seq 0 n)) j in Some (d * (f_of_nat i - pj))) 0 n 1)
    as (d & E & Hd).
  - apply f1_neq_0.
  - intros j s Hj Hs. destruct (Nat.eqb_spec j i) as [->|Hne]; [eauto|]. rewrite G by lia. cbn [obind]. eexists. split; [reflexivity|].
    intros E. apply fmul_integral in E as [E|E]; [auto|]. revert E. apply (of_nat_neq n H); lia.
  - rewrite E. cbn [obind]. unfold inv_unwrap. destruct (feqb d 0) eqn:Eb; [|discriminate]. now apply feqb_eq in Eb.
Qed.
Lemma lagrange_some : (forall k, (1 <= k <= 6)%nat -> f_of_nat k <> 0 :> K) -> exists lag, new_lagrange K = Some lag.
Proof.
  intros H. unfold new_lagrange. cbv zeta.
  destruct (denoms_some 4) as (d3 & ->); [intros; apply H; lia|]. destruct (denoms_some 7) as (d6 & ->); [intros; apply H; lia|].
  cbn [obind]. eauto.
Qed.

Variable simd_vars : nat.
Local Notation simd := (list K).
Local Notation pack := (pack simd_vars).
Local Notation tab := (tab K simd_vars).
Local Notation player := (player K).
Local Notation pgate := (pgate K).
Local Notation ch_ok := (ch_ok K simd_vars 0).
Local Notation lane := (lane K).
Local Notation lanes := (lanes K).

(** ** Evaluating the circuit lane by lane *)
Section Scatter.
Variables (gs : list pgate) (w : pgate -> nat -> K) (N : nat).
Hypothesis HG : forall g, In g gs -> (pg_out K g < N)%nat.
Definition gsum (i j : nat) : K := fsum (map (fun g => w g j * ind K (pg_out K g) i) gs).
End Scatter.
Lemma scatter_simd w N f : forall gs, (forall g, In g gs -> (pg_out K g < N)%nat) ->
  (forall g res, In g gs -> f g res = (let* x := aget res (pg_out K g) in aset res (pg_out K g) (padd K x (tab (w g))))) -> forall res F,
  gpre res N N (fun i => tab (F i)) -> exists res', for_each gs f res = Some res' /\ gpre res' N N (fun i => tab (fun j => F i j + gsum gs w i j)).
Proof.
  induction gs as [|g gs IH]; intros HG Hf res F H.
  - exists res. split; [reflexivity|]. eapply gpre_ext; [exact H|]. intros i _. apply tab_ext. intros j _. cbn. ring.
  - assert (Ho := HG g (or_introl eq_refl)). cbn [for_each]. rewrite Hf by now left. rewrite (gpre_get _ _ _ _ _ H Ho). cbn [obind]. rewrite padd_tab.
    destruct (gpre_set res N N _ (pg_out K g) (tab (fun j => F (pg_out K g) j + w g j)) H Ho) as (r1 & E1 & H1). rewrite E1. cbn [obind].
    destruct (IH (fun g' Hg' => HG g' (or_intror Hg')) (fun g' r Hg' => Hf g' r (or_intror Hg')) r1 (fun i j => F i j + w g j * ind K (pg_out K g) i)) as (r2 & E2 & H2).
    + eapply gpre_ext; [exact H1|]. intros i _. cbv beta. unfold ind. rewrite (Nat.eqb_sym (pg_out K g) i).
      destruct (Nat.eqb_spec i (pg_out K g)) as [->|]; apply tab_ext; intros j _; ring.
    + exists r2. split; [exact E2|]. eapply gpre_ext; [exact H2|]. intros i _. apply tab_ext. intros j _. unfold gsum. cbn [map fsum]. ring.
Qed.
Lemma scatter_lane w N j f : forall gs, (forall g, In g gs -> (pg_out K g < N)%nat) ->
  (forall g res, In g gs -> f g res = bump K res (pg_out K g) (w g j)) -> forall res F,
  gpre res N N (fun i => F i j) -> exists res', for_each gs f res = Some res' /\ gpre res' N N (fun i => F i j + gsum gs w i j).
Proof.
  induction gs as [|g gs IH]; intros HG Hf res F H.
  - exists res. split; [reflexivity|]. eapply gpre_ext; [exact H|]. intros i _. cbn. ring.
  - assert (Ho := HG g (or_introl eq_refl)). cbn [for_each]. rewrite Hf by now left. unfold bump. rewrite (gpre_get _ _ _ _ _ H Ho). cbn [obind].
    destruct (gpre_set res N N _ (pg_out K g) (F (pg_out K g) j + w g j) H Ho) as (r1 & E1 & H1). rewrite E1. cbn [obind].
    destruct (IH (fun g' Hg' => HG g' (or_intror Hg')) (fun g' r Hg' => Hf g' r (or_intror Hg')) r1 (fun i j => F i j + w g j * ind K (pg_out K g) i)) as (r2 & E2 & H2).
    + eapply gpre_ext; [exact H1|]. intros i _. cbv beta. unfold ind. rewrite (Nat.eqb_sym (pg_out K g) i).
      destruct (Nat.eqb_spec i (pg_out K g)) as [->|]; ring.
    + exists r2. split; [exact E2|]. eapply gpre_ext; [exact H2|]. intros i _. unfold gsum. cbn [map fsum]. ring.
Qed.
Lemma gpre_repeat {A} n (x : A) : gpre (repeat x n) n n (fun _ => x).
Proof. split; [apply repeat_length|]. split; auto. intros i Hi. now apply nth_error_repeat. Qed.
Lemma gpre_lane vals n F j : gpre vals n n (fun i => tab (F i)) -> (j < pack)%nat -> gpre (lane vals j) n n (fun i => F i j).
Proof.
  intros (L & _ & H) Hj. split; [unfold GkrProve.lane; now rewrite map_length|]. split; [auto|]. intros i Hi. unfold GkrProve.lane.
  rewrite (map_nth_error (fun v => nth j v 0) i vals (H i Hi)). f_equal. unfold GkrRounds.tab.
  rewrite (nth_indep _ 0 (F i O)) by (now rewrite map_length, seq_length). rewrite map_nth, seq_nth by auto. reflexivity.
Qed.
Lemma gpre_unique {A} (a b : list A) n f : gpre a n n f -> gpre b n n f -> a = b.
Proof.
  intros (La & _ & Ha) (Lb & _ & Hb). apply nth_error_ext'. intros i.
  destruct (Nat.lt_ge_cases i n) as [H|H]; [now rewrite Ha, Hb|].
  rewrite !(proj2 (nth_error_None _ _)); auto; lia.
Qed.
Lemma gpre_simd_ok vals n F : gpre vals n n (fun i => tab (F i)) -> simd_ok simd_vars vals.
Proof.
  intros (L & _ & H) v Hv. apply In_nth_error in Hv as (i & Hi). rewrite H in Hi.
  - injection Hi as <-. apply tab_length.
  - rewrite <- L. apply nth_error_Some. congruence.
Qed.

Lemma eval_layer_ok l vals pub : layer_ok (length pub) l -> simd_ok simd_vars vals -> simd_ok simd_vars pub -> length vals = (2 ^ pl_ivars K l)%nat ->
  exists outs, eval_layer_simd K simd_vars l vals pub = Some outs /\ simd_ok simd_vars outs /\ length outs = (2 ^ pl_ovars K l)%nat /\
    forall j, (j < pack)%nat -> eval_layer K l (lane vals j) (lane pub j) = Some (lane outs j).
Proof.
  intros (Hm & Ha & Hc & Hu) HV HP LV. set (N := (2 ^ pl_ovars K l)%nat).
  assert (Pv := vals_pre K simd_vars vals _ HV LV). assert (Pp := vals_pre K simd_vars pub _ HP eq_refl).
  set (V := fun i j => as_values (lanes vals) 0%nat j i) in *. set (P := fun i j => as_values (lanes pub) 0%nat j i).
  set (w1 := fun g j => V (in0 K g) j * V (in1 K g) j * pg_coef K g).
  set (w2 := fun g j => V (in0 K g) j * pg_coef K g).
  set (w3 := fun g j => match pg_ctype K g with TPublicInput id => P id j | _ => pg_coef K g end).
  assert (G1 : forall g, In g (pl_mul K l) -> (pg_out K g < N)%nat) by (intros g Hg; destruct (Hm g Hg) as (a & b & r & _ & _ & _ & H); exact H).
  assert (G2 : forall g, In g (pl_add K l) -> (pg_out K g < N)%nat) by (intros g Hg; destruct (Ha g Hg) as (a & r & _ & _ & H); exact H).
  assert (G3 : forall g, In g (pl_const K l) -> (pg_out K g < N)%nat) by (intros g Hg; apply (Hc g Hg)).
  unfold eval_layer_simd. rewrite Hu. cbn [for_each]. cbv zeta. fold N.
  edestruct (scatter_simd w1 N) with (gs := pl_mul K l) (res := repeat (pzero K simd_vars) N) (F := fun (_ _ : nat) => 0 : K) as (r1 & E1 & P1); [exact G1| | |].
  2:{ eapply gpre_ext; [apply gpre_repeat|]. intros i _. apply pzero_tab. }
  2:{ rewrite E1. cbn [obind].
      edestruct (scatter_simd w2 N) with (gs := pl_add K l) (res := r1) as (r2 & E2 & P2); [exact G2| | exact P1 |].
      2:{ rewrite E2. cbn [obind].
          edestruct (scatter_simd w3 N) with (gs := pl_const K l) (res := r2) as (r3 & E3 & P3); [exact G3| | exact P2 |].
          2:{ rewrite E3. cbn [obind]. exists r3. split; [reflexivity|]. split; [eapply gpre_simd_ok, P3|]. split; [apply P3|].
              intros j Hj. unfold eval_layer. rewrite Hu. cbn [for_each]. cbv zeta. fold N.
              assert (Vj := gpre_lane _ _ _ j Pv Hj). assert (Pj := gpre_lane _ _ _ j Pp Hj).
              edestruct (scatter_lane w1 N j) with (gs := pl_mul K l) (res := repeat (@f0 K) N) (F := fun (_ _ : nat) => 0 : K) as (s1 & D1 & Q1); [exact G1| |apply gpre_repeat|].
              2:{ rewrite D1. cbn [obind].
                  edestruct (scatter_lane w2 N j) with (gs := pl_add K l) (res := s1) (F := fun i j => 0 + gsum (pl_mul K l) w1 i j : K) as (s2 & D2 & Q2); [exact G2| |exact Q1|].
                  2:{ rewrite D2. cbn [obind].
                      edestruct (scatter_lane w3 N j) with (gs := pl_const K l) (res := s2) (F := fun i j => 0 + gsum (pl_mul K l) w1 i j + gsum (pl_add K l) w2 i j : K) as (s3 & D3 & Q3); [exact G3| |exact Q2|].
                      2:{ rewrite D3. cbn [obind]. f_equal. eapply gpre_unique; [exact Q3|].
                          assert (X := gpre_lane _ _ _ j P3 Hj). exact X. }
                      intros g res Hg. destruct (Hc g Hg) as (_ & Hid). cbv beta. unfold w3. destruct (pg_ctype K g); cbn [obind]; try reflexivity.
                      rewrite (gpre_get _ _ _ _ _ Pj Hid). reflexivity. }
                  intros g res Hg. destruct (Ha g Hg) as (a & r & Eg & Hx & _). cbv beta. unfold w2, in0. rewrite Eg. cbn [nth].
                  change (aget (a :: r) 0%nat) with (Some a). cbn [obind]. rewrite (gpre_get _ _ _ _ _ Vj Hx). reflexivity. }
              intros g res Hg. destruct (Hm g Hg) as (a & b & r & Eg & Hx & Hy & _). cbv beta. unfold w1, in0, in1. rewrite Eg. cbn [nth].
              change (aget (a :: b :: r) 0%nat) with (Some a). change (aget (a :: b :: r) 1%nat) with (Some b). cbn [obind].
              rewrite (gpre_get _ _ _ _ _ Vj Hx). cbn [obind]. rewrite (gpre_get _ _ _ _ _ Vj Hy). reflexivity. }
          intros g res Hg. destruct (Hc g Hg) as (_ & Hid). cbv beta. unfold w3. destruct (pg_ctype K g); cbn [obind]; try (now rewrite pfrom_tab).
          rewrite (gpre_get _ _ _ _ _ Pp Hid). reflexivity. }
      intros g res Hg. destruct (Ha g Hg) as (a & r & Eg & Hx & _). cbv beta. unfold w2, in0. rewrite Eg. cbn [nth].
      change (aget (a :: r) 0%nat) with (Some a). cbn [obind]. rewrite (gpre_get _ _ _ _ _ Pv Hx). cbn [obind]. rewrite pscale_tab. reflexivity. }
  intros g res Hg. destruct (Hm g Hg) as (a & b & r & Eg & Hx & Hy & _). cbv beta. unfold w1, in0, in1. rewrite Eg. cbn [nth].
  change (aget (a :: b :: r) 0%nat) with (Some a). change (aget (a :: b :: r) 1%nat) with (Some b). cbn [obind].
  rewrite (gpre_get _ _ _ _ _ Pv Hx). cbn [obind]. rewrite (gpre_get _ _ _ _ _ Pv Hy). cbn [obind]. rewrite pmul_tab, pscale_tab. reflexivity.
Qed.
Lemma lane_pub_0 pub k j : (k < 2 ^ 0)%nat -> lane_pub 0 pub k j = lane pub j.
Proof.
  intros Hk. assert (k = O) as -> by (cbn in Hk; lia). unfold lane_pub. cbn [Nat.pow]. rewrite Nat.div_1_r. cbn [Nat.mul skipn].
  now rewrite firstn_all.
Qed.

Definition chain_ok (np : nat) (ls : list player) (n : nat) : Prop :=
  chained ls /\ (forall l, In l ls -> layer_ok np l) /\ match ls with [] => True | l :: _ => pl_ivars K l = n end.
Lemma eval_all_ok pub inp : simd_ok simd_vars pub -> forall ls vals pre, chain_ok (length pub) ls (match ls with [] => 0%nat | l :: _ => pl_ivars K l end) ->
  simd_ok simd_vars vals -> (match ls with [] => True | l :: _ => length vals = (2 ^ pl_ivars K l)%nat end) ->
  evaluated K simd_vars 0 pub inp pre (lanes vals) ->
  exists vs outs, eval_all K simd_vars ls vals pub = Some (vs, outs) /\ length vs = length ls /\ simd_ok simd_vars outs /\
    (ls <> [] -> length outs = (2 ^ out_vars ls)%nat) /\
    evaluated K simd_vars 0 pub inp (map (fun p => (fst p, lanes (snd p))) (rev (combine ls vs)) ++ pre) (lanes outs) /\
    (forall l v, In (l, v) (combine ls vs) -> simd_ok simd_vars v /\ length v = (2 ^ pl_ivars K l)%nat) /\
    (forall j, (j < pack)%nat -> for_each ls (fun l v => eval_layer K l v (lane_pub 0 pub 0 j)) (lane vals j) = Some (lane outs j)).
Proof.
  intros HP. induction ls as [|l ls IH]; intros vals pre (HC & HL & _) HV LV HE.
  - exists [], vals. cbn. split; [reflexivity|]. repeat (split; auto); try easy. 
  - destruct (eval_layer_ok l vals pub (HL l (or_introl eq_refl)) HV HP LV) as (o & E & Ho & Lo & Hj).
    destruct (IH o ((l, lanes vals) :: pre)) as (vs & outs & E2 & L2 & Ho2 & Lo2 & HE2 & HV2 & Hj2).
    + split; [|split].
      * destruct ls; [exact I|]. apply HC.
      * intros; apply HL; now right.
      * now destruct ls.
    + exact Ho.
    + destruct ls as [|l2 ls]; [exact I|]. destruct HC as (E1 & _). now rewrite <- E1.
    + cbn [evaluated]. split; [exact HE|]. intros k j Hk Hj'. rewrite lane_pub_0 by auto. now apply Hj.
    + exists (vals :: vs), outs. cbn [eval_all]. rewrite E. cbn [obind]. rewrite E2. cbn [obind]. split; [reflexivity|].
      split; [cbn; now rewrite L2|]. split; [exact Ho2|]. split; [|split; [|split]].
      * intros _. destruct ls as [|l2 ls].
        -- cbn in E2. injection E2 as _ <-. exact Lo.
        -- rewrite Lo2 by discriminate. f_equal. unfold out_vars. cbn [rev]. destruct (rev ls); reflexivity.
      * cbn [combine rev]. rewrite map_app, <- app_assoc. exact HE2.
      * intros l' v [Eq|Hin]; [injection Eq as <- <-; auto|auto].
      * intros j Hj'. cbn [for_each]. rewrite lane_pub_0 by (cbn; lia). rewrite Hj by auto. cbn [obind]. rewrite <- (Hj2 j Hj').
        rewrite lane_pub_0 by (cbn; lia). reflexivity.
Qed.

(** ** The claimed value *)
Lemma fold_rounds N : forall rest F s cur, gpre s N (2 ^ length rest) (fun i => tab (F i)) -> cur = (2 ^ length rest / 2)%nat ->
  exists s' c', for_each rest (fun r (st : list simd * nat) =>
        let (s, cur) := st in
        let* s := for_in (seq 0 cur) (fun i s =>
            let* l := aget s (i * 2)%nat in let* h := aget s (i * 2 + 1)%nat in
            aset s i (fold_pair K r l h)) s in
        Some (s, (cur / 2)%nat)) (s, cur) = Some (s', c') /\ gpre s' N 1 (fun _ => tab (fun j => mle (fun i => F i j) rest)).
Proof.
  induction rest as [|r rest IH]; intros F s cur H ->.
  - do 2 eexists. split; [reflexivity|]. eapply gpre_ext; [exact H|]. intros i Hi. assert (i = O) as -> by (cbn in Hi; lia).
    apply tab_ext. intros j _. now rewrite mle_nil.
  - cbn [for_each length Nat.pow] in *. replace (2 * 2 ^ length rest / 2)%nat with (2 ^ length rest)%nat by (rewrite Nat.mul_comm; now rewrite Nat.div_mul).
    rewrite (for_in_ext' (seq 0 (2 ^ length rest)) _ (fun i s => let* l := aget s (2 * i)%nat in let* h := aget s (2 * i + 1)%nat in aset s i (fold_pair K r l h)))
      by (intros i a _; now rewrite (Nat.mul_comm i 2)).
    destruct (fold_inplace (fold_pair K r) (2 ^ length rest) s N (fun i => tab (F i)) H) as (s1 & E1 & H1). rewrite E1. cbn [obind].
    destruct (IH (ft K F r) s1 (2 ^ length rest / 2)%nat) as (s2 & c2 & E2 & H2); [|reflexivity|].
    + eapply gpre_ext; [exact H1|]. intros i _. cbv beta. rewrite fold_pair_tab. reflexivity.
    + exists s2, c2. split; [exact E2|]. eapply gpre_ext; [exact H2|]. intros i _. apply tab_ext. intros j _. now rewrite mle_ft.
Qed.
Lemma collective_ok evals n ch scratch scratch2 : simd_ok simd_vars evals -> length evals = (2 ^ n)%nat -> ch_ok n ch ->
  (2 ^ n <= length scratch)%nat -> (pack <= length scratch2)%nat ->
  exists s', collectively_eval K evals ch scratch scratch2 = Some (vmle (as_values (lanes evals)) (rz_0 ch) (r_simd ch) (r_mpi ch), s') /\ length s' = length scratch.
Proof.
  intros HV L [Z0 _ Rs Rm] Hs H2. assert (Pv := vals_pre K simd_vars evals _ HV L).
  assert (E : exists s', eval_circuit_vals_at_challenge K evals (rz_0 ch) scratch = Some (tab (fun j => mle (fun i => as_values (lanes evals) 0%nat j i) (rz_0 ch)), s') /\ length s' = length scratch).
  { unfold eval_circuit_vals_at_challenge. rewrite Z0, L, Nat.eqb_refl. cbn [guard obind]. rewrite (proj2 (Nat.leb_le _ _) Hs). cbn [guard obind].
    destruct (rz_0 ch) as [|x0 rest].
    - cbn in Z0. subst n. rewrite (gpre_get _ _ _ _ 0%nat Pv) by (cbn; lia). cbn [obind]. exists scratch. split; [|reflexivity]. do 2 f_equal.
      apply tab_ext. intros j _. now rewrite mle_nil.
    - cbn in Z0. subst n. cbn [Nat.pow] in *. replace (2 * 2 ^ length rest / 2)%nat with (2 ^ length rest)%nat by (rewrite Nat.mul_comm; now rewrite Nat.div_mul).
      rewrite (for_in_ext' (seq 0 (2 ^ length rest)) _ (fun i s => let* h := aget evals (2 * i + 1)%nat in let* l := aget evals (2 * i)%nat in aset s i (fold_pair K x0 l h)))
        by (intros i a _; now rewrite (Nat.mul_comm i 2)).
      destruct (fold_into (fold_pair K x0) (2 ^ length rest) evals scratch (length scratch) _ _ Pv eq_refl) as (s1 & E1 & H1); [lia|]. rewrite E1. cbn [obind].
      destruct (fold_rounds (length scratch) rest (ft K (fun i j => as_values (lanes evals) 0%nat j i) x0) s1 (2 * 2 ^ length rest / 4)%nat) as (s2 & c2 & E2 & P2).
      + eapply gpre_ext; [exact H1|]. intros i _. cbv beta. rewrite fold_pair_tab. reflexivity.
      + change 4%nat with (2 * 2)%nat. rewrite Nat.div_mul_cancel_l by lia. reflexivity.
      + rewrite E2. cbn [obind]. rewrite (gpre_get _ _ _ _ 0%nat P2) by lia. cbn [obind]. exists s2. split; [|apply P2]. do 2 f_equal.
        apply tab_ext. intros j _. symmetry. exact (mle_ft K (fun i j => as_values (lanes evals) 0%nat j i) x0 rest j). }
  destruct E as (s' & E & Ls). unfold collectively_eval. rewrite Rs, Rm, Nat.max_0_r. fold pack. rewrite (proj2 (Nat.leb_le _ _) H2). cbn [guard obind].
  rewrite E. cbn [obind].
  rewrite (evaluate_with_buffer_ok K _ (fun j => mle (fun i => as_values (lanes evals) 0%nat j i) (rz_0 ch))).
  2:{ apply pre_arr. rewrite Rs. apply tab_pre. }
  2:{ now rewrite Rs. }
  cbn [obind]. assert (Em : r_mpi ch = []) by (destruct (r_mpi ch); [reflexivity|discriminate]). rewrite Em.
  rewrite (evaluate_with_buffer_ok K _ (fun _ => mle (fun j => mle (fun i => as_values (lanes evals) 0%nat j i) (rz_0 ch)) (r_simd ch))).
  2:{ split; [reflexivity|]. intros i Hi. assert (i = O) as -> by (cbn in Hi; lia). reflexivity. }
  2:{ cbn. pose proof (pow2_nz simd_vars). unfold GkrProver.pack in H2. lia. }
  cbn [obind]. exists s'. split; [|exact Ls]. do 2 f_equal.
Qed.

(** ** All layers *)
Section Transcript.
Variable T : Type.
Variable append : K -> T -> T.
Variable sample : T -> option (K * T).

Lemma honest_layer_ch l vals ch alpha tp ch' tp' : honest_layer K simd_vars 0 T append sample l vals ch alpha tp = Some (ch', tp') -> ch_ok (pl_ivars K l) ch'.
Proof.
  unfold honest_layer. cbv zeta. intros E.
  destruct (honest_rounds K T append sample (pl_ivars K l) 2 _ tp) as [[rx tp1]|] eqn:E1; [|discriminate]. cbn [obind] in E.
  destruct (honest_rounds K T append sample simd_vars 3 _ tp1) as [[rs tp2]|] eqn:E2; [|discriminate]. cbn [obind] in E.
  cbn [honest_rounds obind] in E.
  apply honest_length in E1. apply honest_length in E2.
  destruct (negb (empty (pl_mul K l))).
  - destruct (honest_rounds K T append sample (pl_ivars K l) 2 _ _) as [[ry tp3]|] eqn:E3 in E; [|discriminate]. cbn [obind] in E. apply honest_length in E3.
    injection E as <- _. split; cbn; auto. intros z Ez. now injection Ez as <-.
  - injection E as <- _. split; cbn; auto. discriminate.
Qed.
Lemma prove_layers_ok MI MO np : forall ls n is_out ch alpha sp tp, rchain K n (map fst ls) ->
  (forall l v, In (l, v) ls -> layer_ok np l /\ (1 <= pl_ivars K l <= MI)%nat /\ (pl_ovars K l <= MO)%nat /\ simd_ok simd_vars v /\ length v = (2 ^ pl_ivars K l)%nat) ->
  ch_ok n ch -> same_none (rz_1 ch) alpha = true -> sp_ok K simd_vars MI MO sp -> kept K simd_vars MI ch sp -> (is_out = true -> rz_1 ch = None) ->
  prove_layers K simd_vars T append sample ls is_out ch alpha sp tp
  = honest_layers K simd_vars 0 T append sample (map (fun p => (fst p, lanes (snd p))) ls) ch alpha tp.
Proof.
  induction ls as [|[l v] ls IH]; intros n is_out ch alpha sp tp HR HA C SA S Hk Ho; [reflexivity|]. cbn [prove_layers honest_layers map fst snd].
  destruct (HA l v (or_introl eq_refl)) as (HL & HI & HO & HV & LV). destruct HR as (En & HR). cbn [fst] in En, HR. rewrite <- En in C.
  assert (X := prove_layer_ok K simd_vars MI MO l v ch alpha np HL HI HO HV LV C SA T append sample is_out sp tp S Hk Ho).
  destruct (honest_layer K simd_vars 0 T append sample l (lanes v) ch alpha tp) as [[ch1 tp1]|] eqn:E1; [|now rewrite X].
  destruct X as (sp1 & X & S1 & K1). rewrite X. cbn [obind].
  destruct (sample_alpha K T sample ch1 (fst tp1)) as [[a t1]|] eqn:Ea; [|reflexivity]. cbn [obind].
  apply (IH (pl_ivars K l)); auto with datatypes; try discriminate.
  - now apply honest_layer_ch in E1.
  - now apply alpha_same in Ea.
Qed.

Hypothesis HT : forall t, sample t <> None.
Lemma honest_total n d : forall P tp, exists r, honest_rounds K T append sample n d P tp = Some r.
Proof.
  induction n as [|n IH]; intros P tp; [eexists; reflexivity|]. cbn [honest_rounds]. unfold transcript_io.
  match goal with |- context [sample ?t] => destruct (sample t) as [[r t1]|] eqn:E; [|now elim (HT t)] end. cbn [obind].
  match goal with |- context [honest_rounds K T append sample n d ?Q ?tp] => destruct (IH Q tp) as ([rs tp2] & E2); rewrite E2 end. cbn [obind]. eauto.
Qed.
Lemma honest_layer_total l vals ch alpha tp : exists r, honest_layer K simd_vars 0 T append sample l vals ch alpha tp = Some r.
Proof.
  unfold honest_layer. cbv zeta.
  match goal with |- context [obind (honest_rounds K T append sample ?n 2 ?Q ?tp)] => destruct (honest_total n 2 Q tp) as ([rx tp1] & ->) end. cbn [obind].
  match goal with |- context [obind (honest_rounds K T append sample ?n 3 ?Q ?tp)] => destruct (honest_total n 3 Q tp) as ([rs tp2] & ->) end. cbn [obind].
  cbn [honest_rounds obind]. destruct (negb (empty (pl_mul K l))); [|eauto].
  match goal with |- context [obind (honest_rounds K T append sample ?n 2 ?Q ?tp)] => destruct (honest_total n 2 Q tp) as ([ry tp3] & ->) end. cbn [obind]. eauto.
Qed.
Lemma honest_layers_total : forall ls ch alpha tp, exists r, honest_layers K simd_vars 0 T append sample ls ch alpha tp = Some r.
Proof.
  induction ls as [|[l v] ls IH]; intros ch alpha tp; [eexists; reflexivity|]. cbn [honest_layers].
  destruct (honest_layer_total l v ch alpha tp) as ([ch1 tp1] & ->). cbn [obind]. unfold sample_alpha.
  destruct (rz_1 ch1); [|apply IH]. destruct (sample (fst tp1)) as [[a t]|] eqn:E; [|now elim (HT (fst tp1))]. apply IH.
Qed.
Lemma samples_total n : forall t, exists r, samples K T sample n t = Some r.
Proof.
  induction n as [|n IH]; intros t; [eexists; reflexivity|]. cbn [samples]. destruct (sample t) as [[a u]|] eqn:E; [|now elim (HT t)]. cbn [obind].
  destruct (IH u) as ([cs u'] & ->). cbn [obind]. eauto.
Qed.
Lemma sample_total n t : exists ch t', sample_from_transcript K simd_vars 0 T sample n t = Some (ch, t').
Proof.
  unfold sample_from_transcript. destruct (samples_total n t) as ([a t1] & ->). cbn [obind].
  destruct (samples_total simd_vars t1) as ([b t2] & ->). cbn [obind samples]. eauto.
Qed.
Lemma list_max_ge (f : player -> nat) layers l : In l layers -> (f l <= list_max_vars K f layers)%nat.
Proof.
  unfold list_max_vars. induction layers as [|a r IH]; [intros []|]. intros [->|H]; cbn; [lia|]. specialize (IH H). lia.
Qed.

Theorem gkr_complete layers zeros inputs pub t :
  circuit_ok (length pub) layers -> simd_ok simd_vars pub -> simd_ok simd_vars inputs ->
  (forall l, In l layers -> (1 <= pl_ivars K l)%nat) ->
  (match layers with l :: _ => length inputs = (2 ^ pl_ivars K l)%nat | [] => True end) ->
  (out_vars layers <= list_max_vars K (pl_ivars K) layers)%nat ->
  (forall k, (1 <= k <= 6)%nat -> f_of_nat k <> 0 :> K) ->
  exists outs v ch proof t' ch0 t0,
    prove K simd_vars T append sample layers inputs pub t = Some (v, ch, (t', proof)) /\
    (forall j, (j < 2 ^ simd_vars)%nat -> evaluate K {| pc_layers := layers; pc_zeros := zeros |} (lane inputs j) (lane_pub 0 pub 0 j) = Some (outs j)) /\
    sample_from_transcript K simd_vars 0 T sample (out_vars layers) t = Some (ch0, t0) /\
    v = vmle (as_values (fun _ => outs)) (rz_0 ch0) (r_simd ch0) (r_mpi ch0) /\
    forall rest, exists v0 v1,
      gkr_verify K simd_vars 0 T append sample layers pub v (map Some proof ++ rest) t = Some (true, ch, v0, v1, rest, t') /\
      claims_hold (fun _ => lane inputs) ch v0 v1 = true.
Proof.
  intros HC HP HV H1 LV HO HK. pose proof HC as (Hne & Hch & HL).
  destruct (lagrange_some HK) as (lag & El).
  destruct (eval_all_ok pub (lanes inputs) HP layers inputs []) as (vs & outs & EA & LA & HoS & HoL & HE & HVS & HJ); auto.
  { split; [exact Hch|]. split; [exact HL|]. now destruct layers. }
  { intros k j _ _. reflexivity. }
  rewrite app_nil_r in HE. specialize (HoL Hne).
  destruct (sample_total (out_vars layers) t) as (ch0 & t0 & Es).
  destruct (sample_ch_ok _ _ _ _ _ _ _ _ _ Es) as (C0 & N0).
  unfold prove, gkr_prove.
  destruct layers as [|a ls]; [easy|]. cbn [empty negb guard obind]. set (layers := a :: ls) in *.
  rewrite EA. cbn [obind].
  destruct (last_rev a ls a) as (q & Eq).
  assert (Eo : pl_ovars K (last layers a) = out_vars layers) by (unfold out_vars, layers; now rewrite Eq).
  assert (EL : aget layers (length layers - 1) = Some (last layers a)) by apply aget_last.
  rewrite EL. cbn [obind]. rewrite Eo. cbn [fst snd]. rewrite Es. cbn [obind].
  set (MI := list_max_vars K (pl_ivars K) layers) in *. set (MO := list_max_vars K (pl_ovars K) layers).
  assert (SP : sp_ok K simd_vars MI MO (prepare_mem K simd_vars layers)) by (split; apply repeat_length).
  assert (Hp2 : (2 ^ out_vars layers <= 2 ^ MI)%nat) by (apply Nat.pow_le_mono_r; lia).
  destruct (collective_ok outs (out_vars layers) ch0 (pp_hg_evals (prepare_mem K simd_vars layers)) (pp_half1 (prepare_mem K simd_vars layers)) HoS HoL C0) as (s' & EC & LC).
  { rewrite (so_hg _ _ _ _ _ SP). lia. }
  { rewrite (so_h1 _ _ _ _ _ SP). unfold half. lia. }
  rewrite EC. cbn [obind]. set (v := vmle (as_values (lanes outs)) (rz_0 ch0) (r_simd ch0) (r_mpi ch0)) in *.
  match goal with |- context [prove_layers K simd_vars T append sample _ true ch0 None ?s _] => set (sp := s) end.
  assert (SP1 : sp_ok K simd_vars MI MO sp).
  { destruct SP. split; cbn [sp pp_v_evals pp_hg_evals pp_eq_rx pp_eq_rz0 pp_eq_r_simd0 pp_half1 pp_half2 pp_gate_exists]; auto. now rewrite LC. }
  assert (Ef : map fst (rev (combine layers vs)) = rev layers).
  { rewrite map_rev. f_equal. apply ListX.map_fst_combine. now rewrite LA. }
  assert (HR : rchain K (out_vars layers) (map fst (rev (combine layers vs)))) by (rewrite Ef; exact (rchain_circuit K layers Hch)).
  rewrite (prove_layers_ok MI MO (length pub) (rev (combine layers vs)) (out_vars layers)); auto.
  2:{ intros l w Hl. apply in_rev in Hl. assert (Hin := in_combine_l _ _ _ _ Hl). destruct (HVS l w Hl) as (S1 & S2).
      split; [now apply HL|]. split; [split; [now apply H1|now apply list_max_ge]|]. split; [now apply list_max_ge|]. auto. }
  2:{ now rewrite N0. }
  2:{ intros E. now elim E. }
  destruct (honest_layers_total (map (fun p => (fst p, lanes (snd p))) (rev (combine layers vs))) ch0 None (append v t0, [])) as ([ch [t' proof]] & EH).
  rewrite EH. cbn [obind].
  assert (Ef2 : map fst (map (fun p : player * list simd => (fst p, lanes (snd p))) (rev (combine layers vs))) = rev layers).
  { rewrite map_map. exact Ef. }
  destruct (honest_layers_accepted K simd_vars 0 T append sample lag pub (lanes inputs) El
      (map (fun p => (fst p, lanes (snd p))) (rev (combine layers vs))) (out_vars layers) (lanes outs) ch0 v None None (append v t0, []) ch (t', proof))
    as (new & En & Hacc); auto.
  { rewrite Ef2. rewrite <- Ef. exact HR. }
  { rewrite Ef2. intros l Hl. cbn [Nat.pow]. rewrite Nat.div_1_r. apply HL. now apply in_rev. }
  { now rewrite N0. }
  { now rewrite N0. }
  cbn [fst snd app] in En, Hacc. subst new. rewrite Ef2 in Hacc.
  exists (lane outs), v, ch, proof, t', ch0, t0. split; [reflexivity|]. split; [|split; [reflexivity|split; [reflexivity|]]].
  - intros j Hj. unfold evaluate. cbn [pc_layers]. unfold layers at 1. cbn [empty negb guard obind]. now apply HJ.
  - intros rest. destruct (Hacc rest) as (v0 & v1 & Hv & Hcl). exists v0, v1. split; [|exact Hcl].
    rewrite gkr_verify_clean; auto.
    2:{ cbn [Nat.pow]. rewrite Nat.div_1_r. exact HC. }
    unfold clean_verify. rewrite El. cbn [obind]. rewrite EL. cbn [obind]. rewrite Eo, Es. cbn [obind]. exact Hv.
Qed.
End Transcript.

(** The prover's scratch space is as large as the widest layer input. *)
Theorem wide_output_panics T append sample layers inputs pub t :
  circuit_ok (length pub) layers -> simd_ok simd_vars pub -> simd_ok simd_vars inputs ->
  (match layers with l :: _ => length inputs = (2 ^ pl_ivars K l)%nat | [] => True end) ->
  (list_max_vars K (pl_ivars K) layers < out_vars layers)%nat ->
  prove K simd_vars T append sample layers inputs pub t = None.
Proof.
  intros HC HP HV LV HO. pose proof HC as (Hne & Hch & HL).
  destruct (eval_all_ok pub (lanes inputs) HP layers inputs []) as (vs & outs & EA & LA & HoS & HoL & _); auto.
  { split; [exact Hch|]. split; [exact HL|]. now destruct layers. }
  { intros k j _ _. reflexivity. }
  specialize (HoL Hne). unfold prove, gkr_prove. destruct layers as [|a ls]; [easy|]. cbn [empty negb guard obind]. set (layers := a :: ls) in *.
  rewrite EA. cbn [obind]. assert (EL : aget layers (length layers - 1) = Some (last layers a)) by apply aget_last. rewrite EL. cbn [obind].
  destruct (sample_from_transcript K simd_vars 0 T sample (pl_ovars K (last layers a)) (fst (t, []))) as [[ch t1]|]; [|reflexivity]. cbn [obind].
  unfold collectively_eval. match goal with |- context [guard ?b] => destruct b; [|reflexivity] end. cbn [guard obind].
  unfold eval_circuit_vals_at_challenge. match goal with |- context [guard ?b] => destruct b; [|reflexivity] end. cbn [guard obind].
  rewrite HoL. cbn [prepare_mem ppad_new pp_hg_evals]. unfold prepare_mem, ppad_new. cbn [pp_hg_evals]. rewrite repeat_length.
  rewrite (proj2 (Nat.leb_gt _ _)); [reflexivity|]. apply Nat.pow_lt_mono_r; lia.
Qed.
End Proofs.
