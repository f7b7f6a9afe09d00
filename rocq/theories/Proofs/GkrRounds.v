(** The prover's sumcheck rounds on bookkeeping tables send what the honest prover of
    Proofs/GkrHonest.v sends. *)
From Coq Require Import List Bool Arith Lia Ring Field.
From Verif Require Import Base.Field Base.Array Spec.Multilinear Spec.Sumcheck Spec.Gkr Model.Polynomials Model.Layered Model.Gkr Model.GkrProver
  Proofs.Multilinear Proofs.Polynomials Proofs.Sumcheck Proofs.GkrClean Proofs.GkrAlg Proofs.GkrHonest.
Import ListNotations.

(** ** Tables of anything *)
Definition gpre {A} (l : list A) (N n : nat) (f : nat -> A) : Prop :=
  length l = N /\ n <= N /\ forall i, i < n -> nth_error l i = Some (f i).
Lemma gpre_get {A} (l : list A) N n f i : gpre l N n f -> i < n -> aget l i = Some (f i).
Proof. intros (_ & _ & H) Hi. now apply H. Qed.
Lemma gpre_ext {A} (l : list A) N n f g : gpre l N n f -> (forall i, i < n -> f i = g i) -> gpre l N n g.
Proof. intros (L & Hn & H) E. split; [auto|split; auto]. intros i Hi. rewrite <- E by auto. auto. Qed.
Lemma gpre_sub {A} (l : list A) N n m f : gpre l N n f -> m <= n -> gpre l N m f.
Proof. intros (L & Hn & H) E. split; [auto|split; [lia|]]. intros i Hi. apply H. lia. Qed.
Lemma gpre_set {A} (l : list A) N n f k v : gpre l N n f -> k < n ->
  exists l', aset l k v = Some l' /\ gpre l' N n (fun i => if i =? k then v else f i).
Proof.
  intros (L & Hn & H) Hk. destruct (aset_some l k v) as (l' & E & L' & N'); [lia|]. exists l'. split; [exact E|].
  split; [lia|]. split; [auto|]. intros i Hi. rewrite N'. nb; auto.
Qed.

Lemma fold_inplace {A} (g : A -> A -> A) n (a : list A) N f : gpre a N (2 * n) f ->
  exists a', for_in (seq 0 n) (fun i a => let* l := aget a (2 * i) in let* h := aget a (2 * i + 1) in aset a i (g l h)) a = Some a' /\
    gpre a' N n (fun i => g (f (2 * i)) (f (2 * i + 1))).
Proof.
  intros Ha.
  destruct (for_seq (fun j a' => gpre a' N (2 * n) (fun i => if i <? j then g (f (2 * i)) (f (2 * i + 1)) else f i))
    (fun i a => let* l := aget a (2 * i) in let* h := aget a (2 * i + 1) in aset a i (g l h)) 0 n a) as (a' & E & H).
  - exact Ha.
  - intros j s Hj H. rewrite (gpre_get _ _ _ _ (2 * j) H) by lia. cbn [obind]. rewrite (gpre_get _ _ _ _ (2 * j + 1) H) by lia. cbn [obind].
    match goal with |- context [aset s j ?v] => destruct (gpre_set s N _ _ j v H) as (s' & E' & H'); [lia|] end.
    exists s'. split; [exact E'|]. eapply gpre_ext; [exact H'|]. intros i Hi. cbv beta. nb; subst; auto.
  - exists a'. split; [exact E|]. apply gpre_ext with (fun i => if i <? 0 + n then g (f (2 * i)) (f (2 * i + 1)) else f i).
    + apply gpre_sub with (2 * n); auto. lia.
    + intros i Hi. nb. reflexivity.
Qed.
Lemma fold_into {A} (g : A -> A -> A) n (src dst : list A) N M f : gpre src M (2 * n) f -> length dst = N -> n <= N ->
  exists a', for_in (seq 0 n) (fun i a => let* h := aget src (2 * i + 1) in let* l := aget src (2 * i) in aset a i (g l h)) dst = Some a' /\
    gpre a' N n (fun i => g (f (2 * i)) (f (2 * i + 1))).
Proof.
  intros Hs L HN.
  destruct (for_seq (fun j a' => length a' = N /\ forall i, i < j -> nth_error a' i = Some (g (f (2 * i)) (f (2 * i + 1))))
    (fun i a => let* h := aget src (2 * i + 1) in let* l := aget src (2 * i) in aset a i (g l h)) 0 n dst) as (a' & E & L' & H).
  - split; [auto|]. lia.
  - intros j s Hj (Ls & H). rewrite (gpre_get _ _ _ _ (2 * j + 1) Hs) by lia. cbn [obind]. rewrite (gpre_get _ _ _ _ (2 * j) Hs) by lia. cbn [obind].
    destruct (aset_some s j (g (f (2 * j)) (f (2 * j + 1)))) as (s' & E' & L' & N'); [lia|].
    exists s'. split; [exact E'|]. split; [lia|]. intros i Hi. rewrite N'. nb; subst; auto. apply H. lia.
  - exists a'. split; [exact E|]. split; [auto|]. split; auto.
Qed.

Section Proofs.
Variable K : field.
Add Field Kf : (fth K).
Local Open Scope fld_scope.
Variable simd_vars : nat.
Local Notation simd := (list K).
Local Notation pack := (pack simd_vars).

(** ** SIMD values *)
Definition tab (g : nat -> K) : simd := map g (seq 0 pack).
Lemma tab_length g : length (tab g) = pack.
Proof. unfold tab. now rewrite map_length, seq_length. Qed.
Lemma tab_ext g h : (forall j, (j < pack)%nat -> g j = h j) -> tab g = tab h.
Proof. intros H. apply map_ext_in. intros j Hj. apply in_seq in Hj. apply H. lia. Qed.
Lemma map_const {A B} (c : B) (l : list A) : map (fun _ => c) l = repeat c (length l).
Proof. induction l; cbn; congruence. Qed.
Lemma tab_const c : repeat c pack = tab (fun _ => c).
Proof. unfold tab. now rewrite map_const, seq_length. Qed.
Lemma vmap2_map {I} f (a b : I -> K) l : vmap2 K f (map a l) (map b l) = map (fun i => f (a i) (b i)) l.
Proof. unfold vmap2. induction l as [|i l IH]; cbn; [reflexivity|]. now rewrite IH. Qed.
Lemma padd_tab a b : padd K (tab a) (tab b) = tab (fun j => a j + b j).
Proof. apply vmap2_map. Qed.
Lemma psub_tab a b : psub K (tab a) (tab b) = tab (fun j => a j - b j).
Proof. apply vmap2_map. Qed.
Lemma pmul_tab a b : pmul K (tab a) (tab b) = tab (fun j => a j * b j).
Proof. apply vmap2_map. Qed.
Lemma pscale_tab a r : pscale K (tab a) r = tab (fun j => a j * r).
Proof. unfold pscale, tab. now rewrite map_map. Qed.
Lemma pzero_tab : pzero K simd_vars = tab (fun _ => 0).
Proof. apply tab_const. Qed.
Lemma pfrom_tab c : pfrom K simd_vars c = tab (fun _ => c).
Proof. apply tab_const. Qed.
Lemma tab_nth g j : (j < pack)%nat -> nth_error (tab g) j = Some (g j).
Proof. intros H. unfold tab. rewrite nth_error_map. rewrite (nth_error_nth' _ 0%nat) by (now rewrite seq_length). now rewrite seq_nth. Qed.
Lemma tab_pre g : gpre (tab g) pack pack g.
Proof. split; [apply tab_length|]. split; auto. intros i Hi. now apply tab_nth. Qed.
Lemma fold_pair_tab r a b : fold_pair K r (tab a) (tab b) = tab (fun j => a j + (b j - a j) * r).
Proof. unfold fold_pair. now rewrite psub_tab, pscale_tab, padd_tab. Qed.
Lemma unpack_tab a e N ev : gpre e N pack ev -> unpack_and_combine K (tab a) e = sumn pack (fun j => a j * ev j).
Proof.
  intros He. unfold unpack_and_combine, sumn. f_equal. unfold tab.
  assert (G : forall n s e, (forall i, (i < n)%nat -> nth_error e i = Some (ev (s + i)%nat)) ->
    map (fun pc : K * K => fst pc * snd pc) (combine (map a (seq s n)) e) = map (fun j => a j * ev j) (seq s n)).
  { induction n as [|n IH]; intros s e0 H; [reflexivity|]. cbn [seq map].
    destruct e0 as [|x e0]; [specialize (H 0%nat ltac:(lia)); discriminate|]. cbn [combine map fst snd].
    assert (x = ev s) as -> by (specialize (H 0%nat ltac:(lia)); cbn in H; rewrite Nat.add_0_r in H; now injection H).
    f_equal. apply IH. intros i Hi. specialize (H (S i) ltac:(lia)). cbn in H. now rewrite Nat.add_succ_r in H. }
  apply G. intros i Hi. apply He. lia.
Qed.

(** ** Folding a variable *)
Definition ft {A} (F : nat -> A -> K) (t : K) (i : nat) (j : A) : K := F (2 * i)%nat j + (F (2 * i + 1)%nat j - F (2 * i)%nat j) * t.
Lemma mle_ft {A} (F : nat -> A -> K) t b j : mle (fun i => F i j) (t :: b) = mle (fun i => ft F t i j) b.
Proof. rewrite mle_cons, <- !mle_scale, <- mle_plus. apply mle_ext. intros i _. unfold ft. ring. Qed.

Definition prodP (c : K) (e : nat -> K) (F H : nat -> nat -> K) (b : list K) : K :=
  c * sumn pack (fun j => e j * (mle (fun i => F i j) b * mle (fun i => H i j) b)).
Lemma prodP_ft c e F H t b : prodP c e F H (t :: b) = prodP c e (ft F t) (ft H t) b.
Proof. unfold prodP. f_equal. apply sumn_ext. intros j _. now rewrite !mle_ft. Qed.
Lemma prodP_message c e F H k t : cube_sum k (fun b => prodP c e F H (t :: b))
  = c * sumn pack (fun j => e j * sumn (2 ^ k) (fun i => ft F t i j * ft H t i j)).
Proof.
  rewrite cube_sum_bits. rewrite (sumn_ext K _ _ (fun i => c * sumn pack (fun j => e j * (ft F t i j * ft H t i j)))).
  - rewrite sumn_scale. f_equal. rewrite sumn_swap. apply sumn_ext. intros j _. now rewrite sumn_scale.
  - intros i Hi. rewrite prodP_ft. unfold prodP. f_equal. apply sumn_ext. intros j _. now rewrite !mle_bits.
Qed.

(** ** Rounds over the positions *)
Lemma pg_evaluate_ok n N M L' f hg ge F H G : gpre f N (2 * n) (fun i => tab (F i)) -> gpre hg M (2 * n) (fun i => tab (H i)) -> gpre ge L' (2 * n) G ->
  (forall i j, (i < 2 * n)%nat -> (j < pack)%nat -> G i = false -> H i j = 0) ->
  pg_evaluate K simd_vars n f hg ge = Some (tab (fun j => sumn n (fun i => H (2 * i)%nat j * F (2 * i)%nat j)),
    tab (fun j => sumn n (fun i => H (2 * i + 1)%nat j * F (2 * i + 1)%nat j)),
    tab (fun j => sumn n (fun i => (H (2 * i)%nat j + H (2 * i + 1)%nat j) * (F (2 * i)%nat j + F (2 * i + 1)%nat j)))).
Proof.
  intros Hf Hh Hg HZ. unfold pg_evaluate.
  edestruct (for_seq (fun m s => s = (tab (fun j => sumn m (fun i => H (2 * i)%nat j * F (2 * i)%nat j)),
    tab (fun j => sumn m (fun i => H (2 * i + 1)%nat j * F (2 * i + 1)%nat j)),
    tab (fun j => sumn m (fun i => (H (2 * i)%nat j + H (2 * i + 1)%nat j) * (F (2 * i)%nat j + F (2 * i + 1)%nat j))))))
    as (s' & E & Es); [| |rewrite E, Es; reflexivity].
  - rewrite pzero_tab. reflexivity.
  - intros m s Hm ->. cbv beta iota. rewrite !(Nat.mul_comm m 2).
    rewrite (gpre_get _ _ _ _ (2 * m) Hg), (gpre_get _ _ _ _ (2 * m + 1) Hg) by lia. cbn [obind].
    destruct (negb (G (2 * m)%nat) && negb (G (2 * m + 1)%nat)) eqn:Eg.
    + eexists. split; [reflexivity|]. apply andb_prop in Eg as (E0 & E1). apply negb_true_iff in E0, E1.
      f_equal; [f_equal|]; apply tab_ext; intros j Hj; rewrite sumn_S;
      rewrite ?(HZ (2 * m)%nat j) by (auto; lia); rewrite ?(HZ (2 * m + 1)%nat j) by (auto; lia); ring.
    + rewrite (gpre_get _ _ _ _ (2 * m) Hf), (gpre_get _ _ _ _ (2 * m + 1) Hf), (gpre_get _ _ _ _ (2 * m) Hh), (gpre_get _ _ _ _ (2 * m + 1) Hh) by lia.
      cbn [obind]. eexists. split; [reflexivity|]. rewrite !pmul_tab, !padd_tab, pmul_tab, padd_tab.
      f_equal; [f_equal|]; apply tab_ext; intros j Hj; rewrite sumn_S; reflexivity.
Qed.
Lemma quad n (a b c d : nat -> K) :
  let s0 := sumn n (fun i => c i * a i) in let s1 := sumn n (fun i => d i * b i) in let s2 := sumn n (fun i => (c i + d i) * (a i + b i)) in
  (s1 + s1 + s1 + (s1 + s1 + s1) + (s0 + s0 + s0) - (s2 + s2) : K) = sumn n (fun i => (a i + (b i - a i) * (1 + 1)) * (c i + (d i - c i) * (1 + 1))).
Proof.
  cbv zeta. induction n as [|n IH]; [rewrite !sumn_0; ring|]. rewrite !sumn_S, <- IH. ring.
Qed.

Lemma pg_messages n idx N M L' e eqs f hg vals ge F H G c coef k E : (idx < n)%nat -> k = (n - idx - 1)%nat ->
  gpre (if (idx =? 0)%nat then vals else f) N (2 * 2 ^ k) (fun i => tab (F i)) -> gpre hg M (2 * 2 ^ k) (fun i => tab (H i)) -> gpre ge L' (2 * 2 ^ k) G ->
  (forall i j, (i < 2 * 2 ^ k)%nat -> (j < pack)%nat -> G i = false -> H i j = 0) ->
  gpre eqs E pack e -> c = match coef with Some c => c | None => 1 end ->
  exists ps, pg_poly_eval_at K simd_vars n idx f hg vals ge = Some ps /\
    (let evals := map (fun p => unpack_and_combine K p eqs) ps in match coef with Some c => map (fun p => p * c) evals | None => evals end)
    = map (fun i => cube_sum k (fun b => prodP c e F H (f_of_nat i :: b))) (seq 0 3).
Proof.
  intros Hi Ek Hf Hh Hg HZ He Hc. unfold pg_poly_eval_at. rewrite <- Ek. rewrite (pg_evaluate_ok _ _ _ _ _ _ _ F H G Hf Hh Hg HZ). cbn [obind].
  eexists. split; [reflexivity|].
  unfold times2, times3. rewrite !padd_tab, psub_tab. cbv zeta. cbn [map]. rewrite !(unpack_tab _ _ _ _ He).
  cbn [seq map]. rewrite !prodP_message.
  match goal with |- match coef with Some _ => _ | None => [?a; ?b; ?d] end = _ =>
    transitivity [a * c; b * c; d * c]; [destruct coef; subst c; cbn [map]; [reflexivity|]; f_equal; [ring|f_equal; [ring|f_equal; ring]]|] end.
  f_equal; [|f_equal; [|f_equal]].
  - rewrite (fmul_comm K _ c). f_equal. apply sumn_ext. intros j Hj. rewrite (fmul_comm K). f_equal. apply sumn_ext. intros i _. unfold ft. cbn [f_of_nat]. ring.
  - rewrite (fmul_comm K _ c). f_equal. apply sumn_ext. intros j Hj. rewrite (fmul_comm K). f_equal. apply sumn_ext. intros i _. unfold ft. cbn [f_of_nat]. ring.
  - rewrite (fmul_comm K _ c). f_equal. apply sumn_ext. intros j Hj. rewrite (fmul_comm K). f_equal.
    rewrite (quad (2 ^ k) (fun i => F (2 * i)%nat j) (fun i => F (2 * i + 1)%nat j) (fun i => H (2 * i)%nat j) (fun i => H (2 * i + 1)%nat j)).
    apply sumn_ext. intros i _. unfold ft. cbn [f_of_nat]. ring.
Qed.

Lemma hg_receive n r hg ge N M H G : gpre hg N (2 * n) (fun i => tab (H i)) -> gpre ge M (2 * n) G ->
  (forall i j, (i < 2 * n)%nat -> (j < pack)%nat -> G i = false -> H i j = 0) ->
  exists hg' ge', for_in (seq 0 n) (fun i (st : list simd * list bool) =>
      let (hg, ge) := st in
      let* g0 := aget ge (i * 2)%nat in let* g1 := aget ge (i * 2 + 1)%nat in
      if negb g0 && negb g1 then
        let* ge := aset ge i false in let* hg := aset hg i (pzero K simd_vars) in Some (hg, ge)
      else
        let* ge := aset ge i true in
        let* l := aget hg (2 * i)%nat in let* h := aget hg (2 * i + 1)%nat in
        let* hg := aset hg i (fold_pair K r l h) in Some (hg, ge)) (hg, ge) = Some (hg', ge') /\
    gpre hg' N n (fun i => tab (ft H r i)) /\ gpre ge' M n (fun i => G (2 * i)%nat || G (2 * i + 1)%nat).
Proof.
  intros Hh Hg HZ.
  match goal with |- exists hg' ge', for_in _ ?body _ = _ /\ _ => set (f := body) end.
  destruct (for_seq (fun m st => gpre (fst st) N (2 * n) (fun i => if (i <? m)%nat then tab (ft H r i) else tab (H i)) /\
    gpre (snd st) M (2 * n) (fun i => if (i <? m)%nat then G (2 * i)%nat || G (2 * i + 1)%nat else G i)) f 0 n (hg, ge)) as ([hg' ge'] & E & Hh' & Hg').
  - split; cbn [fst snd]; [exact Hh|exact Hg].
  - intros m [h g] Hm (H1 & H2). cbn [fst snd] in *. unfold f.
    assert (Z : (if (2 * m <? m)%nat then G (2 * (2 * m))%nat || G (2 * (2 * m) + 1)%nat else G (2 * m)%nat) = G (2 * m)%nat) by (nb; reflexivity).
    rewrite !(Nat.mul_comm m 2). rewrite (gpre_get _ _ _ _ (2 * m) H2), (gpre_get _ _ _ _ (2 * m + 1) H2) by lia. cbn [obind].
    rewrite Z. replace (2 * m + 1 <? m)%nat with false by (symmetry; apply Nat.ltb_ge; lia).
    destruct (negb (G (2 * m)%nat) && negb (G (2 * m + 1)%nat)) eqn:Eg.
    + destruct (gpre_set g M _ _ m false H2) as (g' & E1 & H2'); [lia|]. rewrite E1. cbn [obind].
      destruct (gpre_set h N _ _ m (pzero K simd_vars) H1) as (h' & E2 & H1'); [lia|]. rewrite E2. cbn [obind].
      apply andb_prop in Eg as (E3 & E4). apply negb_true_iff in E3, E4.
      eexists. split; [reflexivity|]. cbn [fst snd]. split.
      * eapply gpre_ext; [exact H1'|]. intros i Hi. cbv beta. nb; subst; auto. rewrite pzero_tab. apply tab_ext. intros j Hj. unfold ft.
        rewrite !HZ by (auto; lia). ring.
      * eapply gpre_ext; [exact H2'|]. intros i Hi. cbv beta. nb; subst; auto. now rewrite E3, E4.
    + destruct (gpre_set g M _ _ m true H2) as (g' & E1 & H2'); [lia|]. rewrite E1. cbn [obind].
      rewrite (gpre_get _ _ _ _ (2 * m) H1), (gpre_get _ _ _ _ (2 * m + 1) H1) by lia. cbn [obind].
      replace (2 * m + 1 <? m)%nat with false by (symmetry; apply Nat.ltb_ge; lia).
      replace (2 * m <? m)%nat with false by (symmetry; apply Nat.ltb_ge; lia).
      destruct (gpre_set h N _ _ m (fold_pair K r (tab (H (2 * m)%nat)) (tab (H (2 * m + 1)%nat))) H1) as (h' & E2 & H1'); [lia|]. rewrite E2. cbn [obind].
      eexists. split; [reflexivity|]. cbn [fst snd]. split.
      * eapply gpre_ext; [exact H1'|]. intros i Hi. cbv beta. nb; subst; auto. now rewrite fold_pair_tab.
      * eapply gpre_ext; [exact H2'|]. intros i Hi. cbv beta. nb; subst; auto.
        destruct (G (2 * m)%nat), (G (2 * m + 1)%nat); try reflexivity. discriminate.
  - cbn [fst snd] in *. exists hg', ge'. split; [exact E|]. split.
    + eapply gpre_ext; [eapply gpre_sub; [exact Hh'|lia]|]. intros i Hi. cbv beta. nb. reflexivity.
    + eapply gpre_ext; [eapply gpre_sub; [exact Hg'|lia]|]. intros i Hi. cbv beta. nb. reflexivity.
Qed.

Lemma pg_receive_ok n idx r N M L' Lf f hg vals ge F H G k : (idx < n)%nat -> k = (n - idx - 1)%nat ->
  gpre (if (idx =? 0)%nat then vals else f) N (2 * 2 ^ k) (fun i => tab (F i)) -> length f = Lf -> (2 ^ k <= Lf)%nat ->
  gpre hg M (2 * 2 ^ k) (fun i => tab (H i)) -> gpre ge L' (2 * 2 ^ k) G ->
  (forall i j, (i < 2 * 2 ^ k)%nat -> (j < pack)%nat -> G i = false -> H i j = 0) ->
  exists f' hg' ge', pg_receive K simd_vars n idx r f hg vals ge = Some (f', hg', ge') /\
    gpre f' Lf (2 ^ k) (fun i => tab (ft F r i)) /\ gpre hg' M (2 ^ k) (fun i => tab (ft H r i)) /\
    gpre ge' L' (2 ^ k) (fun i => G (2 * i)%nat || G (2 * i + 1)%nat).
Proof.
  intros Hi Ek Hf Lf1 Lf2 Hh Hg HZ. unfold pg_receive. rewrite (proj2 (Nat.ltb_lt _ _) Hi). cbn [guard obind]. rewrite <- Ek.
  destruct (hg_receive (2 ^ k) r hg ge M L' H G Hh Hg HZ) as (hg' & ge' & E & H1 & H2).
  assert (X : exists f', (if (idx =? 0)%nat then
      for_in (seq 0 (2 ^ k)) (fun i f =>
        let* h := aget vals (2 * i + 1)%nat in let* l := aget vals (2 * i)%nat in aset f i (fold_pair K r l h)) f
    else
      for_in (seq 0 (2 ^ k)) (fun i f =>
        let* l := aget f (2 * i)%nat in let* h := aget f (2 * i + 1)%nat in aset f i (fold_pair K r l h)) f) = Some f' /\ gpre f' Lf (2 ^ k) (fun i => tab (ft F r i))).
  { destruct (idx =? 0)%nat.
    - destruct (fold_into (fold_pair K r) (2 ^ k) vals f Lf N _ Hf Lf1 Lf2) as (f' & E' & H'). exists f'. split; [exact E'|].
      eapply gpre_ext; [exact H'|]. intros i _. apply fold_pair_tab.
    - destruct (fold_inplace (fold_pair K r) (2 ^ k) f N _ Hf) as (f' & E' & H'). exists f'. split; [exact E'|].
      destruct Hf as (L1 & _). subst Lf N. eapply gpre_ext; [exact H'|]. intros i _. apply fold_pair_tab. }
  destruct X as (f' & E' & H'). rewrite E'. cbn [obind]. rewrite E. cbn [obind].
  exists f', hg', ge'. auto.
Qed.

Section Transcript.
Variable T : Type.
Variable append : K -> T -> T.
Variable sample : T -> option (K * T).
Local Notation honest_rounds := (honest_rounds K T append sample).
Local Notation xy_rounds := (xy_rounds K simd_vars T append sample).
Local Notation simd_rounds := (simd_rounds K T append sample).

Lemma xy_rounds_ok n vals eqs e E N Lf M L' coef c : (1 <= n)%nat -> gpre eqs E pack e -> c = match coef with Some c => c | None => 1 end -> (2 ^ n <= Lf)%nat ->
  forall k F H G f hg ge rs tp, (k <= n)%nat ->
  gpre (if (n - k =? 0)%nat then vals else f) (if (n - k =? 0)%nat then N else Lf) (2 ^ k) (fun i => tab (F i)) -> length f = Lf ->
  gpre hg M (2 ^ k) (fun i => tab (H i)) -> gpre ge L' (2 ^ k) G ->
  (forall i j, (i < 2 ^ k)%nat -> (j < pack)%nat -> G i = false -> H i j = 0) ->
  match honest_rounds k 2 (prodP c e F H) tp with
  | None => xy_rounds k n vals eqs coef f hg ge rs tp = None
  | Some (rs', tp') => exists f' hg' ge', xy_rounds k n vals eqs coef f hg ge rs tp = Some (f', hg', ge', rs ++ rs', tp') /\
      gpre f' Lf 1 (fun _ => tab (fun j => mle (fun i => F i j) rs')) /\ gpre hg' M 1 (fun _ => tab (fun j => mle (fun i => H i j) rs')) /\ length ge' = L'
  end.
Proof.
  intros Hn He Hc HLf. induction k as [|k IH]; intros F H G f hg ge rs tp Hk Hf Lf1 Hh Hg HZ; cbn [GkrHonest.honest_rounds GkrProver.xy_rounds].
  - rewrite Nat.sub_0_r in Hf. replace (n =? 0)%nat with false in Hf by (symmetry; apply Nat.eqb_neq; lia).
    exists f, hg, ge. rewrite app_nil_r. split; [reflexivity|]. cbn [Nat.pow] in *. split; [|split].
    + eapply gpre_ext; [exact Hf|]. intros i Hi. apply tab_ext. intros j _. rewrite mle_nil. replace i with 0%nat by lia. reflexivity.
    + eapply gpre_ext; [exact Hh|]. intros i Hi. apply tab_ext. intros j _. rewrite mle_nil. replace i with 0%nat by lia. reflexivity.
    + apply Hg.
  - rewrite Nat.pow_succ_r' in *.
    assert (Ek : k = (n - (n - S k) - 1)%nat) by lia.
    destruct (pg_messages n (n - S k) _ M L' e eqs f hg vals ge F H G c coef k E ltac:(lia) Ek Hf Hh Hg HZ He Hc) as (ps & Eps & Em).
    rewrite Eps. cbn [obind]. cbv zeta in Em. rewrite Em.
    destruct (transcript_io K T append sample _ tp) as [[r tp1]|]; [|reflexivity]. cbn [obind].
    destruct (pg_receive_ok n (n - S k) r _ M L' Lf f hg vals ge F H G k ltac:(lia) Ek Hf Lf1) as (f' & hg' & ge' & E1 & H1 & H2 & H3); auto.
    { etransitivity; [|exact HLf]. apply Nat.pow_le_mono_r; lia. }
    rewrite E1. cbn [obind].
    specialize (IH (ft F r) (ft H r) (fun i => G (2 * i)%nat || G (2 * i + 1)%nat) f' hg' ge' (rs ++ [r]) tp1 ltac:(lia)).
    replace (n - k =? 0)%nat with false in IH by (symmetry; apply Nat.eqb_neq; lia).
    specialize (IH H1 (proj1 H1) H2 H3).
    rewrite (honest_ext K T append sample k 2 (fun b => prodP c e F H (r :: b)) (prodP c e (ft F r) (ft H r))) by (intros b _; apply prodP_ft).
    assert (HZ' : forall i j, (i < 2 ^ k)%nat -> (j < pack)%nat -> G (2 * i)%nat || G (2 * i + 1)%nat = false -> ft H r i j = 0).
    { intros i j Hi Hj Eg. apply orb_false_iff in Eg as (E3 & E4). unfold ft. rewrite !HZ by (auto; lia). ring. }
    specialize (IH HZ'). destruct (honest_rounds k 2 (prodP c e (ft F r) (ft H r)) tp1) as [[rs' tp2]|]; cbn [obind]; [|exact IH].
    destruct IH as (f2 & hg2 & ge2 & E2 & P1 & P2 & P3). exists f2, hg2, ge2. rewrite E2, <- app_assoc. split; [reflexivity|]. split; [|split; auto].
    + eapply gpre_ext; [exact P1|]. intros i _. apply tab_ext. intros j _. now rewrite mle_ft.
    + eapply gpre_ext; [exact P2|]. intros i _. apply tab_ext. intros j _. now rewrite mle_ft.
Qed.

(** ** Rounds over the lanes *)
Definition f1t (f : nat -> K) (t : K) (i : nat) : K := f (2 * i)%nat + (f (2 * i + 1)%nat - f (2 * i)%nat) * t.
Lemma mle_f1t f t b : mle f (t :: b) = mle (f1t f t) b.
Proof. rewrite mle_cons, <- !mle_scale, <- mle_plus. apply mle_ext. intros i _. unfold f1t. ring. Qed.
Definition tripleP (e f h : nat -> K) (b : list K) : K := mle e b * (mle f b * mle h b).
Lemma triple_message e f h k t : cube_sum k (fun b => tripleP e f h (t :: b)) = sumn (2 ^ k) (fun i => f1t e t i * (f1t f t i * f1t h t i)).
Proof. rewrite cube_sum_bits. apply sumn_ext. intros i Hi. unfold tripleP. rewrite !mle_f1t, !mle_bits by auto. reflexivity. Qed.

Lemma sg_messages n idx N1 N2 N3 be bf bh e f h k : k = (n - idx - 1)%nat ->
  gpre be N1 (2 * 2 ^ k) e -> gpre bf N2 (2 * 2 ^ k) f -> gpre bh N3 (2 * 2 ^ k) h ->
  sg_poly_eval_at K n idx be bf bh = Some (map (fun i => cube_sum k (fun b => tripleP e f h (f_of_nat i :: b))) (seq 0 4)).
Proof.
  intros Ek He Hf Hh. unfold sg_poly_eval_at. rewrite <- Ek.
  set (m := fun t c => sumn c (fun i => f1t e t i * (f1t f t i * f1t h t i))).
  edestruct (for_seq (fun c s => s = (m (f_of_nat 0) c, m (f_of_nat 1) c, m (f_of_nat 2) c, m (f_of_nat 3) c))) as (s' & E & Es);
    [| |rewrite E, Es; cbn [obind seq map]; rewrite !triple_message; reflexivity].
  - reflexivity.
  - intros c s Hc ->. cbv beta iota. rewrite !(Nat.mul_comm c 2).
    rewrite (gpre_get _ _ _ _ (2 * c) He), (gpre_get _ _ _ _ (2 * c + 1) He), (gpre_get _ _ _ _ (2 * c) Hf), (gpre_get _ _ _ _ (2 * c + 1) Hf),
      (gpre_get _ _ _ _ (2 * c) Hh), (gpre_get _ _ _ _ (2 * c + 1) Hh) by lia. cbn [obind].
    eexists. split; [reflexivity|]. unfold m. rewrite !sumn_S. unfold f1t. cbn [f_of_nat].
    f_equal; [f_equal; [f_equal|]|]; ring.
Qed.
Lemma simd_rounds_ok n : forall k N1 N2 N3 e f h be bf bh rs tp, (k <= n)%nat ->
  gpre be N1 (2 ^ k) e -> gpre bf N2 (2 ^ k) f -> gpre bh N3 (2 ^ k) h ->
  match honest_rounds k 3 (tripleP e f h) tp with
  | None => simd_rounds k n be bf bh rs tp = None
  | Some (rs', tp') => exists be' bf' bh', simd_rounds k n be bf bh rs tp = Some (be', bf', bh', rs ++ rs', tp') /\
      gpre be' N1 1 (fun _ => mle e rs') /\ gpre bf' N2 1 (fun _ => mle f rs') /\ gpre bh' N3 1 (fun _ => mle h rs')
  end.
Proof.
  induction k as [|k IH]; intros N1 N2 N3 e f h be bf bh rs tp Hk He Hf Hh; cbn [GkrHonest.honest_rounds GkrProver.simd_rounds].
  - exists be, bf, bh. rewrite app_nil_r. split; [reflexivity|]. cbn [Nat.pow] in *.
    split; [|split]; (eapply gpre_ext; [eassumption|]); intros i Hi; rewrite mle_nil; (replace i with 0%nat by lia); reflexivity.
  - rewrite Nat.pow_succ_r' in *.
    assert (Ek : k = (n - (n - S k) - 1)%nat) by lia.
    rewrite (sg_messages n (n - S k) N1 N2 N3 be bf bh e f h k Ek He Hf Hh). cbn [obind].
    destruct (transcript_io K T append sample _ tp) as [[r tp1]|]; [|reflexivity]. cbn [obind].
    unfold sg_receive. rewrite (proj2 (Nat.ltb_lt (n - S k) n)) by lia. cbn [guard obind]. rewrite <- Ek. unfold sg_fold.
    destruct (fold_inplace (fun l h => l + (h - l) * r) (2 ^ k) be N1 e He) as (be' & E1 & H1).
    destruct (fold_inplace (fun l h => l + (h - l) * r) (2 ^ k) bf N2 f Hf) as (bf' & E2 & H2).
    destruct (fold_inplace (fun l h => l + (h - l) * r) (2 ^ k) bh N3 h Hh) as (bh' & E3 & H3).
    rewrite E1, E2, E3. cbn [obind].
    rewrite (honest_ext K T append sample k 3 (fun b => tripleP e f h (r :: b)) (tripleP (f1t e r) (f1t f r) (f1t h r))) by (intros b _; unfold tripleP; now rewrite !mle_f1t).
    specialize (IH N1 N2 N3 (f1t e r) (f1t f r) (f1t h r) be' bf' bh' (rs ++ [r]) tp1 ltac:(lia) H1 H2 H3).
    destruct (honest_rounds k 3 (tripleP (f1t e r) (f1t f r) (f1t h r)) tp1) as [[rs' tp2]|]; cbn [obind]; [|exact IH].
    destruct IH as (b1 & b2 & b3 & E4 & P1 & P2 & P3). exists b1, b2, b3. rewrite E4, <- app_assoc. split; [reflexivity|].
    split; [|split]; (eapply gpre_ext; [eassumption|]); intros i _; now rewrite mle_f1t.
Qed.
End Transcript.
End Proofs.
