(** Pooling and convolution layers of accepted proofs. *)
From Coq Require Import ZArith Znumtheory List Bool Lia String.
From Verif Require Import Base.Array Base.Machine Spec.Numbers Spec.Remainder Spec.RemainderCircuit Model.Remainder.
From Verif Require Import Proofs.RemainderArith Proofs.RemainderBuild Proofs.RemainderPublic Proofs.RemainderSound Proofs.RemainderLayers.
Import ListNotations.
Local Open Scope Z_scope.

(** ** Identity gates *)

Definition gate (va : list Z) (w : list (nat * nat)) (d : nat) : Z :=
  zsum (map (fun ds => at_ va (snd ds)) (filter (fun ds => Nat.eqb (fst ds) d) w)).

Lemma zsum_app' a b : zsum (a ++ b) = zsum a + zsum b.
Proof. unfold zsum. induction a; cbn [app fold_right]; [reflexivity|]. rewrite IHa. ring. Qed.
Lemma gate_app va a b d : gate va (a ++ b) d = gate va a d + gate va b d.
Proof. unfold gate. now rewrite filter_app, map_app, zsum_app'. Qed.
Lemma gate_flat {A} va (f : A -> list (nat * nat)) l d : gate va (flat_map f l) d = zsum (map (fun x => gate va (f x) d) l).
Proof. induction l as [|a l IH]; [reflexivity|]. cbn [flat_map map]. rewrite gate_app, IH. reflexivity. Qed.
Lemma gate_one va a b d : gate va [(a, b)] d = if Nat.eqb a d then at_ va b else 0.
Proof. unfold gate. cbn. destruct (Nat.eqb a d); cbn; lia. Qed.
Lemma gate_map {A} va (f : A -> nat * nat) l d :
  gate va (map f l) d = zsum (map (fun x => if Nat.eqb (fst (f x)) d then at_ va (snd (f x)) else 0) l).
Proof.
  induction l as [|a l IH]; [reflexivity|]. cbn [map]. change (f a :: map f l) with ([f a] ++ map f l).
  rewrite gate_app, IH, (surjective_pairing (f a)), gate_one. reflexivity.
Qed.

Lemma zsum_one' f n i : (i < n)%nat -> (forall j, (j < n)%nat -> j <> i -> f j = 0) -> zsum (map f (seq 0 n)) = f i.
Proof.
  intros Hi H. rewrite (zsum_extend f (S i) n) by (first [lia | intros; apply H; lia]).
  rewrite seq_S, map_app, zsum_app'. cbn. replace (zsum (map f (seq 0 i))) with 0; [lia|].
  symmetry. apply zsum_zero. intros j Hj. apply in_seq in Hj. apply H; lia.
Qed.

Lemma gate_eval env a w nv v : eval_node env (NGate a w nv) = Some v ->
  exists va, eval_node env a = Some va /\ List.length v = (2 ^ nv)%nat /\
    (forall d s, In (d, s) w -> (d < 2 ^ nv)%nat /\ (s < List.length va)%nat) /\
    forall d, (d < 2 ^ nv)%nat -> at_ v d = gate va w d.
Proof.
  intros H. change (eval_node env (NGate a w nv)) with
    (let* va := eval_node env a in
     let* _ := guard (forallb (fun ds => (fst ds <? 2 ^ nv) && (snd ds <? List.length va))%nat w) in
     Some (map (gate va w) (seq 0 (2 ^ nv)))) in H.
  inv_step H. inv_step H. injection H as <-. exists a0. split; [exact E|]. split; [now rewrite map_length, seq_length|]. split.
  - intros d s Hin. rewrite forallb_forall in G. specialize (G _ Hin). cbn in G. apply andb_prop in G. destruct G as (G1 & G2).
    apply Nat.ltb_lt in G1, G2. auto.
  - intros d Hd. now rewrite at_map_seq.
Qed.

Lemma lindex_position lay c h w : lindex lay c h w = position lay c h w.
Proof. destruct lay; cbn; lia. Qed.
Lemma dims_layout lay : spatial_dims lay = (channels lay, height lay, width lay).
Proof. now destruct lay. Qed.

(** ** Max pooling *)

Lemma code_inj i j i' j' n : (j < n)%nat -> (j' < n)%nat -> (i * n + j = i' * n + j')%nat -> i = i' /\ j = j'.
Proof.
  intros H H' E. destruct (decode i j n H) as (D1 & D2), (decode i' j' n H') as (D3 & D4). rewrite E in D1, D2. split; congruence.
Qed.

Lemma pool_gate g lay va a b oh ow ch : (oh < p_oh g)%nat -> (ow < p_ow g)%nat -> (ch < p_c g)%nat ->
  gate va (pool_wiring g lay a b) ((oh * p_ow g + ow) * p_c g + ch) =
    at_ va (lindex lay ch (oh * p_sh g + a) (ow * p_sw g + b)).
Proof.
  intros H1 H2 H3. unfold pool_wiring. rewrite gate_flat.
  set (d := ((oh * p_ow g + ow) * p_c g + ch)%nat).
  assert (K : forall ch', (ch' < p_c g)%nat -> gate va (flat_map (fun oh => map (fun ow =>
    ((oh * p_ow g + ow) * p_c g + ch', lindex lay ch' (oh * p_sh g + a) (ow * p_sw g + b)))%nat
    (seq 0 (p_ow g))) (seq 0 (p_oh g))) d =
    zsum (map (fun oh' => zsum (map (fun ow' => if Nat.eqb ((oh' * p_ow g + ow') * p_c g + ch') d
       then at_ va (lindex lay ch' (oh' * p_sh g + a) (ow' * p_sw g + b)) else 0) (seq 0 (p_ow g)))) (seq 0 (p_oh g)))).
  { intros ch' _. rewrite gate_flat. apply zsum_ext. intros oh' _. now rewrite gate_map. }
  rewrite (zsum_one' _ _ ch H3).
  - rewrite K by auto. rewrite (zsum_one' _ _ oh H1).
    + rewrite (zsum_one' _ _ ow H2).
      * unfold d. now rewrite Nat.eqb_refl.
      * intros ow' H N. destruct (Nat.eqb_spec ((oh * p_ow g + ow') * p_c g + ch) d) as [E|]; [|reflexivity]. exfalso.
        apply code_inj in E; auto. lia.
    + intros oh' H N. apply zsum_zero. intros ow' Hw. apply in_seq in Hw.
      destruct (Nat.eqb_spec ((oh' * p_ow g + ow') * p_c g + ch) d) as [E|]; [|reflexivity]. exfalso.
      apply code_inj in E; auto. destruct E as (E & _). apply code_inj in E; auto; lia.
  - intros ch' H N. rewrite K by auto. apply zsum_zero. intros oh' Hh. apply zsum_zero. intros ow' Hw.
    destruct (Nat.eqb_spec ((oh' * p_ow g + ow') * p_c g + ch') d) as [E|]; [|reflexivity]. exfalso.
    apply code_inj in E; auto. lia.
Qed.

Lemma prod_zero p env s nv : prime p -> forall ds, holds p env (Zero (EProd (map (fun s => NShred s nv) (s :: ds)))) = true ->
  (forall x, In x (s :: ds) -> exists v, eval_node env (NShred x nv) = Some v) ->
  forall i, (i < 2 ^ nv)%nat -> exists x v, In x (s :: ds) /\ eval_node env (NShred x nv) = Some v /\ at_ v i mod p = 0.
Proof.
  intros Pp ds H. apply holds_zero in H. destruct H as (v & Ev & Hv). cbn [eval_sector] in Ev.
  assert (LV : List.length v = (2 ^ nv)%nat).
  { clear Hv. destruct ds as [|s' ds]; cbn [map eval_prod] in Ev.
    - apply eval_shred in Ev. tauto.
    - inv_step Ev. apply eval_shred in E. inv_step Ev. apply zip_with_inv in Ev. lia. }
  intros HE i Hi. assert (Z0 : at_ v i mod p = 0) by (apply Hv; lia). clear Hv. revert s v LV Ev Z0 HE.
  induction ds as [|s' ds IH]; intros s v LV Ev Z0 HE.
  - exists s, v. split; [now left|]. split; auto.
  - change (eval_prod env (map (fun s => NShred s nv) (s :: s' :: ds))) with
      (let* a := eval_node env (NShred s nv) in let* b := eval_prod env (map (fun s => NShred s nv) (s' :: ds)) in zip_with Z.mul a b) in Ev.
    inv_step Ev. rename a into va. inv_step Ev. rename a into vb. apply zip_with_inv in Ev. destruct Ev as (L1 & L2 & A).
    pose proof (proj2 (eval_shred _ _ _ _ E)) as La. rewrite A in Z0 by lia.
    apply Z.mod_divide in Z0; [|pose proof (prime_ge_2 p Pp); lia]. apply prime_mult in Z0; [|exact Pp]. destruct Z0 as [D|D].
    + exists s, va. split; [now left|]. split; [exact E|]. apply Z.mod_divide; [pose proof (prime_ge_2 p Pp); lia|exact D].
    + destruct (IH s' vb) as (y & w & Iy & Ey & Zy).
      * lia.
      * exact E0.
      * apply Z.mod_divide; [pose proof (prime_ge_2 p Pp); lia|exact D].
      * intros; apply HE; now right.
      * exists y, w. split; [now right|]. auto.
Qed.

Lemma fold_checks {A} (f : A -> sector) l : forall b, b_checks (fold_left (fun b x => add_zero (f x) b) l b) = rev (map (fun x => Zero (f x)) l) ++ b_checks b.
Proof. induction l as [|a l IH]; intros b; [reflexivity|]. cbn. rewrite IH. cbn. now rewrite <- app_assoc. Qed.
Lemma fold_zero_rest {A} (f : A -> sector) l : forall b, let b' := fold_left (fun b x => add_zero (f x) b) l b in
  b_nodes b' = b_nodes b /\ b_ranges b' = b_ranges b /\ b_layouts b' = b_layouts b /\ b_manifest b' = b_manifest b.
Proof. induction l as [|a l IH]; intros b; [cbn; auto|]. cbn. destruct (IH (add_zero (f a) b)) as (? & ? & ? & ?). auto. Qed.
Lemma fold_shreds {A} (f : A -> shred) nv l : forall b, let b' := fold_left (fun b x => add_shred (f x) nv Committed b) l b in
  b_nodes b' = b_nodes b /\ b_ranges b' = b_ranges b /\ b_layouts b' = b_layouts b /\ b_checks b' = b_checks b.
Proof. induction l as [|a l IH]; intros b; [cbn; auto|]. cbn. destruct (IH (add_shred (f a) nv Committed b)) as (? & ? & ? & ?). auto. Qed.
Lemma fold_ranges (l : list shred) nv w : forall b, let b' := fold_left (fun b s => add_range s (NShred s nv) w nv b) l b in
  b_nodes b' = b_nodes b /\ b_layouts b' = b_layouts b /\ b_checks b' = b_checks b /\
  b_ranges b' = rev (map (fun s => (s, NShred s nv, w, nv)) l) ++ b_ranges b.
Proof.
  induction l as [|a l IH]; intros b; [cbn; auto|]. cbn. destruct (IH (add_range a (NShred a nv) w nv b)) as (H1 & H2 & H3 & H4).
  rewrite H1, H2, H3, H4. cbn. rewrite <- app_assoc. auto.
Qed.

Lemma combine_map_seq {A B} (f : nat -> A) (g : nat -> B) n : combine (map f (seq 0 n)) (map g (seq 0 n)) = map (fun i => (f i, g i)) (seq 0 n).
Proof. induction (seq 0 n) as [|a l IH]; [reflexivity|]. cbn. now rewrite IH. Qed.

Lemma pool_geometry_inv l lay g : pool_geometry l lay = Some g ->
  exists ph pw, l_kernel l = Some [ph; pw] /\ (0 < ph)%nat /\ (0 < pw)%nat /\ (0 < stride l 0)%nat /\ (0 < stride l 1)%nat /\
    (ph <= height lay)%nat /\ (pw <= width lay)%nat /\
    g = mkPool ph pw (stride l 0) (stride l 1) (windows (height lay) ph (stride l 0)) (windows (width lay) pw (stride l 1)) (channels lay).
Proof.
  unfold pool_geometry. rewrite dims_layout. intros H. inv_step H. inv_step H. apply Nat.eqb_eq in G.
  destruct a as [|ph [|pw [|]]]; try discriminate. inv_step H. inv_step H. inv_step H. injection H as <-.
  apply andb_prop in G0, G1, G2. destruct G0 as (A1 & A2), G1 as (A3 & A4), G2 as (A5 & A6).
  apply Nat.ltb_lt in A1, A2, A3, A4. apply Nat.leb_le in A5, A6. exists ph, pw. cbn in *. do 7 (split; [assumption || reflexivity|]). reflexivity.
Qed.

Lemma pool_arith p mx (X : list Z) (D : nat -> Z) w : prime p -> 2 ^ (Z.of_nat w + 2) < p ->
  (forall i, (i < List.length X)%nat -> (mx - at_ X i - D i) mod p = 0) ->
  (forall i, (i < List.length X)%nat -> exists y, in_width w y /\ (D i - y) mod p = 0) ->
  (exists i, (i < List.length X)%nat /\ D i mod p = 0) ->
  (forall v, In v (map (signed p) X) -> 4 * Z.abs v < p) -> is_max (map (signed p) X) (signed p mx).
Proof.
  intros Pp Hp H1 H2 (i0 & Hi0 & Z0) HB. pose proof (prime_ge_2 p Pp) as P2. rewrite Z.pow_add_r in Hp by lia. change (2 ^ 2) with 4 in Hp.
  assert (AT : forall i, (i < List.length X)%nat -> In (signed p (at_ X i)) (map (signed p) X)).
  { intros i Hi. apply in_map. now apply nth_In. }
  assert (ES : signed p mx = signed p (at_ X i0)).
  { apply signed_eq; [lia|]. specialize (H1 i0 Hi0). apply Z.mod_divide in H1, Z0; try lia. apply Z.mod_divide; [lia|].
    replace (mx - at_ X i0) with (mx - at_ X i0 - D i0 + D i0) by ring. now apply Z.divide_add_r. }
  split; [rewrite ES; now apply AT|]. intros v Hv. apply in_map_iff in Hv. destruct Hv as (x & <- & Hx).
  apply (In_nth _ _ 0) in Hx. destruct Hx as (i & Hi & <-). fold (at_ X i).
  destruct (H2 i Hi) as (y & Wy & Cy). unfold in_width in Wy.
  assert (B0 := HB _ (AT i0 Hi0)). assert (Bi := HB _ (AT i Hi)). rewrite ES in *.
  destruct (signed_spec p (at_ X i0) ltac:(lia)) as (a & Ea & _). destruct (signed_spec p (at_ X i) ltac:(lia)) as (b & Eb & _).
  specialize (H1 i Hi). assert (H0 := H1). pose proof (fun H => signed_spec p mx H) as Em. destruct (Em ltac:(lia)) as (c & Ec & _). rewrite ES in Ec.
  apply Z.mod_divide in H1, Cy; try lia. destruct H1 as (d & H1), Cy as (e & Cy).
  set (S0 := signed p (at_ X i0)) in *. set (Si := signed p (at_ X i)) in *.
  assert (S0 - Si - y = 0).
  { assert (EK : S0 - Si - y = (c - b + d + e) * p) by lia. assert (c - b + d + e = 0) as K0; [|rewrite EK, K0; ring].
    clear - EK B0 Bi Wy Hp P2. assert (-1 < c - b + d + e < 1); [nia|lia]. }
  lia.
Qed.

Lemma window_list p lay xs ph pw c h w : (0 < pw)%nat ->
  window_values p lay xs ph pw c h w =
  map (signed p) (map (fun i => entry xs (position lay c (h + i / pw) (w + i mod pw))) (seq 0 (ph * pw))).
Proof.
  intros Hpw. rewrite map_map. unfold window_values. induction ph as [|ph IH]; [reflexivity|].
  rewrite seq_S, flat_map_app, IH. cbn [flat_map]. rewrite app_nil_r. replace (S ph * pw)%nat with (ph * pw + pw)%nat by lia.
  rewrite seq_app, map_app. f_equal. cbn [Nat.add].
  assert (Hz : forall n z, (z + n <= pw)%nat -> map (fun j => signed p (entry xs (position lay c (h + ph) (w + j)))) (seq z n) =
     map (fun x => signed p (entry xs (position lay c (h + x / pw) (w + x mod pw)))) (seq (ph * pw + z) n)).
  { clear - Hpw. induction n as [|n IH]; intros z Hz; [reflexivity|]. cbn [seq map]. destruct (decode ph z pw ltac:(lia)) as (-> & ->).
    f_equal. rewrite IH by lia. now rewrite Nat.add_succ_r. }
  rewrite (Hz pw 0%nat) by lia. now rewrite Nat.add_0_r.
Qed.

Lemma maxpool_sound p m pf input k l x o lay : prime p -> 2 ^ 20 < p ->
  verify p m pf input = true -> layer_at m k l -> l_op l = MaxPool -> width_set pf l ->
  aget (l_inputs l) 0 = Some x -> In o (l_outputs l) -> tensor_layout m pf input k x = Some lay ->
  exists ph pw xs ys, l_kernel l = Some [ph; pw] /\
    let oh := windows (height lay) ph (stride l 0) in
    let ow := windows (width lay) pw (stride l 1) in
    tensor_value m pf input k x = Some xs /\ tensor_value m pf input (S k) o = Some ys /\
    tensor_layout m pf input (S k) o = Some (HWC oh ow (channels lay) (channels lay)) /\
    List.length ys = pow2_for (oh * ow * channels lay) /\
    forall c i j, (c < channels lay)%nat -> (i < oh)%nat -> (j < ow)%nat ->
      let window := window_values p lay xs ph pw c (i * stride l 0) (j * stride l 1) in
      (forall v, In v window -> 4 * Z.abs v < p) -> is_max window (signed p (entry ys ((i * ow + j) * channels lay + c))).
Proof.
  intros Pp Hp V L Hop Hw Hx Ho Hlay. destruct (around_verify _ _ _ _ _ _ V L) as (env & b1 & b2 & s1 & s2 & A).
  destruct (obs_bits pf l Hw) as (nb & Eb & Elb).
  pose proof (ar_build _ _ _ _ _ _ _ _ _ _ _ A) as B.
  destruct (ar_tables _ _ _ _ _ _ _ _ _ _ _ A) as (tb & T).
  destruct (obs_same (pf_observed pf) l) as (En & Eop & Ei & Eo & _ & _ & _ & _ & Ek & _ & Est & _).
  unfold build_layer in B. rewrite Eop, Hop in B. unfold build_maxpool in B. rewrite Ei, Hx, Eb, En, Eo in B. cbn [obind] in B.
  rewrite (ar_layout _ _ _ _ _ _ _ _ _ _ _ A) in Hlay. rewrite Hlay in B. cbn [obind] in B.
  inv_step B. rename a into g, E into Eg. inv_step B. rename a into xin, E into Exin. injection B as B.
  unfold layer_tables in T. rewrite Eop, Hop, Elb in T. inv_step T. inv_step T. apply width_tables_bound in T. clear E G.
  change (m_exponent (apply_observed (pf_observed pf) m)) with (m_exponent m) in *.
  set (w := delta_table_nv nb (m_exponent m)) in *.
  apply pool_geometry_inv in Eg. unfold stride in Eg. rewrite Ek, Est in Eg. fold (stride l 0) in Eg. fold (stride l 1) in Eg.
  destruct Eg as (ph & pw & Hk & Hph & Hpw & Hs0 & Hs1 & Hh & Hwd & Eg).
  set (oh := windows (height lay) ph (stride l 0)) in *. set (ow := windows (width lay) pw (stride l 1)) in *.
  set (nv := nvars (p_out g)) in *. set (sm := SLayer (l_name l) "max") in *.
  set (ds := map (SDelta (l_name l)) (seq 0 (p_window g))) in *.
  rewrite (combine_map_seq (SDelta (l_name l)) (fun i => pool_wiring g lay (i / p_w g) (i mod p_w g)) (p_window g) : combine ds (pool_wirings g lay) = _) in B.
  set (cs := map (fun i => (SDelta (l_name l) i, pool_wiring g lay (i / p_w g) (i mod p_w g))) (seq 0 (p_window g))) in *.
  set (bA := fold_left (fun b s => add_shred s nv Committed b) ds (add_shred sm nv Committed b1)) in *.
  set (sec := fun sg : shred * list (nat * nat) => ESub (ESub (ENode (NShred sm nv)) (ENode (NGate xin (snd sg) nv))) (ENode (NShred (fst sg) nv))) in *.
  set (bB := fold_left (fun b sg => add_zero (ESub (ESub (ENode (NShred sm nv)) (ENode (NGate xin (snd sg) nv))) (ENode (NShred (fst sg) nv))) b) cs bA) in *.
  destruct (fold_ranges ds nv w (add_zero (EProd (map (fun s => NShred s nv) ds)) bB)) as (F1 & F2 & F3 & F4).
  assert (F5 : b_checks bB = rev (map (fun x => Zero (sec x)) cs) ++ b_checks bA) by exact (fold_checks sec cs bA).
  assert (CK : forall c, In c cs -> holds p env (Zero (sec c)) = true).
  { intros c Hc. apply (ar_checks _ _ _ _ _ _ _ _ _ _ _ A). rewrite <- B. cbn [b_checks set_layouts set_outputs]. rewrite F3.
    cbn [b_checks add_zero]. right. rewrite F5. apply in_or_app. left. rewrite <- in_rev. apply in_map_iff. eauto. }
  assert (PR : holds p env (Zero (EProd (map (fun s => NShred s nv) ds))) = true).
  { apply (ar_checks _ _ _ _ _ _ _ _ _ _ _ A). rewrite <- B. cbn [b_checks set_layouts set_outputs]. rewrite F3. now left. }
  assert (RG : forall s, In s ds -> exists v, eval_node env (NShred s nv) = Some v /\
       forall i, (i < List.length v)%nat -> exists y, in_width w y /\ (at_ v i - y) mod p = 0).
  { intros s Hs. apply (ar_ranges _ _ _ _ _ _ _ _ _ _ _ A s (NShred s nv) w nv). rewrite <- B. cbn [b_ranges set_layouts set_outputs].
    rewrite F4. apply in_or_app. left. rewrite <- in_rev. apply in_map_iff. eauto. }
  assert (NW : (0 < p_window g)%nat) by (rewrite Eg; unfold p_window; cbn; nia).
  assert (C0 := CK (SDelta (l_name l) 0, pool_wiring g lay (0 / p_w g) (0 mod p_w g))).
  specialize (C0 ltac:(apply in_map_iff; exists 0%nat; split; [reflexivity|apply in_seq; lia])).
  apply sub_sub_zero in C0. destruct C0 as (ys & gv & _ & Eys & Egv & _ & _ & _ & _). cbn [eval_sector] in Eys, Egv. cbn [snd] in Egv.
  apply gate_eval in Egv. destruct Egv as (xs & Exs & _ & _ & _). pose proof (eval_shred _ _ _ _ Eys) as (_ & Lys).
  exists ph, pw, xs, ys. split; [exact Hk|]. cbv zeta. split; [rewrite (ar_before _ _ _ _ _ _ _ _ _ _ _ A), Exin; exact Exs|].
  split. { rewrite (ar_after _ _ _ _ _ _ _ _ _ _ _ A), <- B. cbn [b_nodes set_layouts set_outputs]. rewrite hputs_in by auto. exact Eys. }
  split. { rewrite (ar_layout' _ _ _ _ _ _ _ _ _ _ _ A), <- B. cbn [b_layouts set_layouts set_outputs]. rewrite hputs_in by auto. now rewrite Eg. }
  split. { rewrite Lys. unfold nv, p_out. rewrite Eg. reflexivity. }
  intros c i j Hc Hi Hj HB. rewrite window_list in * by auto.
  set (d := ((i * ow + j) * channels lay + c)%nat) in *.
  assert (Hd : (d < 2 ^ nv)%nat).
  { unfold nv. fold (pow2_for (p_out g)). apply Nat.lt_le_trans with (p_out g); [|apply le_pow2_for].
    unfold p_out. rewrite Eg. cbn. unfold d. apply encode_lt; auto. now apply encode_lt. }
  set (D := fun t => match eval_node env (NShred (SDelta (l_name l) t) nv) with Some v => at_ v d | None => 0 end).
  assert (INd : forall t, (t < p_window g)%nat -> In (SDelta (l_name l) t) ds) by (intros; apply in_map, in_seq; lia).
  assert (EPW : p_window g = (ph * pw)%nat) by (now rewrite Eg).
  apply (pool_arith p _ _ D w Pp).
  - assert (W18 : 2 ^ Z.of_nat w <= 2 ^ 18) by (apply Z.pow_le_mono_r; lia).
    rewrite Z.pow_add_r by lia. change (2 ^ 2) with 4. change (2 ^ 20) with (2 ^ 18 * 4) in Hp. lia.
  - rewrite map_length, seq_length. intros t Ht. rewrite at_map_seq by auto.
    assert (C := CK (SDelta (l_name l) t, pool_wiring g lay (t / p_w g) (t mod p_w g))).
    specialize (C ltac:(apply in_map_iff; exists t; split; [reflexivity|apply in_seq; lia])).
    apply sub_sub_zero in C. destruct C as (ys' & gv' & dv & Eys' & Egv & Edv & _ & _ & H). cbn [eval_sector fst snd] in Eys', Egv, Edv.
    rewrite Eys in Eys'. injection Eys' as <-. apply gate_eval in Egv. destruct Egv as (xs' & Exs' & _ & _ & HG).
    rewrite Exs in Exs'. injection Exs' as <-. specialize (H d ltac:(lia)). unfold D. rewrite Edv.
    rewrite HG in H by auto. unfold d in H at 2. 
    pose proof (pool_gate g lay xs (t / p_w g) (t mod p_w g) i j c) as PG. rewrite Eg in PG, H. cbn [p_oh p_ow p_c p_sh p_sw p_w] in PG, H.
    rewrite (PG Hi Hj Hc) in H. rewrite lindex_position in H. exact H.
  - rewrite map_length, seq_length. intros t Ht. destruct (RG _ (INd t ltac:(lia))) as (v & Ev & HV). unfold D. rewrite Ev.
    apply HV. apply eval_shred in Ev. lia.
  - rewrite map_length, seq_length.
    assert (EX : exists y v, In y ds /\ eval_node env (NShred y nv) = Some v /\ at_ v d mod p = 0).
    { destruct ds as [|s ds'] eqn:Eds; [exfalso; apply (INd 0%nat); lia|].
      apply (prod_zero p env s nv Pp ds'); auto. intros y Hy. destruct (RG y Hy) as (v & Ev & _). eauto. }
    destruct EX as (y & v & Iy & Ey & Zy). apply in_map_iff in Iy. destruct Iy as (t & <- & It). apply in_seq in It.
    exists t. split; [lia|]. unfold D. now rewrite Ey.
  - exact HB.
Qed.
