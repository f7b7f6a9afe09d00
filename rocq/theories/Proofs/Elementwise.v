(** Max, Min, Mul, Div, Neg and BatchNormalization *)
From Coq Require Import List Arith Bool ZArith Znumtheory Lia.
From Verif Require Base.Array.
From Verif Require Import Spec.Numbers Spec.Shapes Spec.Tensors Spec.HonestProver Spec.Selection Spec.Conv Spec.Elementwise
  Model.Builder Model.Gadgets Model.Layers Model.Shapes Model.DataMovement Model.Selection Model.Elementwise
  Proofs.Builder Proofs.RangeCheck Proofs.Gadgets Proofs.Layers Proofs.Shapes Proofs.Division Proofs.Rescale Proofs.RescaleArray Proofs.ArithmeticProps Proofs.Tensors
  Proofs.DataMovement Proofs.DataMovement5 Proofs.Selection Proofs.SelectionProps Proofs.Conv Proofs.ConvLayer.
Import ListNotations.
Local Open Scope Z_scope.

(** *** Broadcasting two operands *)
Lemma omap_nat {A B C} (f : A -> option B) (h : B -> C) l :
  Array.omap (fun x => option_map h (f x)) l = option_map (map h) (Array.omap f l).
Proof.
  induction l as [|a l IH]; [reflexivity|]. cbn [Array.omap]. destruct (f a); cbn [option_map Array.obind]; [|reflexivity].
  rewrite IH. now destruct (Array.omap f l).
Qed.
Lemma broadcast_encoded p (a : tensor Z) r : broadcast_array (encoded p a) r = option_map (encoded p) (broadcast_array a r).
Proof.
  unfold broadcast_array. cbn [encoded dims flat]. destruct (_ <=? _)%nat; cbn [Array.guard Array.obind]; [|reflexivity].
  unfold from_shape_vec. rewrite map_length. destruct (_ =? _)%nat; cbn [Array.obind]; [|reflexivity].
  unfold nd_broadcast. cbn [dims flat]. destruct (_ =? _)%nat; cbn [Array.guard Array.obind]; [|reflexivity].
  destruct (forallb _ _); cbn [Array.guard Array.obind]; [|reflexivity].
  destruct (Array.omap _ _) as [im|]; cbn [Array.obind]; [|reflexivity]. unfold select.
  assert (E : Array.omap (Array.aget (map (enc p) (flat a))) im = option_map (map (enc p)) (Array.omap (Array.aget (flat a)) im)).
  { rewrite <- omap_nat. apply omap_ext. intros i _. unfold Array.aget. now rewrite nth_error_map. }
  rewrite E. destruct (Array.omap (Array.aget (flat a)) im) as [o|]; cbn [option_map Array.obind]; [|reflexivity].
  unfold from_shape_vec. rewrite map_length. now destruct (_ =? _)%nat.
Qed.

Lemma broadcast_pairs g (a b y : tensor Z) : operands a b -> well_formed y -> pointwise2 g a b y ->
  exists ya yb, determine_broadcast_shape (dims a) (dims b) = Some (dims y) /\ broadcast_shapes (dims a) (dims b) = Some (dims y) /\
    broadcast_array a (dims y) = Some ya /\ broadcast_array b (dims y) = Some yb /\ dims ya = dims y /\ dims yb = dims y /\
    length (flat ya) = length (flat y) /\ length (flat yb) = length (flat y) /\
    (forall u v, In (u, v) (combine (flat ya) (flat yb)) -> In u (flat a) /\ In v (flat b)) /\
    flat y = map (fun uv => g (fst uv) (snd uv)) (combine (flat ya) (flat yb)).
Proof.
  intros (Wa & Wb & Pa & Pb) Wy (B & H). set (r := dims y) in *.
  pose proof (proj2 (broadcast_shape_ok _ _ r Pa Pb) B) as Er. destruct (broadcast_shape_expands _ _ _ Pa Pb Er) as (Xa & Xb).
  destruct (broadcast_array_result a r Wa Xa) as (ya & Ea & Wya & Da & (_ & Va)).
  destruct (broadcast_array_result b r Wb Xb) as (yb & Eb & Wyb & Db & (_ & Vb)).
  rewrite Da in Va. rewrite Db in Vb. exists ya, yb. split; [auto|]. split; [now apply broadcast_shapes_ok|].
  do 2 (split; [assumption|]). do 2 (split; [assumption|]).
  assert (La : length (flat ya) = length (flat y)) by (unfold well_formed in *; rewrite Wya, Da, Wy; reflexivity).
  assert (Lb : length (flat yb) = length (flat y)) by (unfold well_formed in *; rewrite Wyb, Db, Wy; reflexivity).
  split; [auto|]. split; [auto|].
  assert (K : forall i, (i < length (flat y))%nat -> exists u v, In u (flat a) /\ In v (flat b) /\
    nth_error (combine (flat ya) (flat yb)) i = Some (u, v) /\ nth_error (flat y) i = Some (g u v)).
  { intros i Hi. unfold well_formed in Wy. rewrite Wy in Hi. destruct (unravel_ok i (dims y) Hi) as (c & _ & R & <-).
    destruct (H c R) as (u & v & Eu & Ev & Ey). exists u, v. split; [exact (elem_In _ _ _ Eu)|]. split; [exact (elem_In _ _ _ Ev)|].
    fold r in R |- *. split.
    - rewrite <- Da at 1. rewrite combine_elem by (congruence || now rewrite Da). rewrite Va, Vb by auto. now rewrite Eu, Ev.
    - rewrite <- Ey. now rewrite elem_in by exact R. }
  split.
  - intros u v I. apply In_nth_error in I as (i & E). assert (Hi : (i < length (flat y))%nat).
    { assert (nth_error (combine (flat ya) (flat yb)) i <> None) as Q by congruence. apply nth_error_Some in Q. rewrite combine_length in Q. lia. }
    destruct (K i Hi) as (u' & v' & I1 & I2 & E' & _). rewrite E in E'. injection E' as -> ->. auto.
  - apply Array.nth_error_ext'. intros i. rewrite nth_error_map. destruct (Nat.lt_ge_cases i (length (flat y))) as [Hi|Hi].
    + destruct (K i Hi) as (u & v & _ & _ & -> & ->). reflexivity.
    + rewrite (proj2 (nth_error_None _ _) Hi), (proj2 (nth_error_None _ _)) by (rewrite combine_length; lia). reflexivity.
Qed.
Lemma pointwise2_exists g (a b : tensor Z) r : operands a b -> broadcasts_to (dims a) (dims b) r ->
  exists y, dims y = r /\ well_formed y /\ pointwise2 g a b y.
Proof.
  intros (Wa & Wb & Pa & Pb) B. destruct (arith_holds 2 add Z.add a b r (enc_add 2)) as (o & Do & Wo & (_ & H) & _); auto.
  set (h := fun c => match elem a (read_coords c (dims a)), elem b (read_coords c (dims b)) with Some u, Some v => Some (g u v) | _, _ => None end).
  destruct (tabulate_ok (fun k => match unravel k r with Some c => h c | None => None end) r h) as (m & Em & Lm & Vm).
  { intros c R. rewrite unravel_row_major by auto. split; [reflexivity|]. rewrite <- Do in R. destruct (H c R) as (u & v & E1 & E2 & _).
    unfold h. rewrite E1, E2. discriminate. }
  exists {| dims := r; flat := m |}. split; [reflexivity|]. split; [exact Lm|]. split; [exact B|]. cbn [dims]. intros c R.
  rewrite Vm by auto. rewrite <- Do in R. destruct (H c R) as (u & v & E1 & E2 & _). exists u, v. unfold h. rewrite E1, E2. auto.
Qed.

(** *** Loops over the pairs *)
Lemma combine_map {A B A' B'} (f : A -> A') (g : B -> B') l m : combine (map f l) (map g m) = map (fun uv => (f (fst uv), g (snd uv))) (combine l m).
Proof. revert m. induction l as [|a l IH]; intros [|b m]; cbn; auto. now rewrite IH. Qed.
Lemma accepts_mapM_map {A B} p T (f : A -> prog B) (g : A -> B) l o :
  (forall a, In a l -> forall w, accepts p T (f a) w <-> w = g a) -> accepts p T (mapM f l) o <-> o = map g l.
Proof.
  intros H. rewrite accepts_mapM. revert o. induction l as [|a l IH]; intros o; cbn [map].
  - split; [intros Q; now inversion Q|intros ->; constructor].
  - split.
    + intros Q. inversion Q as [|? b ? bs E1 E2]; subst. apply H in E1; [|now left]. apply IH in E2; [|intros; apply H; now right]. congruence.
    + intros ->. constructor; [apply H; [now left|reflexivity]|]. apply IH; [intros; apply H; now right|reflexivity].
Qed.
Lemma from_shape_ok {A} (y : tensor Z) (o : list A) : well_formed y -> length o = length (flat y) -> from_shape_vec (dims y) o = Some {| dims := dims y; flat := o |}.
Proof. intros W L. unfold from_shape_vec, well_formed in *. now rewrite L, W, Nat.eqb_refl. Qed.

Section C.
Variables (p : Z) (c : nat) (F : nat -> list (list Z)) (s : nat).
Hypothesis Hp : prime p.
Hypothesis Hc : (0 < c)%nat.
Hypothesis Hs : (s < 64)%nat.
Notation acc := (accepts p (table_rows c F)).
Notation rn := (run honest_hint (table_rowsb c F)).

Lemma fold2 {A} (a b : A) (l : list A) : nth_error (a :: b :: l) 0 = Some a /\ nth_error (a :: b :: l) 1 = Some b.
Proof. split; reflexivity. Qed.


Lemma extremum_acc is_max u v w : width_ok c (s + 1) -> 2 * 2 ^ Z.of_nat (s + 1) <= p -> ((s + 1) mod c = 0)%nat ->
  signed_fits s u -> signed_fits s v ->
  acc (if is_max : bool then constrained_max_2 p c s (const p (pow2 s)) (enc p u) (enc p v)
       else constrained_min_2 p c s (const p (pow2 s)) (enc p u) (enc p v)) w <-> w = enc p (extremum is_max u v).
Proof.
  intros Ws Big M Hu Hv. destruct is_max; unfold extremum.
  - change (constrained_max_2 p c s (const p (pow2 s)) (enc p u) (enc p v)) with (constrained_max p c s (const p (pow2 s)) (map (enc p) [u; v])).
    rewrite (max_exact p Hp c Hc F s Ws M Big) by (discriminate || auto). split.
    + intros (z & (I & G) & ->). f_equal. pose proof (G u ltac:(now left)). pose proof (G v ltac:(right; now left)). destruct I as [<-|[<-|[]]]; lia.
    + intros ->. exists (Z.max u v). split; [|reflexivity]. split; [cbn; lia|]. intros x [<-|[<-|[]]]; lia.
  - change (constrained_min_2 p c s (const p (pow2 s)) (enc p u) (enc p v)) with (constrained_min p c s (const p (pow2 s)) (map (enc p) [u; v])).
    rewrite (min_exact p Hp c Hc F s Ws M Big) by (discriminate || auto). split.
    + intros (z & (I & G) & ->). f_equal. pose proof (G u ltac:(now left)). pose proof (G v ltac:(right; now left)). destruct I as [<-|[<-|[]]]; lia.
    + intros ->. exists (Z.min u v). split; [|reflexivity]. split; [cbn; lia|]. intros x [<-|[<-|[]]]; lia.
Qed.
Lemma compare_exact is_max a b rest y out : width_ok c (s + 1) -> 2 * 2 ^ Z.of_nat (s + 1) <= p -> ((s + 1) mod c = 0)%nat ->
  operands a b -> Forall (signed_fits s) (flat a) -> Forall (signed_fits s) (flat b) ->
  well_formed y -> pointwise2 (extremum is_max) a b y ->
  acc (compare_layer p c is_max (s + 1) (encoded p a :: encoded p b :: rest)) out <-> out = encoded p y.
Proof.
  intros Ws Big M O Fa Fb Wy P. destruct (broadcast_pairs _ a b y O Wy P) as (ya & yb & E1 & _ & Ea & Eb & Da & Db & La & Lb & I & V).
  unfold compare_layer. destruct (fold2 (encoded p a) (encoded p b) rest) as (-> & ->). cbn [lift bind].
  unfold broadcast_two_arrays. cbn [encoded dims]. rewrite E1. cbn [lift bind]. fold (encoded p a) (encoded p b).
  rewrite !broadcast_encoded, Ea, Eb. cbn [option_map lift bind fst snd]. rewrite (proj2 (Nat.eqb_neq (s + 1) 0)) by lia.
  replace (s + 1 - 1)%nat with s by lia. unfold shift_ctx. rewrite (proj2 (Nat.leb_gt 64 s)) by lia. cbn [bind].
  cbn [encoded dims flat]. rewrite Da, combine_map, accepts_bind.
  assert (K : forall o, acc (mapM (fun '(a_val, b_val) => if is_max then constrained_max_2 p c s (const p (pow2 s)) a_val b_val
       else constrained_min_2 p c s (const p (pow2 s)) a_val b_val) (map (fun uv => (enc p (fst uv), enc p (snd uv))) (combine (flat ya) (flat yb)))) o
       <-> o = map (enc p) (flat y)).
  { intros o. rewrite V, map_map. rewrite accepts_mapM. rewrite <- (accepts_mapM_map p (table_rows c F)
      (fun uv => if is_max then constrained_max_2 p c s (const p (pow2 s)) (enc p (fst uv)) (enc p (snd uv))
       else constrained_min_2 p c s (const p (pow2 s)) (enc p (fst uv)) (enc p (snd uv)))).
    - rewrite accepts_mapM. clear. generalize (combine (flat ya) (flat yb)). intros l. revert o. induction l as [|uv l IH]; intros o; cbn [map].
      + split; intros Q; inversion Q; constructor.
      + split; intros Q; inversion Q; subst; constructor; auto; now apply IH.
    - intros (u, v) J w. cbn [fst snd]. destruct (I u v J) as (Iu & Iv). rewrite Forall_forall in Fa, Fb. apply extremum_acc; auto. }
  split.
  - intros (o & A1 & A2). apply K in A1. subst o. rewrite from_shape_ok in A2 by (auto; apply map_length). cbn [lift accepts] in A2. symmetry. exact A2 || exact (eq_sym A2).
  - intros ->. exists (map (enc p) (flat y)). split; [now apply K|]. rewrite from_shape_ok by (auto; apply map_length). reflexivity.
Qed.

Lemma compare_run is_max a b rest y : width_ok c (s + 1) -> 2 * 2 ^ Z.of_nat (s + 1) <= p -> 2 ^ Z.of_nat (rounded c (s + 1)) <= p ->
  operands a b -> Forall (signed_fits s) (flat a) -> Forall (signed_fits s) (flat b) ->
  well_formed y -> pointwise2 (extremum is_max) a b y ->
  rn (compare_layer p c is_max (s + 1) (encoded p a :: encoded p b :: rest)) = Some (encoded p y).
Proof.
  intros Ws Big R O Fa Fb Wy P. destruct (broadcast_pairs _ a b y O Wy P) as (ya & yb & E1 & _ & Ea & Eb & Da & Db & La & Lb & I & V).
  unfold compare_layer. destruct (fold2 (encoded p a) (encoded p b) rest) as (-> & ->). cbn [lift bind].
  unfold broadcast_two_arrays. cbn [encoded dims]. rewrite E1. cbn [lift bind]. fold (encoded p a) (encoded p b).
  rewrite !broadcast_encoded, Ea, Eb. cbn [option_map lift bind fst snd]. rewrite (proj2 (Nat.eqb_neq (s + 1) 0)) by lia.
  replace (s + 1 - 1)%nat with s by lia. unfold shift_ctx. rewrite (proj2 (Nat.leb_gt 64 s)) by lia. cbn [bind].
  cbn [encoded dims flat]. rewrite Da, run_bind.
  assert (K : rn (mapM (fun '(a_val, b_val) => if is_max then constrained_max_2 p c s (const p (pow2 s)) a_val b_val
       else constrained_min_2 p c s (const p (pow2 s)) a_val b_val) (combine (map (enc p) (flat ya)) (map (enc p) (flat yb)))) = Some (map (enc p) (flat y))).
  { rewrite combine_map, V, map_map. rewrite <- (run_mapM _ _ honest_hint (table_rowsb c F)
      (fun uv => if is_max then constrained_max_2 p c s (const p (pow2 s)) (enc p (fst uv)) (enc p (snd uv))
       else constrained_min_2 p c s (const p (pow2 s)) (enc p (fst uv)) (enc p (snd uv)))).
    - clear. f_equal. induction (combine (flat ya) (flat yb)) as [|uv l IH]; cbn [map mapM]; [reflexivity|]. now rewrite IH.
    - intros (u, v) J. cbn [fst snd]. destruct (I u v J) as (Iu & Iv). rewrite Forall_forall in Fa, Fb. unfold extremum.
      destruct is_max; [apply max2_run|apply min2_run]; auto. }
  rewrite K, from_shape_ok by (auto; apply map_length). reflexivity.
Qed.

(** *** Sums and products of two operands *)
Lemma mapM_ret {A B} (h : A -> B) l : mapM (fun x => Ret (h x)) l = Ret (map h l).
Proof. induction l as [|a l IH]; [reflexivity|]. cbn [mapM]. rewrite IH. reflexivity. Qed.
Lemma elementwise_pure (op : Z -> Z -> Z -> Z) g a b y : (forall u v, op p (enc p u) (enc p v) = enc p (g u v)) ->
  operands a b -> well_formed y -> pointwise2 g a b y ->
  elementwise (fun u v => Ret (op p u v)) (encoded p a) (encoded p b) = Ret (encoded p y).
Proof.
  intros E O Wy P. destruct (broadcast_pairs _ a b y O Wy P) as (ya & yb & E1 & _ & Ea & Eb & Da & Db & La & Lb & I & V).
  unfold elementwise, broadcast_two_arrays. cbn [encoded dims]. rewrite E1. cbn [lift bind]. fold (encoded p a) (encoded p b).
  rewrite !broadcast_encoded, Ea, Eb. cbn [option_map lift bind fst snd encoded dims flat]. rewrite Da, combine_map.
  replace (mapM _ _) with (Ret (map (enc p) (flat y)) : prog (list Z)).
  - cbn [bind]. rewrite from_shape_ok by (auto; apply map_length). reflexivity.
  - rewrite V, map_map. clear - E. induction (combine (flat ya) (flat yb)) as [|(u, v) l IH]; cbn [map mapM]; [reflexivity|].
    rewrite <- IH. cbn [bind fst snd]. now rewrite E.
Qed.

Section R.
Variables (k : nat) (is_rescale is_relu : bool).
Hypothesis Hk : (k < 32)%nat.
Hypothesis W1 : width_ok c k.
Hypothesis W2 : width_ok c (s + 1).
Hypothesis Big : 2 * (2 ^ Z.of_nat k * 2 ^ Z.of_nat (rounded c (s + 1)) + 2 ^ Z.of_nat (rounded c k)) <= p.
Lemma rescaled_exact y out : (k mod c = 0)%nat -> ((s + 1) mod c = 0)%nat -> Forall (layer_range k s is_rescale is_relu) (flat y) ->
  acc (bind (maybe_rescale p c (map (enc p) (flat y)) is_rescale is_relu k (s + 1)) (fun out => Ret {| dims := dims y; flat := out |})) out <->
  out = encoded p (after_layer k is_rescale is_relu y).
Proof.
  intros M1 M2 R. rewrite accepts_bind. unfold encoded, after_layer. cbn [dims flat]. rewrite map_map. split.
  - intros (o & A1 & A2). apply maybe_rescale_exact in A1; auto. cbn [accepts] in A2. now subst.
  - intros ->. eexists. split; [apply maybe_rescale_exact; auto|reflexivity].
Qed.
Lemma rescaled_run y : Forall (layer_range k s is_rescale is_relu) (flat y) ->
  rn (bind (maybe_rescale p c (map (enc p) (flat y)) is_rescale is_relu k (s + 1)) (fun out => Ret {| dims := dims y; flat := out |})) =
  Some (encoded p (after_layer k is_rescale is_relu y)).
Proof.
  intros R. rewrite run_bind, maybe_rescale_run by auto. cbn [run]. unfold encoded, after_layer. cbn [dims flat]. now rewrite map_map.
Qed.
Lemma mul_exact a b y out : (k mod c = 0)%nat -> ((s + 1) mod c = 0)%nat ->
  operands a b -> well_formed y -> pointwise2 Z.mul a b y -> Forall (layer_range k s is_rescale is_relu) (flat y) ->
  acc (mul_layer p c is_rescale is_relu k (s + 1) (encoded p a) (encoded p b)) out <-> out = encoded p (after_layer k is_rescale is_relu y).
Proof.
  intros M1 M2 O Wy P R. unfold mul_layer. rewrite (elementwise_pure mul Z.mul a b y (enc_mul p) O Wy P). exact (rescaled_exact y out M1 M2 R).
Qed.
Lemma mul_run a b y : operands a b -> well_formed y -> pointwise2 Z.mul a b y -> Forall (layer_range k s is_rescale is_relu) (flat y) ->
  rn (mul_layer p c is_rescale is_relu k (s + 1) (encoded p a) (encoded p b)) = Some (encoded p (after_layer k is_rescale is_relu y)).
Proof.
  intros O Wy P R. unfold mul_layer. rewrite (elementwise_pure mul Z.mul a b y (enc_mul p) O Wy P). exact (rescaled_run y R).
Qed.

(** *** Batch normalisation *)
Definition columns (ch : nat) (rest : list nat) (w : tensor Z) : tensor Z := {| dims := ch :: repeat 1%nat (length rest); flat := flat w |}.
Lemma reshape_ok n ch rest (x w : tensor Z) : dims x = n :: ch :: rest -> dims w = [ch] -> well_formed w ->
  reshape_channel_vector (encoded p w) (encoded p x) = Ret (encoded p (columns ch rest w)).
Proof.
  intros DX DW W. unfold reshape_channel_vector. cbn [encoded dims flat]. rewrite DX, DW. cbn [length Nat.eqb negb].
  unfold well_formed in W. rewrite DW in W. unfold prod in W. cbn [fold_right] in W. rewrite Nat.mul_1_r in W.
  rewrite map_length, W, Nat.eqb_refl. cbn [negb]. unfold from_shape_vec.
  rewrite map_length. unfold prod. cbn [fold_right]. fold (prod (repeat 1%nat (length rest))). rewrite prod_ones, Nat.mul_1_r, W, Nat.eqb_refl. reflexivity.
Qed.
End R.

(** *** Division *)
Lemma validate_ok l : (forall d, In d l -> 1 <= d < 2 ^ 32) -> validate_divisors l = Ret tt.
Proof.
  intros H. unfold validate_divisors. replace (forallb _ l) with true; [reflexivity|]. symmetry. apply forallb_forall. intros d I.
  specialize (H d I). apply andb_true_iff. split; apply Z.leb_le; lia.
Qed.
Lemma is_pow2_true d : is_pow2 d = true -> 0 < d /\ d = pow2 (Z.to_nat (Z.log2 d)) /\ remainder_bits d = Z.to_nat (Z.log2 d).
Proof.
  unfold is_pow2. intros H. apply andb_true_iff in H as (H1 & H2). apply Z.ltb_lt in H1. apply Z.eqb_eq in H2.
  pose proof (Z.log2_nonneg d). split; [auto|]. split; [unfold pow2, zn; now rewrite Z2Nat.id|].
  unfold remainder_bits. rewrite H2 at 1. now rewrite Z.log2_up_pow2.
Qed.
Lemma remainder_bits_length d : 2 < d -> bit_length (d - 1) = remainder_bits d.
Proof.
  intros H. unfold bit_length, remainder_bits. rewrite (proj2 (Z.eqb_neq _ _)) by lia.
  rewrite Z.log2_up_eqn by lia. now rewrite <- Z.add_1_r, Z.sub_1_r.
Qed.
Lemma not_pow2_big d : 1 < d -> is_pow2 d = false -> 2 < d.
Proof. intros H E. assert (d <> 2); [|lia]. intros ->. discriminate. Qed.
Lemma divide_ok d x : width_ok c (s + 1) -> 1 < d -> width_ok c (remainder_bits d) ->
  d * 2 ^ Z.of_nat (rounded c (s + 1)) + 2 * 2 ^ Z.of_nat (rounded c (remainder_bits d)) <= p -> - (d * 2 ^ Z.of_nat s) <= x < d * 2 ^ Z.of_nat s ->
  rn (divide p c x d s) = Some (enc p (x / d)) /\
  ((remainder_bits d mod c = 0)%nat -> forall w, acc (divide p c x d s) w <-> w = enc p (x / d)).
Proof.
  intros Ws Hd Wr Big R. destruct (is_pow2 d) eqn:E.
  - apply is_pow2_true in E as (_ & E & B). rewrite B in *. set (n := Z.to_nat (Z.log2 d)) in *. pose proof (pow2_pos (rounded c n)).
    change (2 ^ Z.of_nat (rounded c n)) with (pow2 (rounded c n)) in Big. rewrite E in *. split.
    + apply division_pow2_run; auto. unfold pow2, zn in *. lia.
    + intros M w. apply division_pow2_unique; auto. unfold pow2, zn in *. lia.
  - pose proof (not_pow2_big d Hd E) as H2. rewrite <- remainder_bits_length in * by auto. split.
    + apply (div_const_run p Hp c Hc F d s H2 E Wr Ws Big x R).
    + intros M w. apply (div_const_exact p Hp c Hc F d s H2 E Wr Ws Big x w M R).
Qed.
Definition quotient (u d : Z) : prog Z :=
  if d =? 1 then Ret (enc p u) else div_const p c (enc p u) (const p d) d (const p (pow2 s * d)) s (const p (pow2 s)).
Lemma quotient_ok u d : width_ok c (s + 1) -> division_fits p (rounded c) s u d -> d = 1 \/ width_ok c (remainder_bits d) ->
  rn (quotient u d) = Some (enc p (u / d)) /\
  (d = 1 \/ (remainder_bits d mod c = 0)%nat -> forall w, acc (quotient u d) w <-> w = enc p (u / d)).
Proof.
  intros Ws (D & Q) Wr. unfold quotient. destruct (Z.eqb_spec d 1) as [->|N].
  - rewrite Z.div_1_r. split; [reflexivity|]. intros _ w. cbn [accepts]. split; congruence.
  - destruct Q as [Q|(Q1 & Q2)]; [lia|]. destruct Wr as [Wr|Wr]; [lia|]. destruct (divide_ok d u Ws ltac:(lia) Wr Q1 Q2) as (A & B).
    unfold divide in A, B. rewrite (Z.mul_comm (pow2 s) d). split; [exact A|]. intros [M|M] w; [lia|]. now apply B.
Qed.
Lemma div_unfold k a b y : (k < 32)%nat -> operands a b -> well_formed y -> pointwise2 Z.div a b y ->
  (forall u d, In u (flat a) -> In d (flat b) -> 1 <= d < 2 ^ 32) ->
  exists l, (forall u d, In (u, d) l -> In u (flat a) /\ In d (flat b)) /\ flat y = map (fun ud => fst ud / snd ud) l /\
    div_layer p c k (s + 1) (encoded p a) (Some b) =
    bind (mapM (fun ud => quotient (fst ud) (snd ud)) l) (fun result => lift (from_shape_vec (dims y) result)).
Proof.
  intros Hk O Wy P D. destruct (broadcast_pairs _ a b y O Wy P) as (ya & yb & _ & E1 & Ea & Eb & Da & Db & La & Lb & I & V).
  exists (combine (flat ya) (flat yb)). split; [auto|]. split; [auto|].
  unfold div_layer. cbn [lift bind encoded dims]. rewrite E1. cbn [lift bind]. fold (encoded p a). rewrite broadcast_encoded, Ea, Eb.
  cbn [option_map lift bind encoded flat]. rewrite validate_ok.
  - cbn [bind]. rewrite (proj2 (Nat.eqb_neq (s + 1) 0)) by lia. replace (s + 1 - 1)%nat with s by lia. unfold rescaling_context.
    rewrite (proj2 (Nat.leb_gt 32 k)), (proj2 (Nat.leb_gt 64 s)) by lia. cbn [bind]. f_equal.
    clear. generalize (flat yb) as m. induction (flat ya) as [|u l IH]; intros [|d m]; cbn [map combine mapM]; auto.
    rewrite IH. reflexivity.
  - intros d J. assert (exists u, In (u, d) (combine (flat ya) (flat yb))) as (u & J2).
    { clear - J La Lb. rewrite <- Lb in La. clear Lb. revert J La. generalize (flat yb) as m. induction (flat ya) as [|u l IH]; intros [|e m] J L; try discriminate; [contradiction|].
      destruct J as [->|J]; [exists u; now left|]. destruct (IH m J) as (u' & J'); [cbn in L; lia|]. exists u'. now right. }
    destruct (I u d J2). eauto.
Qed.
Lemma div_exact k a b y out : (k < 32)%nat -> width_ok c (s + 1) -> operands a b -> well_formed y -> pointwise2 Z.div a b y ->
  (forall x d, In x (flat a) -> In d (flat b) -> division_fits p (rounded c) s x d) ->
  (forall d, In d (flat b) -> d = 1 \/ width_ok c (remainder_bits d) /\ (remainder_bits d mod c = 0)%nat) ->
  acc (div_layer p c k (s + 1) (encoded p a) (Some b)) out <-> out = encoded p y.
Proof.
  intros Hk Ws O Wy P D M. destruct (div_unfold k a b y Hk O Wy P) as (l & I & V & E).
  { intros u d H1 H2. apply (D u d); auto. }
  rewrite E, accepts_bind.
  assert (K : forall o, acc (mapM (fun ud => quotient (fst ud) (snd ud)) l) o <-> o = map (enc p) (flat y)).
  { intros o. rewrite V, map_map. apply accepts_mapM_map. intros (u, d) J w. destruct (I u d J) as (J1 & J2). cbn [fst snd].
    apply quotient_ok; auto. { destruct (M d J2) as [|(? & _)]; auto. } { destruct (M d J2) as [|(_ & ?)]; auto. } }
  split.
  - intros (o & A1 & A2). apply K in A1. subst o. rewrite from_shape_ok in A2 by (auto; apply map_length). cbn [lift accepts] in A2. symmetry. exact A2 || exact (eq_sym A2).
  - intros ->. exists (map (enc p) (flat y)). split; [now apply K|]. rewrite from_shape_ok by (auto; apply map_length). reflexivity.
Qed.
Lemma div_run k a b y : (k < 32)%nat -> width_ok c (s + 1) -> operands a b -> well_formed y -> pointwise2 Z.div a b y ->
  (forall x d, In x (flat a) -> In d (flat b) -> division_fits p (rounded c) s x d) ->
  (forall d, In d (flat b) -> d = 1 \/ width_ok c (remainder_bits d)) ->
  rn (div_layer p c k (s + 1) (encoded p a) (Some b)) = Some (encoded p y).
Proof.
  intros Hk Ws O Wy P D M. destruct (div_unfold k a b y Hk O Wy P) as (l & I & V & E).
  { intros u d H1 H2. apply (D u d); auto. }
  rewrite E, run_bind, (run_mapM _ _ _ _ _ (fun ud => enc p (fst ud / snd ud))).
  - replace (map _ l) with (map (enc p) (flat y)) by (rewrite V; apply map_map). rewrite from_shape_ok by (auto; apply map_length). reflexivity.
  - intros (u, d) J. destruct (I u d J) as (J1 & J2). cbn [fst snd]. apply quotient_ok; auto.
Qed.
End C.

(** *** Negation *)
Lemma neg_ok p x y : well_formed x -> well_formed y -> pointwise Z.opp x y -> neg_layer p (encoded p x) = Ret (encoded p y).
Proof.
  intros Wx Wy (D & H). unfold neg_layer. cbn [encoded dims flat]. rewrite map_map.
  rewrite (from_shape_ok x) by (auto; apply map_length). cbn [lift]. f_equal. unfold encoded. rewrite D. f_equal.
  assert (flat y = map Z.opp (flat x)) as ->.
  { apply Array.nth_error_ext'. intros i. rewrite nth_error_map. unfold well_formed in *. destruct (Nat.lt_ge_cases i (length (flat y))) as [Hi|Hi].
    - rewrite Wy in Hi. destruct (unravel_ok i (dims y) Hi) as (c & _ & R & <-). specialize (H c R). rewrite !elem_in in H by (congruence || auto; now rewrite <- D).
      rewrite H, D. reflexivity.
    - rewrite !(proj2 (nth_error_None _ _)); [reflexivity|rewrite Wx, <- D, <- Wy; auto|auto]. }
  rewrite map_map. apply map_ext. intros v. change (const p 0) with (enc p 0). rewrite enc_sub. reflexivity.
Qed.

(** *** Batch normalisation: the vectors repeat along the other axes *)
Lemma rev_repeat {A} (x : A) n : rev (repeat x n) = repeat x n.
Proof. induction n as [|n IH]; [reflexivity|]. cbn [repeat rev]. rewrite IH. symmetry. apply (repeat_cons n x). Qed.
Lemma column_broadcasts n ch rest : broadcasts_to (n :: ch :: rest) (ch :: repeat 1%nat (length rest)) (n :: ch :: rest).
Proof.
  split; [cbn [length]; rewrite repeat_length; lia|]. intros i Hi. unfold dims_agree, dim_from_right. cbn [rev]. rewrite rev_repeat.
  destruct (Nat.lt_ge_cases i (length rest)) as [L|G].
  - right. right. split; [|reflexivity]. rewrite app_nth1 by (now rewrite repeat_length). apply nth_repeat.
  - destruct (Nat.eq_dec i (length rest)) as [->|N].
    + left. rewrite (app_nth2 (repeat 1%nat (length rest))) by (rewrite repeat_length; lia). rewrite repeat_length, Nat.sub_diag. split; [|reflexivity]. cbn [nth].
      rewrite app_nth1 by (rewrite app_length, rev_length; cbn; lia). rewrite app_nth2 by (rewrite rev_length; lia). now rewrite rev_length, Nat.sub_diag.
    + right. right. split; [|reflexivity]. apply nth_overflow. rewrite app_length, repeat_length. cbn. lia.
Qed.
Lemma read_same c d : Shapes.in_range c d -> read_coords c d = c.
Proof.
  intros R. assert (L : length c = length d) by (exact (in_range_length _ _ R)). unfold read_coords. rewrite L, Nat.sub_diag. cbn [skipn].
  induction R as [|a b c d H R IH]; [reflexivity|]. cbn [combine map fst snd]. rewrite IH by (cbn in L; lia).
  destruct (Nat.eqb_spec b 1); [|reflexivity]. f_equal. lia.
Qed.
Lemma read_ones_zero cs : map (fun s => if (snd s =? 1)%nat then 0%nat else fst s) (combine cs (repeat 1%nat (length cs))) = repeat 0%nat (length cs).
Proof. induction cs as [|x cs IH]; [reflexivity|]. cbn [length repeat combine map snd Nat.eqb]. now rewrite IH. Qed.
Lemma zeros_offset k a : fold_left (fun acc (cs : nat * nat) => (acc * snd cs + fst cs)%nat) (combine (repeat 0%nat k) (repeat 1%nat k)) a = a.
Proof. revert a. induction k as [|k IH]; intros a; [reflexivity|]. cbn [repeat combine fold_left fst snd]. rewrite IH. lia. Qed.
Lemma column_elem ch rest (w : tensor Z) i c cs : dims w = [ch] -> (c < ch)%nat -> length cs = length rest ->
  elem (columns ch rest w) (read_coords (i :: c :: cs) (dims (columns ch rest w))) = elem w [c].
Proof.
  intros D Hc L. assert (R : read_coords (i :: c :: cs) (dims (columns ch rest w)) = c :: repeat 0%nat (length rest)).
  { unfold read_coords. cbn [columns dims length]. rewrite repeat_length. replace (S (S (length cs)) - S (length rest))%nat with 1%nat by lia.
    cbn [skipn combine map fst snd]. rewrite <- L, read_ones_zero. f_equal. destruct (Nat.eqb_spec ch 1); [lia|reflexivity]. }
  rewrite R, !elem_in.
  - cbn [columns dims flat]. rewrite D. f_equal. unfold row_major. cbn [combine fold_left fst snd]. rewrite zeros_offset. lia.
  - rewrite D. repeat constructor. exact Hc.
  - cbn [columns dims]. constructor; [exact Hc|]. apply zeros_in_ones.
Qed.
Lemma batchnorm_steps x w b y : well_formed x -> well_formed w -> well_formed b -> well_formed y -> Forall (lt 0%nat) (dims x) -> normalised x w b y ->
  exists n ch rest t, dims x = n :: ch :: rest /\ dims w = [ch] /\ dims b = [ch] /\
    operands x (columns ch rest w) /\ well_formed t /\ pointwise2 Z.mul x (columns ch rest w) t /\
    operands t (columns ch rest b) /\ pointwise2 Z.add t (columns ch rest b) y.
Proof.
  intros Wx Ww Wb Wy Px (n & ch & rest & DX & DW & DB & DY & H). exists n, ch, rest.
  assert (Pc : Forall (lt 0%nat) (ch :: repeat 1%nat (length rest))).
  { rewrite DX in Px. inversion Px as [|? ? _ Q]; subst. inversion Q; subst. constructor; [auto|]. apply Forall_forall. intros d I. apply repeat_spec in I. lia. }
  assert (WC : forall v, well_formed v -> dims v = [ch] -> well_formed (columns ch rest v)).
  { intros v Wv Dv. unfold well_formed in *. rewrite Dv in Wv. cbn [columns dims flat]. rewrite Wv. unfold prod. cbn [fold_right].
    fold (prod (repeat 1%nat (length rest))). now rewrite prod_ones. }
  assert (Ox : operands x (columns ch rest w)) by (split; [auto|]; split; [now apply WC|]; split; auto).
  destruct (pointwise2_exists Z.mul x (columns ch rest w) (dims x) Ox) as (t & Dt & Wt & Pt).
  { rewrite DX. apply column_broadcasts. }
  exists t. do 4 (split; [assumption|]). split; [auto|]. split; [auto|]. split.
  { split; [auto|]. split; [now apply WC|]. split; [now rewrite Dt|exact Pc]. }
  split. { rewrite Dt, DY, DX. apply column_broadcasts. }
  rewrite DY. intros q R. rewrite Dt, (read_same q (dims x) R). pose proof R as R0. rewrite DX in R0.
  destruct q as [|i [|c cs]]; [inversion R0|inversion R0 as [|? ? ? ? ? Q]; inversion Q|].
  inversion R0 as [|? ? ? ? Hi Q]; subst. inversion Q as [|? ? ? ? Hc Q2]; subst. pose proof (in_range_length _ _ Q2) as L.
  destruct (H i c cs R) as (v & f & g & Ev & Ef & Eg & Ey). exists (v * f), g. rewrite column_elem by auto.
  split; [|split; [exact Eg|exact Ey]]. destruct Pt as (_ & Pt). rewrite Dt in Pt. destruct (Pt _ R) as (v' & f' & Ev' & Ef' & Et).
  rewrite read_same in Ev' by exact R. rewrite column_elem in Ef' by auto. rewrite Ev in Ev'. rewrite Ef in Ef'. injection Ev' as <-. injection Ef' as <-. exact Et.
Qed.
Lemma batchnorm_unfold p c k is_rescale is_relu n_bits x w b y : well_formed x -> well_formed w -> well_formed b -> well_formed y ->
  Forall (lt 0%nat) (dims x) -> normalised x w b y ->
  batchnorm_layer p c is_rescale is_relu k n_bits (encoded p x) (encoded p w) (encoded p b) =
  bind (maybe_rescale p c (map (enc p) (flat y)) is_rescale is_relu k n_bits) (fun out => Ret {| dims := dims y; flat := out |}).
Proof.
  intros Wx Ww Wb Wy Px H. destruct (batchnorm_steps x w b y Wx Ww Wb Wy Px H) as (n & ch & rest & t & DX & DW & DB & O1 & Wt & P1 & O2 & P2).
  unfold batchnorm_layer. rewrite (reshape_ok p n ch rest x w DX DW Ww), (reshape_ok p n ch rest x b DX DB Wb). cbn [bind].
  rewrite (elementwise_pure p mul Z.mul x _ t (enc_mul p) O1 Wt P1). cbn [bind].
  rewrite (elementwise_pure p add Z.add t _ y (enc_add p) O2 Wy P2). reflexivity.
Qed.
Lemma normalised_exists x w b n ch rest : well_formed x -> well_formed w -> well_formed b -> Forall (lt 0%nat) (dims x) ->
  dims x = n :: ch :: rest -> dims w = [ch] -> dims b = [ch] -> exists y, well_formed y /\ normalised x w b y.
Proof.
  intros Wx Ww Wb Px DX DW DB.
  assert (K : forall i c cs, Shapes.in_range (i :: c :: cs) (dims x) -> exists v f g, elem x (i :: c :: cs) = Some v /\ elem w [c] = Some f /\ elem b [c] = Some g).
  { intros i c cs R. destruct (elem_exists x _ Wx R) as (v & Ev). rewrite DX in R. inversion R as [|? ? ? ? _ Q]; subst. inversion Q; subst.
    destruct (elem_exists w [c] Ww) as (f & Ef); [rewrite DW; now repeat constructor|].
    destruct (elem_exists b [c] Wb) as (g & Eg); [rewrite DB; now repeat constructor|]. eauto 6. }
  set (h := fun q => match q with i :: c :: cs => match elem x q, elem w [c], elem b [c] with Some v, Some f, Some g => Some (v * f + g) | _, _, _ => None end | _ => None end).
  destruct (tabulate_ok (fun k => match unravel k (dims x) with Some q => h q | None => None end) (dims x) h) as (m & Em & Lm & Vm).
  { intros q R. rewrite unravel_row_major by auto. split; [reflexivity|]. pose proof R as R0. rewrite DX in R0.
    destruct q as [|i [|c cs]]; [inversion R0|inversion R0 as [|? ? ? ? ? Q]; inversion Q|]. destruct (K i c cs R) as (v & f & g & E1 & E2 & E3).
    unfold h. rewrite E1, E2, E3. discriminate. }
  exists {| dims := dims x; flat := m |}. split; [exact Lm|]. exists n, ch, rest. do 3 (split; [assumption|]). split; [reflexivity|].
  intros i c cs R. destruct (K i c cs R) as (v & f & g & E1 & E2 & E3). exists v, f, g. do 3 (split; [assumption|]).
  rewrite Vm by auto. unfold h. now rewrite E1, E2, E3.
Qed.
Lemma batchnorm_exact p c F k s is_rescale is_relu x w b y out :
  prime p -> (0 < c)%nat -> (k < 32)%nat -> (s < 64)%nat -> width_ok c k -> width_ok c (s + 1) ->
  2 * (2 ^ Z.of_nat k * 2 ^ Z.of_nat (rounded c (s + 1)) + 2 ^ Z.of_nat (rounded c k)) <= p -> (k mod c = 0)%nat -> ((s + 1) mod c = 0)%nat ->
  well_formed x -> well_formed w -> well_formed b -> well_formed y -> Forall (lt 0%nat) (dims x) -> normalised x w b y ->
  Forall (layer_range k s is_rescale is_relu) (flat y) ->
  accepts p (table_rows c F) (batchnorm_layer p c is_rescale is_relu k (s + 1) (encoded p x) (encoded p w) (encoded p b)) out <->
  out = encoded p (after_layer k is_rescale is_relu y).
Proof. intros. rewrite (batchnorm_unfold p c k is_rescale is_relu (s + 1) x w b y) by auto. apply rescaled_exact; auto. Qed.
Lemma batchnorm_run p c F k s is_rescale is_relu x w b y :
  prime p -> (0 < c)%nat -> (k < 32)%nat -> (s < 64)%nat -> width_ok c k -> width_ok c (s + 1) ->
  2 * (2 ^ Z.of_nat k * 2 ^ Z.of_nat (rounded c (s + 1)) + 2 ^ Z.of_nat (rounded c k)) <= p ->
  well_formed x -> well_formed w -> well_formed b -> well_formed y -> Forall (lt 0%nat) (dims x) -> normalised x w b y ->
  Forall (layer_range k s is_rescale is_relu) (flat y) ->
  run honest_hint (table_rowsb c F) (batchnorm_layer p c is_rescale is_relu k (s + 1) (encoded p x) (encoded p w) (encoded p b)) =
  Some (encoded p (after_layer k is_rescale is_relu y)).
Proof. intros. rewrite (batchnorm_unfold p c k is_rescale is_relu (s + 1) x w b y) by auto. apply rescaled_run; auto. Qed.
