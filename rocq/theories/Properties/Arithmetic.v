(** C06-C11: constant division, max, min, ReLU, clip, rescaling. *)
From Coq Require Import ZArith List Bool Znumtheory Lia.
From Verif Require Import Base.Pocklington Spec.Numbers Model.Builder Model.Gadgets
  Proofs.RangeCheck Proofs.Gadgets Proofs.Division Proofs.Rescale Proofs.RescaleArray Proofs.ArithmeticProps.
(* [divide p c x d s] is the division call made by every layer: dividend [x],
   divisor [d], shift 2^s, product d * 2^s (defined in Proofs/ArithmeticProps.v). *)
Import ListNotations.
Local Open Scope Z_scope.


(** C06.  Exact widths (the chunk size divides the remainder width): the only
    accepted quotient is floor(x/d).  Divisors that are not powers of two. *)
Theorem C06_division_unique p c F d s x y :
  prime p -> (0 < c)%nat -> 2 < d -> is_pow2 d = false ->
  width_ok c (bit_length (d - 1)) -> width_ok c (s + 1) ->
  d * 2 ^ Z.of_nat (rounded c (s + 1)) + 2 * 2 ^ Z.of_nat (rounded c (bit_length (d - 1))) <= p ->
  (bit_length (d - 1) mod c = 0)%nat ->
  - (d * 2 ^ Z.of_nat s) <= x < d * 2 ^ Z.of_nat s ->
  accepts p (table_rows c F) (divide p c x d s) y <-> y = enc p (x / d).
Proof.
  exact (fun Hp Hc H3 Hnp Hwk Hws Hbig Hk Hx => div_const_exact p Hp c Hc F d s H3 Hnp Hwk Hws Hbig x y Hk Hx).
Qed.
Print Assumptions C06_division_unique.

(** Powers of two. *)
Theorem C06_division_pow2_unique p c F k s x y :
  prime p -> (0 < c)%nat -> width_ok c k -> width_ok c (s + 1) ->
  2 ^ Z.of_nat k * 2 ^ Z.of_nat (rounded c (s + 1)) + 2 ^ Z.of_nat (rounded c k) <= p ->
  (k mod c = 0)%nat ->
  - (2 ^ Z.of_nat k * 2 ^ Z.of_nat s) <= x < 2 ^ Z.of_nat k * 2 ^ Z.of_nat s ->
  accepts p (table_rows c F) (divide p c x (2 ^ Z.of_nat k) s) y <-> y = enc p (x / 2 ^ Z.of_nat k).
Proof. exact (division_pow2_unique p c F k s x y). Qed.
Print Assumptions C06_division_pow2_unique.

(** Dividing by one returns the dividend unchanged. *)
Theorem C06_division_by_one p c F s x y :
  accepts p (table_rows c F) (divide p c x 1 s) y <-> y = enc p x.
Proof. split; intros H; [symmetry; exact H | subst; exact eq_refl]. Qed.
Print Assumptions C06_division_by_one.

Example C06_applies : is_pow2 4095 = false /\ bit_length (4095 - 1) = 12%nat /\
  4095 * 2 ^ Z.of_nat (rounded 12 (35 + 1)) + 2 * 2 ^ Z.of_nat (rounded 12 12) <= goldilocks_p /\
  2 ^ Z.of_nat 12 * 2 ^ Z.of_nat (rounded 12 (35 + 1)) + 2 ^ Z.of_nat (rounded 12 12) <= goldilocks_p /\
  -7 / 4095 = -1 /\ -7 / 2 ^ Z.of_nat 12 = -1.
Proof. repeat split; vm_compute; congruence. Qed.

(** C06 is false at the parameters actually used, where the remainder width is
    not a multiple of the chunk size.  BN254, chunk 12, scale 2^18, shift 2^63:
    dividing 0 by 2^18 accepts 63 as well as 0. *)
Theorem C06_default_parameters_refuted :
  accepts bn254_r (table_rows 12 (fun _ => [])) (divide bn254_r 12 0 (2 ^ Z.of_nat 18) 63) (enc bn254_r 0) /\
  accepts bn254_r (table_rows 12 (fun _ => [])) (divide bn254_r 12 0 (2 ^ Z.of_nat 18) 63) (enc bn254_r 63).
Proof. exact (conj (pow2_default 0 ltac:(lia)) (pow2_default 63 ltac:(lia))). Qed.
Print Assumptions C06_default_parameters_refuted.

(** For all widths: exactly the quotients floor(x / 2^k) + j with
    0 <= j < 2^(k' - k) are accepted, k' being k rounded up to a multiple of c. *)
Theorem C06_division_pow2_values_partial p c F k s x y :
  prime p -> (0 < c)%nat -> width_ok c k -> width_ok c (s + 1) ->
  2 ^ Z.of_nat k * 2 ^ Z.of_nat (rounded c (s + 1)) + 2 ^ Z.of_nat (rounded c k) <= p ->
  - (2 ^ Z.of_nat k * 2 ^ Z.of_nat s) <= x < 2 ^ Z.of_nat k * 2 ^ Z.of_nat s ->
  accepts p (table_rows c F) (divide p c x (2 ^ Z.of_nat k) s) y <->
  exists j, 0 <= j < 2 ^ Z.of_nat (rounded c k - k) /\
            x / 2 ^ Z.of_nat k + j < 2 ^ Z.of_nat s /\ y = enc p (x / 2 ^ Z.of_nat k + j).
Proof. exact (division_pow2_values p c F k s x y). Qed.
Print Assumptions C06_division_pow2_values_partial.

(** For the other divisors the accepted quotient is off by at most one. *)
Theorem C06_division_off_by_one_partial p c F d s x y :
  prime p -> (0 < c)%nat -> 2 < d -> is_pow2 d = false ->
  width_ok c (bit_length (d - 1)) -> width_ok c (s + 1) ->
  d * 2 ^ Z.of_nat (rounded c (s + 1)) + 2 * 2 ^ Z.of_nat (rounded c (bit_length (d - 1))) <= p ->
  - (d * 2 ^ Z.of_nat s) <= x < d * 2 ^ Z.of_nat s ->
  accepts p (table_rows c F) (divide p c x d s) y ->
  exists j, -1 <= j <= 1 /\ y = enc p (x / d + j).
Proof.
  exact (fun Hp Hc H3 Hnp Hwk Hws Hbig Hx =>
    div_const_off_by_one p Hp c Hc F d s H3 Hnp Hwk Hws Hbig x y Hx).
Qed.
Print Assumptions C06_division_off_by_one_partial.

(** C07.  The honest hints satisfy the division gadget, all widths and divisors. *)
Theorem C07_division_complete p c F d s x :
  prime p -> (0 < c)%nat -> 2 < d -> is_pow2 d = false ->
  width_ok c (bit_length (d - 1)) -> width_ok c (s + 1) ->
  d * 2 ^ Z.of_nat (rounded c (s + 1)) + 2 * 2 ^ Z.of_nat (rounded c (bit_length (d - 1))) <= p ->
  - (d * 2 ^ Z.of_nat s) <= x < d * 2 ^ Z.of_nat s ->
  run honest_hint (table_rowsb c F) (divide p c x d s) = Some (enc p (x / d)).
Proof.
  exact (fun Hp Hc H3 Hnp Hwk Hws Hbig Hx => div_const_run p Hp c Hc F d s H3 Hnp Hwk Hws Hbig x Hx).
Qed.
Print Assumptions C07_division_complete.

Theorem C07_division_pow2_complete p c F k s x :
  prime p -> (0 < c)%nat -> width_ok c k -> width_ok c (s + 1) ->
  2 ^ Z.of_nat k * 2 ^ Z.of_nat (rounded c (s + 1)) + 2 ^ Z.of_nat (rounded c k) <= p ->
  - (2 ^ Z.of_nat k * 2 ^ Z.of_nat s) <= x < 2 ^ Z.of_nat k * 2 ^ Z.of_nat s ->
  run honest_hint (table_rowsb c F) (divide p c x (2 ^ Z.of_nat k) s) = Some (enc p (x / 2 ^ Z.of_nat k)).
Proof. exact (division_pow2_run p c F k s x). Qed.
Print Assumptions C07_division_pow2_complete.

Example C07_applies : width_ok 12 18 /\ width_ok 12 (63 + 1) /\ width_ok 12 (bit_length (9 - 1)) /\
  9 * 2 ^ Z.of_nat (rounded 12 (63 + 1)) + 2 * 2 ^ Z.of_nat (rounded 12 (bit_length (9 - 1))) <= bn254_r /\
  2 ^ Z.of_nat 18 * 2 ^ Z.of_nat (rounded 12 (63 + 1)) + 2 ^ Z.of_nat (rounded 12 18) <= bn254_r.
Proof.
  split; [split; [lia|discriminate]|]. split; [split; [lia|discriminate]|].
  split; [split; [cbn; lia|discriminate]|]. split; vm_compute; congruence.
Qed.

(** C08.  The only accepted output of the max gadget is the maximum. *)
Theorem C08_max_exact p c F s off vs y :
  prime p -> (0 < c)%nat -> width_ok c (s + 1) -> ((s + 1) mod c = 0)%nat ->
  2 * 2 ^ Z.of_nat (s + 1) <= p -> vs <> [] -> Forall (signed_fits s) vs ->
  accepts p (table_rows c F) (constrained_max p c s off (map (enc p) vs)) y <->
  exists m, is_max vs m /\ y = enc p m.
Proof. exact (fun Hp Hc Hw Hd Hsz => max_exact p Hp c Hc F s Hw Hd Hsz off vs y). Qed.
Print Assumptions C08_max_exact.

Theorem C08_max_complete p c F s vs :
  prime p -> (0 < c)%nat -> width_ok c (s + 1) ->
  2 ^ Z.of_nat (rounded c (s + 1)) <= p -> 2 * 2 ^ Z.of_nat (s + 1) <= p ->
  vs <> [] -> Forall (signed_fits s) vs ->
  exists m, is_max vs m /\
    run honest_hint (table_rowsb c F) (constrained_max p c s (const p (2 ^ Z.of_nat s)) (map (enc p) vs))
      = Some (enc p m).
Proof. exact (fun Hp Hc Hw Hr Hsz => max_run p Hp c Hc F s Hw Hr Hsz vs). Qed.
Print Assumptions C08_max_complete.

Example C08_applies : width_ok 12 (35 + 1) /\ ((35 + 1) mod 12 = 0)%nat /\
  2 * 2 ^ Z.of_nat (35 + 1) <= goldilocks_p /\ Forall (signed_fits 35) [3; -5; 2 ^ 35 - 1] /\
  is_max [3; -5; 2 ^ 35 - 1] (2 ^ 35 - 1).
Proof.
  split; [split; [lia|discriminate]|]. split; [reflexivity|]. split; [vm_compute; congruence|].
  split; [repeat constructor; unfold signed_fits; lia|].
  split; [cbn; tauto|]. cbn. intros x [<-|[<-|[<-|[]]]]; lia.
Qed.

(** C08 is false at the default width 64 (chunk 12): max(5, 3) = 3 is accepted. *)
Theorem C08_default_parameters_refuted :
  accepts bn254_r (table_rows 12 (fun _ => []))
    (constrained_max bn254_r 12 63 (const bn254_r (2 ^ 63)) (map (enc bn254_r) [5; 3])) (enc bn254_r 3).
Proof. exact max_default. Qed.
Print Assumptions C08_default_parameters_refuted.

(** C09.  The same for the minimum. *)
Theorem C09_min_exact p c F s off vs y :
  prime p -> (0 < c)%nat -> width_ok c (s + 1) -> ((s + 1) mod c = 0)%nat ->
  2 * 2 ^ Z.of_nat (s + 1) <= p -> vs <> [] -> Forall (signed_fits s) vs ->
  accepts p (table_rows c F) (constrained_min p c s off (map (enc p) vs)) y <->
  exists m, is_min vs m /\ y = enc p m.
Proof. exact (fun Hp Hc Hw Hd Hsz => min_exact p Hp c Hc F s Hw Hd Hsz off vs y). Qed.
Print Assumptions C09_min_exact.

Theorem C09_min_complete p c F s vs :
  prime p -> (0 < c)%nat -> width_ok c (s + 1) ->
  2 ^ Z.of_nat (rounded c (s + 1)) <= p -> 2 * 2 ^ Z.of_nat (s + 1) <= p ->
  vs <> [] -> Forall (signed_fits s) vs ->
  exists m, is_min vs m /\
    run honest_hint (table_rowsb c F) (constrained_min p c s (const p (2 ^ Z.of_nat s)) (map (enc p) vs))
      = Some (enc p m).
Proof. exact (fun Hp Hc Hw Hr Hsz => min_run p Hp c Hc F s Hw Hr Hsz vs). Qed.
Print Assumptions C09_min_complete.

Example C09_applies : Forall (signed_fits 35) [3; -5; 2 ^ 35 - 1] /\ is_min [3; -5; 2 ^ 35 - 1] (-5).
Proof.
  split; [repeat constructor; unfold signed_fits; lia|].
  split; [cbn; tauto|]. cbn. intros x [<-|[<-|[<-|[]]]]; lia.
Qed.

Theorem C09_default_parameters_refuted :
  accepts bn254_r (table_rows 12 (fun _ => []))
    (constrained_min bn254_r 12 63 (const bn254_r (2 ^ 63)) (map (enc bn254_r) [5; 3])) (enc bn254_r 5).
Proof. exact min_default. Qed.
Print Assumptions C09_default_parameters_refuted.

(** C10.  ReLU and clip. *)
Theorem C10_relu_exact p c F s off x y :
  prime p -> (0 < c)%nat -> width_ok c (s + 1) -> ((s + 1) mod c = 0)%nat ->
  2 * 2 ^ Z.of_nat (s + 1) <= p -> - 2 ^ Z.of_nat (s + 1) < x < 2 ^ Z.of_nat (s + 1) ->
  accepts p (table_rows c F) (constrained_relu p c s off (enc p x)) y <-> y = enc p (Z.max 0 x).
Proof. exact (relu_exact_max p c F s off x y). Qed.
Print Assumptions C10_relu_exact.

Theorem C10_clip_exact p c F s off x lo hi y :
  prime p -> (0 < c)%nat -> width_ok c (s + 1) -> ((s + 1) mod c = 0)%nat ->
  2 * 2 ^ Z.of_nat (s + 1) <= p -> signed_fits s x ->
  (forall a, lo = Some a -> signed_fits s a) -> (forall b, hi = Some b -> signed_fits s b) ->
  accepts p (table_rows c F)
    (constrained_clip p c s off (enc p x) (option_map (enc p) lo) (option_map (enc p) hi)) y <->
  y = enc p (clip lo hi x).
Proof. exact (fun Hp Hc Hw Hd Hsz => clip_exact p Hp c Hc F s Hw Hd Hsz off x lo hi y). Qed.
Print Assumptions C10_clip_exact.

Theorem C10_relu_complete p c F s x :
  prime p -> (0 < c)%nat -> width_ok c (s + 1) ->
  2 ^ Z.of_nat (rounded c (s + 1)) <= p -> 2 * 2 ^ Z.of_nat (s + 1) <= p -> signed_fits s x ->
  run honest_hint (table_rowsb c F) (constrained_relu p c s (const p (2 ^ Z.of_nat s)) (enc p x))
    = Some (enc p (relu x)).
Proof. exact (fun Hp Hc Hw Hr Hsz => relu_run p Hp c Hc F s Hw Hr Hsz x). Qed.
Print Assumptions C10_relu_complete.

Theorem C10_clip_complete p c F s x lo hi :
  prime p -> (0 < c)%nat -> width_ok c (s + 1) ->
  2 ^ Z.of_nat (rounded c (s + 1)) <= p -> 2 * 2 ^ Z.of_nat (s + 1) <= p -> signed_fits s x ->
  (forall a, lo = Some a -> signed_fits s a) -> (forall b, hi = Some b -> signed_fits s b) ->
  run honest_hint (table_rowsb c F) (constrained_clip p c s (const p (2 ^ Z.of_nat s)) (enc p x)
        (option_map (enc p) lo) (option_map (enc p) hi)) = Some (enc p (clip lo hi x)).
Proof. exact (fun Hp Hc Hw Hr Hsz => clip_run p Hp c Hc F s Hw Hr Hsz x lo hi). Qed.
Print Assumptions C10_clip_complete.

Example C10_applies : width_ok 12 (35 + 1) /\ 2 ^ Z.of_nat (rounded 12 (35 + 1)) <= goldilocks_p /\
  signed_fits 35 (-7) /\ clip (Some 0) (Some 6) (-7) = 0 /\ clip (Some 0) (Some 6) 9 = 6 /\ Z.max 0 (-7) = 0.
Proof.
  split; [split; [lia|discriminate]|]. split; [vm_compute; congruence|].
  unfold signed_fits. repeat split; lia.
Qed.

(** C10 is false at the default width: ReLU(5) = 0 and ReLU(-5) = -5 are accepted. *)
Theorem C10_default_parameters_refuted :
  accepts bn254_r (table_rows 12 (fun _ => []))
    (constrained_relu bn254_r 12 63 (const bn254_r (2 ^ 63)) (enc bn254_r 5)) 0 /\
  accepts bn254_r (table_rows 12 (fun _ => []))
    (constrained_relu bn254_r 12 63 (const bn254_r (2 ^ 63)) (enc bn254_r (-5))) (enc bn254_r (-5)).
Proof. exact relu_default. Qed.
Print Assumptions C10_default_parameters_refuted.

(** What remains true for every width: an accepted ReLU output is 0 or x. *)
Theorem C10_relu_candidates_partial p c F s off x y : prime p -> (0 < c)%nat ->
  accepts p (table_rows c F) (constrained_relu p c s off (enc p x)) y -> y = 0 \/ y = enc p x.
Proof. exact (fun Hp Hc => relu_candidates p Hp c Hc F s off x y). Qed.
Print Assumptions C10_relu_candidates_partial.

(** C11.  Rescaling, fused with ReLU or not, whole arrays. *)
Theorem C11_rescale_exact p c F k s apply_relu xs ys :
  prime p -> (0 < c)%nat -> (k < 32)%nat -> (s < 64)%nat -> width_ok c k -> width_ok c (s + 1) ->
  2 * (2 ^ Z.of_nat k * 2 ^ Z.of_nat (rounded c (s + 1)) + 2 ^ Z.of_nat (rounded c k)) <= p ->
  (k mod c = 0)%nat -> ((s + 1) mod c = 0)%nat ->
  Forall (fun x => - (2 ^ Z.of_nat k * 2 ^ Z.of_nat s) <= x < 2 ^ Z.of_nat k * 2 ^ Z.of_nat s) xs ->
  accepts p (table_rows c F) (rescale_array p c (map (enc p) xs) k s apply_relu) ys <->
  ys = map (fun x => enc p (if apply_relu then Z.max 0 (x / 2 ^ Z.of_nat k) else x / 2 ^ Z.of_nat k)) xs.
Proof. exact (rescale_array_exact_max p c F k s apply_relu xs ys). Qed.
Print Assumptions C11_rescale_exact.

Theorem C11_rescale_complete p c F k s apply_relu xs :
  prime p -> (0 < c)%nat -> (k < 32)%nat -> (s < 64)%nat -> width_ok c k -> width_ok c (s + 1) ->
  2 * (2 ^ Z.of_nat k * 2 ^ Z.of_nat (rounded c (s + 1)) + 2 ^ Z.of_nat (rounded c k)) <= p ->
  Forall (fun x => - (2 ^ Z.of_nat k * 2 ^ Z.of_nat s) <= x < 2 ^ Z.of_nat k * 2 ^ Z.of_nat s) xs ->
  run honest_hint (table_rowsb c F) (rescale_array p c (map (enc p) xs) k s apply_relu) =
  Some (map (fun x => enc p (if apply_relu then Z.max 0 (x / 2 ^ Z.of_nat k) else x / 2 ^ Z.of_nat k)) xs).
Proof. exact (rescale_array_run_max p c F k s apply_relu xs). Qed.
Print Assumptions C11_rescale_complete.

Example C11_applies : width_ok 12 18 /\ width_ok 12 (63 + 1) /\
  2 * (2 ^ Z.of_nat 18 * 2 ^ Z.of_nat (rounded 12 (63 + 1)) + 2 ^ Z.of_nat (rounded 12 18)) <= bn254_r /\
  width_ok 12 24 /\ width_ok 12 (59 + 1) /\
  2 * (2 ^ Z.of_nat 24 * 2 ^ Z.of_nat (rounded 12 (59 + 1)) + 2 ^ Z.of_nat (rounded 12 24)) <= bn254_r /\
  (24 mod 12 = 0)%nat /\ ((59 + 1) mod 12 = 0)%nat.
Proof. repeat split; try lia; try discriminate; vm_compute; congruence. Qed.

(** The call made by every linear layer, for the four combinations of rescaling
    and ReLU; [n_bits = s + 1]. *)
Theorem C11_layer_output_exact p c F k s is_rescale is_relu xs ys :
  prime p -> (0 < c)%nat -> (k < 32)%nat -> (s < 64)%nat -> width_ok c k -> width_ok c (s + 1) ->
  2 * (2 ^ Z.of_nat k * 2 ^ Z.of_nat (rounded c (s + 1)) + 2 ^ Z.of_nat (rounded c k)) <= p ->
  (k mod c = 0)%nat -> ((s + 1) mod c = 0)%nat ->
  Forall (layer_range k s is_rescale is_relu) xs ->
  accepts p (table_rows c F) (maybe_rescale p c (map (enc p) xs) is_rescale is_relu k (s + 1)) ys <->
  ys = map (fun x => enc p (layer_output k is_rescale is_relu x)) xs.
Proof. exact (maybe_rescale_exact p c F k s is_rescale is_relu xs ys). Qed.
Print Assumptions C11_layer_output_exact.

Theorem C11_layer_output_complete p c F k s is_rescale is_relu xs :
  prime p -> (0 < c)%nat -> (k < 32)%nat -> (s < 64)%nat -> width_ok c k -> width_ok c (s + 1) ->
  2 * (2 ^ Z.of_nat k * 2 ^ Z.of_nat (rounded c (s + 1)) + 2 ^ Z.of_nat (rounded c k)) <= p ->
  Forall (layer_range k s is_rescale is_relu) xs ->
  run honest_hint (table_rowsb c F) (maybe_rescale p c (map (enc p) xs) is_rescale is_relu k (s + 1)) =
  Some (map (fun x => enc p (layer_output k is_rescale is_relu x)) xs).
Proof. exact (maybe_rescale_run p c F k s is_rescale is_relu xs). Qed.
Print Assumptions C11_layer_output_complete.

Theorem C11_zero_bits_rejected p c T xs is_rescale is_relu k ys : is_rescale || is_relu = true ->
  ~ accepts p T (maybe_rescale p c xs is_rescale is_relu k 0) ys.
Proof. exact (maybe_rescale_zero_bits p c xs is_rescale is_relu k T ys). Qed.
Print Assumptions C11_zero_bits_rejected.

Example C11_layer_applies : Forall (layer_range 18 63 true true) [-7; 2 ^ 70; 5] /\
  Forall (layer_range 18 63 false true) [-7; 5] /\
  map (layer_output 2 true true) [-7; 9] = [0; 2] /\ map (layer_output 2 true false) [-7; 9] = [-2; 2] /\
  map (layer_output 2 false true) [-7; 9] = [0; 9].
Proof.
  split; [|split; [|auto]]; repeat (apply Forall_cons); try apply Forall_nil; unfold layer_range, signed_fits;
    split; vm_compute; congruence.
Qed.

(** C11 is false at the default parameters (scale 2^18, shift 2^63, chunk 12). *)
Theorem C11_default_parameters_refuted :
  accepts bn254_r (table_rows 12 (fun _ => [])) (rescale_array bn254_r 12 [enc bn254_r 0] 18 63 false)
    [enc bn254_r 63].
Proof. exact rescale_default. Qed.
Print Assumptions C11_default_parameters_refuted.
