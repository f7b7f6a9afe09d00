(** Specification vocabulary for the GKR protocol: values of the lanes and processes of a layer
    and their multilinear extension, well-formed layered circuits, provers that adapt to the
    verifier's challenges. *)
From Coq Require Import List Bool Arith.
From Verif Require Import Base.Field Spec.Multilinear Model.Layered Model.Gkr.
Import ListNotations.

Section Gkr.
Variable K : field.
Local Open Scope fld_scope.
Variables simd_vars mpi_vars : nat.

(** The values of a layer: process k, SIMD lane l, position x. *)
Definition values := nat -> nat -> nat -> K.
(** Their multilinear extension: rx for the positions, rs for the lanes, rm for the processes. *)
Definition vmle (V : values) (rx rs rm : list K) : K :=
  mle (fun k => mle (fun l => mle (V k l) rx) rs) rm.
(** The lists [inp k l] as values. *)
Definition as_values (inp : nat -> nat -> list K) : values := fun k l x => nth x (inp k l) 0.

(** The public inputs of all processes in one list of SIMD values (process after process):
    those that lane l of process k sees. *)
Definition lane_pub (pub : list (list K)) (k l : nat) : list K :=
  let local := (length pub / 2 ^ mpi_vars)%nat in
  map (fun v => nth l v 0) (firstn local (skipn (k * local) pub)).

(** Every gate reads and writes inside the layer. *)
Definition layer_ok (npub : nat) (l : player K) : Prop :=
  (forall g, In g (pl_mul K l) -> exists a b rest, pg_in K g = a :: b :: rest /\
     (a < 2 ^ pl_ivars K l)%nat /\ (b < 2 ^ pl_ivars K l)%nat /\ (pg_out K g < 2 ^ pl_ovars K l)%nat) /\
  (forall g, In g (pl_add K l) -> exists a rest, pg_in K g = a :: rest /\
     (a < 2 ^ pl_ivars K l)%nat /\ (pg_out K g < 2 ^ pl_ovars K l)%nat) /\
  (forall g, In g (pl_const K l) -> (pg_out K g < 2 ^ pl_ovars K l)%nat /\
     match pg_ctype K g with TPublicInput id => (id < npub)%nat | _ => True end) /\
  pl_uni K l = [].
(** Each layer has as many inputs as the layer before it has outputs. *)
Fixpoint chained (ls : list (player K)) : Prop :=
  match ls with
  | a :: (b :: _) as r => pl_ovars K a = pl_ivars K b /\ chained r
  | _ => True
  end.
Definition circuit_ok (npub : nat) (ls : list (player K)) : Prop :=
  ls <> [] /\ chained ls /\ forall l, In l ls -> layer_ok npub l.
(** The number of output variables of the circuit. *)
Definition out_vars (ls : list (player K)) : nat := match rev ls with l :: _ => pl_ovars K l | [] => 0%nat end.
(** The verifier's two claims about the inputs, at the points of the last challenge, are true. *)
Definition claims_hold (inp : nat -> nat -> list K) (ch : dual_challenge K) (v0 : K) (v1 : option K) : bool :=
  feqb v0 (vmle (as_values inp) (rz_0 ch) (r_simd ch) (r_mpi ch)) &&
  match rz_1 ch, v1 with
  | Some z, Some v => feqb v (vmle (as_values inp) z (r_simd ch) (r_mpi ch))
  | None, None => true
  | _, _ => false
  end.
(** SIMD values have one element per lane. *)
Definition simd_ok (vs : list (list K)) : Prop := forall v, In v vs -> length v = (2 ^ simd_vars)%nat.

(** The order in which the verifier reads elements and draws challenges. *)
Inductive event := Read | Draw.
Definition rounds_script (n degree : nat) : list event := concat (repeat (repeat Read (degree + 1) ++ [Draw]) n).
Definition layer_script (l : player K) : list event :=
  rounds_script (pl_ivars K l) 2 ++ rounds_script (simd_vars + mpi_vars) 3 ++ [Read] ++
  (if empty (pl_mul K l) then [] else rounds_script (pl_ivars K l) 2 ++ [Read; Draw]).
(** last layer first *)
Definition script (ls : list (player K)) : list event := concat (map layer_script (rev ls)).
Definition draws (es : list event) : nat := length (filter (fun e => match e with Draw => true | Read => false end) es).

(** The proof of a prover who, before sending element number j, has seen the challenges [seen]:
    it sends [prover j seen], [None] being an undecodable element.  [r] are the challenges to come. *)
Fixpoint play (prover : nat -> list K -> option K) (es : list event) (j : nat) (seen r : list K) : list (option K) :=
  match es with
  | [] => []
  | Read :: es => prover j seen :: play prover es (S j) seen r
  | Draw :: es => match r with [] => [] | c :: r => play prover es j (seen ++ [c]) r end
  end.

(** The number of unlucky challenges, counted per layer. *)
Definition layer_error (l : player K) : nat :=
  (2 * pl_ivars K l + 3 * (simd_vars + mpi_vars) + (if empty (pl_mul K l) then 0 else 2 * pl_ivars K l + 1))%nat.
Definition gkr_error (ls : list (player K)) : nat := list_sum (map layer_error ls).
End Gkr.
Arguments vmle {_}. Arguments as_values {_}. Arguments lane_pub {_}. Arguments layer_ok {_}. Arguments chained {_}. Arguments circuit_ok {_}.
Arguments out_vars {_}. Arguments claims_hold {_}. Arguments simd_ok {_}. Arguments layer_script {_}. Arguments script {_}. Arguments play {_}. Arguments layer_error {_}. Arguments gkr_error {_}.
