(** What a serialisation format promises.  A decoder consumes a prefix of the bytes
    and returns the value and the rest; [None] is an error. *)
From Coq Require Import List ZArith.
Import ListNotations.

Definition decoder (T : Type) := list Z -> option (T * list Z).

(** Decoding what was encoded gives the value back and stops exactly at its end,
    whatever follows. *)
Definition round_trips {T} (valid : T -> Prop) (ser : T -> list Z) (de : decoder T) : Prop :=
  forall v rest, valid v -> de (ser v ++ rest) = Some (v, rest).

(** A decoder never looks beyond what it consumes. *)
Definition streams {T} (de : decoder T) : Prop :=
  forall s q v r, de s = Some (v, r) -> de (s ++ q) = Some (v, r ++ q).

(** Every strict prefix of an encoding is rejected. *)
Definition rejects_truncation {T} (valid : T -> Prop) (ser : T -> list Z) (de : decoder T) : Prop :=
  forall v p q, valid v -> ser v = p ++ q -> q <> [] -> de p = None.
