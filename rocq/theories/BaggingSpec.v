(** BaggingSpec.v - vocabulary for bagging. *)
From Verif Require Import Base StringsSpec Bagging.

(** Row [i] belongs to the part [k] of [bags] parts: its hash value leaves the remainder [k]. *)
Definition part_of (hash : nat -> Z) (bags i k : nat) : Prop := k < bags /\ exists q, hash i = (q * Z.of_nat bags + Z.of_nat k)%Z.
(** A line of white space *)
Definition white (s : str) : Prop := forall c, In c s -> blank c.
(** JSON objects with other fields than the known ones are rejected, as JsonToBinaryString does unless told otherwise (src/utils/json_utils.cc:58-68). *)
Definition rejects_unknown {A} (known : list str) (read : json -> option A) : Prop :=
  forall fields n v, In (n, v) fields -> ~ In n known -> read (JObject fields) = None.
