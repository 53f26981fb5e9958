(** DataStoreSpec.v - what a history of data store calls means. *)
From Verif Require Import Base F32 Column DataStore.

(** The column most recently added successfully under a name and not removed since.
    The history lists the latest call first. *)
Fixpoint live (n : str) (h : list (ds_op * ds_out)) : option column :=
  match h with
  | [] => None
  | (OpAdd c, OutStatus SOk) :: t => if str_eqb n (c_name c) then Some c else live n t
  | (OpRemove k, _) :: t => if str_eqb n k then None else live n t
  | _ :: t => live n t
  end.

(** The names a history mentions as successfully added and still live are the stored ones. *)
Definition stored_columns (m : store) : list column := map snd m.

(** Every added column is finalized (has a size). *)
Definition all_sized (ops : list ds_op) : Prop :=
  forall c, In (OpAdd c) ops -> exists k, col_size c = Ret k.
Definition all_nonempty (ops : list ds_op) : Prop :=
  forall c, In (OpAdd c) ops -> exists k, col_size c = Ret (S k).
