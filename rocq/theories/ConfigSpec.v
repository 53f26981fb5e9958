(** ConfigSpec.v - vocabulary for the properties of Config.v. *)
From Verif Require Import Base F32 Num Forest.

Section Spec.
Context {N : Num}.
(** Feature and gain of every node with children, in preorder. *)
Fixpoint node_gains (t : tree N) : list (str * N) :=
  match t with
  | TNone => []
  | TNode _ sp l r =>
      match l with
      | TNone => []
      | _ => (sp_feature (the_split sp), sp_gain (the_split sp)) :: node_gains l ++ node_gains r
      end
  end.
Definition forest_gains (f : forest N) : list (str * N) := flat_map node_gains f.

(** 0 + g_1 + g_2 + ... for the gains of feature [n] *)
Definition total_gain (f : forest N) (n : str) : N :=
  fold_left nadd (map snd (filter (fun p => str_eqb n (fst p)) (forest_gains f))) n0.
End Spec.
