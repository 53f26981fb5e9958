(** Spelling_proofs.v - messages that are written differently (property C94). *)
From Coq Require Import SpecFloat Permutation Lia.
From Verif Require Import Base F32 Num Forest Draw Saved SpellingSpec Base_proofs.

Section Ind.
Context (P : json -> json -> Prop).
Hypothesis Hs : forall j, P j j.
Hypothesis Hl : forall l l', Forall2 P l l' -> P (JList l) (JList l').
Hypothesis Hd : forall l m l', NoDup (map (fun kv => declared (fst kv)) l) -> Permutation l m -> fields P m l' -> P (JDict l) (JDict l').
Fixpoint respelled_nested j j' (H : respelled j j') {struct H} : P j j' :=
  match H with
  | SameText j => Hs j
  | SameList l l' F => Hl l l' ((fix go l l' (F : Forall2 respelled l l') : Forall2 P l l' :=
      match F with Forall2_nil _ => Forall2_nil _ | Forall2_cons x y p q => Forall2_cons x y (respelled_nested x y p) (go _ _ q) end) l l' F)
  | SameDict l m l' D Pm F => Hd l m l' D Pm ((fix go m l' (F : fields respelled m l') : fields P m l' :=
      match F with
      | NoFields _ => NoFields P
      | OneField _ k k' v v' l l' e r q => OneField P k k' v v' l l' e (respelled_nested v v' r) (go l l' q)
      | LeftOut _ k v l l' d q => LeftOut P k v l l' d (go l l' q)
      end) m l' F)
  end.
End Ind.

Definition names_of (names : list str) (d : str) : Prop := forall k, existsb (str_eqb k) names = str_eqb (declared k) d.
Definition all_names (names dnames : list str) : Prop := forall k, existsb (str_eqb k) names = existsb (str_eqb (declared k)) dnames.
Definition kept {A} (convert : json -> option A) (j j' : json) : Prop := forall a, convert j = Some a -> convert j' = Some a.
Notation key kv := (declared (fst kv)).

Lemma field_perm {A} (convert : json -> option A) names d l m : names_of names d -> Permutation l m -> NoDup (map (fun kv => key kv) l) ->
  field convert names l = field convert names m.
Proof.
  intros H P. induction P as [|[k v] l l' P IH|[k v] [k' v'] l|l l' l'' P IH P' IH']; intros D.
  - reflexivity.
  - cbn [field]. inversion D; subst. rewrite IH by assumption. reflexivity.
  - cbn [field]. rewrite !H. destruct (str_eqb_spec (declared k) d) as [E|]; [|reflexivity]. destruct (str_eqb_spec (declared k') d) as [E'|]; [|reflexivity].
    exfalso. cbn in D. inversion D as [|? ? Nk _]. apply Nk. left. congruence.
  - rewrite IH by exact D. apply IH'. eapply Permutation_NoDup; [|exact D]. apply Permutation_map. exact P.
Qed.
Lemma known_perm names l m : Permutation l m -> known names l = known names m.
Proof.
  intros P. apply eq_true_iff_eq. unfold known. rewrite !forallb_forall.
  split; intros H x I; apply H; [apply (Permutation_in _ (Permutation_sym P)); exact I|apply (Permutation_in _ P); exact I].
Qed.
Lemma fields_keys P m l d : fields P m l -> In d (map (fun kv => key kv) l) -> In d (map (fun kv => key kv) m).
Proof. induction 1 as [|k k' v v' l l' E _ _ IH|k v l l' _ _ IH]; cbn; [exact (fun H => H)|rewrite E; intros [H|H]; [left; exact H|right; exact (IH H)]|intros H; right; exact (IH H)]. Qed.
Lemma known_fields P names dnames m l : all_names names dnames -> fields P m l -> known names m = true -> known names l = true.
Proof.
  intros H F. unfold known. induction F as [|k k' v v' l l' E _ _ IH|k v l l' _ _ IH]; cbn [forallb fst]; [reflexivity| |].
  - rewrite !Bool.andb_true_iff. intros [A B]. split; [|exact (IH B)]. rewrite H, <- E, <- H. exact A.
  - rewrite Bool.andb_true_iff. intros [_ B]. exact (IH B).
Qed.
Lemma field_absent {A} (convert : json -> option A) names d l : names_of names d -> ~ In d (map (fun kv => key kv) l) -> field convert names l = Some None.
Proof.
  intros H. induction l as [|[k v] t IH]; [reflexivity|]. cbn. intros N. rewrite H. destruct (str_eqb_spec (declared k) d) as [E|E]; [destruct N; left; exact E|].
  apply IH. intros I. apply N. right. exact I.
Qed.
Lemma field_kept {A} (convert : json -> option A) (P : json -> json -> Prop) names d m l x : names_of names d -> (forall j j', P j j' -> kept convert j j') ->
  fields P m l -> NoDup (map (fun kv => key kv) m) -> field convert names m = Some x ->
  exists x', field convert names l = Some x' /\ (x = x' \/ exists v a, by_default d v /\ convert v = Some a /\ x = Some a /\ x' = None).
Proof.
  intros H K F. induction F as [|k k' v v' l l' E R F IH|k v l l' D F IH]; intros N Q.
  - exists x. split; [exact Q|left; reflexivity].
  - cbn [field] in *. rewrite H in *. rewrite <- E. cbn in N. inversion N as [|? ? N1 N2]; subst. destruct (str_eqb (declared k) d); [|exact (IH N2 Q)].
    destruct (convert v) as [a|] eqn:C; [|discriminate]. injection Q as <-. rewrite (K _ _ R _ C). eexists. split; [reflexivity|left; reflexivity].
  - cbn [field] in Q. rewrite H in Q. cbn in N. inversion N as [|? ? N1 N2]; subst. destruct (str_eqb_spec (declared k) d) as [<-|]; [|exact (IH N2 Q)].
    destruct (convert v) as [a|] eqn:C; [|discriminate]. injection Q as <-. exists None. split; [|right; exists v, a; repeat split; assumption].
    apply (field_absent convert names (declared k)); [exact H|]. intros I. apply N1. exact (fields_keys _ _ _ _ F I).
Qed.
Lemma field_dict {A B} (convert : json -> option A) (P : json -> json -> Prop) names d (g : A -> B) (q : A) l m l' x : names_of names d -> (forall j j', P j j' -> kept convert j j') ->
  NoDup (map (fun kv => key kv) l) -> Permutation l m -> fields P m l' -> (forall v a, by_default d v -> convert v = Some a -> g a = g q) -> field convert names l = Some x ->
  exists x', field convert names l' = Some x' /\ g (otherwise q x') = g (otherwise q x).
Proof.
  intros H K N Pm F D Q. rewrite (field_perm convert names d l m H Pm N) in Q. apply (Permutation_map (fun kv => key kv)) in Pm. apply (Permutation_NoDup Pm) in N.
  destruct (field_kept convert P names d m l' x H K F N Q) as (x' & E & [->|(v & a & Dv & C & -> & ->)]); exists x' || exists None; (split; [exact E|]); [reflexivity|].
  cbn. symmetry. exact (D v a Dv C).
Qed.
Lemma field_message {A} (convert : json -> option A) (P : json -> json -> Prop) names d l m l' x : names_of names d -> (forall j j', P j j' -> kept convert j j') ->
  NoDup (map (fun kv => key kv) l) -> Permutation l m -> fields P m l' -> (forall v, ~ by_default d v) -> field convert names l = Some x -> field convert names l' = Some x.
Proof.
  intros H K N Pm F D Q. rewrite (field_perm convert names d l m H Pm N) in Q. apply (Permutation_map (fun kv => key kv)) in Pm. apply (Permutation_NoDup Pm) in N.
  destruct (field_kept convert P names d m l' x H K F N Q) as (x' & E & [->|(v & a & Dv & _)]); [exact E|destruct (D v Dv)].
Qed.
Lemma elements_kept {A} (convert : json -> option A) (P : json -> json -> Prop) l l' : (forall j j', P j j' -> kept convert j j') -> Forall2 P l l' ->
  forall r, elements convert l = Some r -> elements convert l' = Some r.
Proof.
  intros K. induction 1 as [|x y l l' R F IH]; [exact (fun r H => H)|]. intros r. cbn [elements]. unfold obind. destruct (convert x) as [a|] eqn:E; [|discriminate].
  rewrite (K _ _ R _ E). destruct (elements convert l) as [r'|]; [|discriminate]. rewrite (IH _ eq_refl). exact (fun H => H).
Qed.

Ltac spelling :=
  intros k; unfold declared, camel; cbn [map assoc fst snd existsb];
  repeat match goal with |- context [str_eqb k ?c] => destruct (str_eqb_spec k c); [subst k; vm_compute; reflexivity|] end;
  repeat match goal with H : k <> ?c |- context [str_eqb k ?c] => destruct (str_eqb_spec k c); [contradiction|] end; try reflexivity.
Lemma nothing_default d v : ~ In d (map lit ["threshold"; "gain"; "score"; "missing_to_right_child"; "feature"; "meta_info"; "category"; "internal_categorical_index"; "tree"]%string) -> ~ by_default d v.
Proof. intros H D. apply H. cbn [map]. destruct D as [k s I| |k I|k I]; cbn in *; intuition. Qed.
Ltac no_default := intros v; apply nothing_default; vm_compute; intuition discriminate.
Ltac the_default := let v := fresh in let a := fresh in let D := fresh in intros v a D; inversion D; subst; cbn in *; try (intros [= <-]; reflexivity); intuition discriminate.

Section Messages.
Context {c_exp c_log : f64 -> f64}.
Notation N := (IEEE c_exp c_log).
Record all_kept (j j' : json) : Prop := {
  k_float : forall x, json_float j = Some x -> json_float j' = Some x;
  k_double : kept json_double j j';
  k_bool : kept json_bool j j';
  k_string : kept json_string j j';
  k_int : kept json_int j j';
  k_strings : kept (json_list json_string) j j';
  k_ints : kept (json_list json_int) j j';
  k_fsplit : kept float_split_of j j';
  k_csplit : kept cat_split_of j j';
  k_split : kept (split_of (c_exp := c_exp) (c_log := c_log)) j j';
  k_tree : kept (tree_of (c_exp := c_exp) (c_log := c_log)) j j';
  k_trees : kept (json_list (tree_of (c_exp := c_exp) (c_log := c_log))) j j';
  k_forest : kept (forest_of (c_exp := c_exp) (c_log := c_log)) j j' }.

Lemma same_kept j : all_kept j j.
Proof. split; intros a H; exact H. Qed.
Lemma list_kept l l' : Forall2 all_kept l l' -> all_kept (JList l) (JList l').
Proof.
  intros F. split; intros a; cbn; try discriminate.
  - apply (elements_kept _ all_kept); [exact k_string|exact F].
  - apply (elements_kept _ all_kept); [exact k_int|exact F].
  - apply (elements_kept _ all_kept); [exact k_tree|exact F].
Qed.
Section Dict.
Context (l m l' : list (str * json)) (D : NoDup (map (fun kv => key kv) l)) (Pm : Permutation l m) (F : fields all_kept m l').
Lemma known_dict names dnames : all_names names dnames -> known names l = true -> known names l' = true.
Proof. intros H. rewrite (known_perm names l m Pm). exact (known_fields _ names dnames m l' H F). Qed.
Ltac kept_field g q d K := match goal with
  | |- context [field ?c ?n l] => let E := fresh "E" in let y := fresh "y" in let Ey := fresh "Ey" in let Q := fresh "Q" in
      destruct (field c n l) as [?|] eqn:E; [|discriminate];
      apply (field_dict c all_kept n (lit d) g q l m l') in E; [|spelling|exact K|exact D|exact Pm|exact F|the_default]; destruct E as (y & Ey & Q); rewrite Ey
  end.
Ltac kept_message d K := match goal with
  | |- context [field ?c ?n l] => let E := fresh "E" in
      destruct (field c n l) as [?|] eqn:E; [|discriminate];
      apply (field_message c all_kept n (lit d) l m l') in E; [|spelling|exact K|exact D|exact Pm|exact F|no_default]; rewrite E
  end.
Ltac kept_names d := match goal with |- context [known ?n l] => let K := fresh in destruct (known n l) eqn:K; [|discriminate]; rewrite (known_dict n (map lit d)) by (exact K || spelling); unfold obind end.
Lemma fsplit_kept : kept float_split_of (JDict l) (JDict l').
Proof.
  intros a. unfold float_split_of. kept_names ["threshold"; "missing_to_right_child"]%string.
  kept_field plain_zero (S754_zero false) "threshold"%string k_float. kept_field (fun b : bool => b) false "missing_to_right_child"%string k_bool. cbn beta in Q0.
  intros <-. repeat first [exact Q|exact Q0|reflexivity|f_equal].
Qed.
Lemma csplit_kept : kept cat_split_of (JDict l) (JDict l').
Proof.
  intros a. unfold cat_split_of. kept_names ["category"; "internal_categorical_index"]%string.
  kept_field (fun b : list str => b) (@nil str) "category"%string k_strings. kept_field (fun b : list Z => b) (@nil Z) "internal_categorical_index"%string k_ints. cbn beta in Q, Q0.
  intros <-. repeat first [exact Q|exact Q0|reflexivity|f_equal].
Qed.
Lemma split_kept : kept (split_of (c_exp := c_exp) (c_log := c_log)) (JDict l) (JDict l').
Proof.
  intros a. unfold split_of. kept_names ["feature"; "float_split"; "cat_split"; "gain"]%string.
  kept_field (fun b : str => b) (@nil ascii) "feature"%string k_string. kept_message "float_split"%string k_fsplit. kept_message "cat_split"%string k_csplit.
  kept_field plain_zero (S754_zero false) "gain"%string k_double. cbn beta in Q.
  intros <-. repeat first [exact Q|exact Q0|reflexivity|f_equal].
Qed.
Lemma tree_kept : kept (tree_of (c_exp := c_exp) (c_log := c_log)) (JDict l) (JDict l').
Proof.
  intros a. cbn [tree_of]. kept_names ["score"; "split"; "left_child"; "right_child"]%string.
  kept_field plain_zero (S754_zero false) "score"%string k_float. kept_message "split"%string k_split. kept_message "left_child"%string k_tree. kept_message "right_child"%string k_tree.
  intros <-. repeat first [exact Q|reflexivity|f_equal].
Qed.
Lemma forest_kept : kept (forest_of (c_exp := c_exp) (c_log := c_log)) (JDict l) (JDict l').
Proof.
  intros a. unfold forest_of. kept_names ["tree"; "meta_info"]%string.
  kept_field (fun b : list (tree N) => b) (@nil (tree N)) "tree"%string k_trees. kept_field (fun b : str => b) (@nil ascii) "meta_info"%string k_string. cbn beta in Q, Q0.
  intros <-. repeat first [exact Q|exact Q0|reflexivity|f_equal].
Qed.
Lemma dict_kept : all_kept (JDict l) (JDict l').
Proof. split; [intros ? [=]|intros ? [=]..|exact fsplit_kept|exact csplit_kept|exact split_kept|exact tree_kept|intros ? [=]|exact forest_kept]. Qed.
End Dict.
Lemma respelled_kept j j' r : respelled j j' -> forest_of (c_exp := c_exp) (c_log := c_log) j = Some r -> forest_of (c_exp := c_exp) (c_log := c_log) j' = Some r.
Proof. intros H. exact (k_forest _ _ (respelled_nested all_kept same_kept list_kept dict_kept j j' H) r). Qed.
End Messages.

(** ** Examples *)
Ltac solve_distinct := vm_compute; repeat constructor; cbn; intuition discriminate.
Ltac solve_left_out := repeat (apply LeftOut; [vm_compute; constructor; vm_compute; tauto|]); apply NoFields.
