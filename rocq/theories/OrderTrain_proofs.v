(** OrderTrain_proofs.v - training on columns in other units (property C82). *)
From Coq Require Import SpecFloat.
From Verif Require Import Base F32 Column ColumnSpec DataStore Num Forest Config Eval Split SplitSpec Tree Train OrderSpec Order_proofs OrderBuckets_proofs OrderPower_proofs.

Lemma blike_refl b : blike b b.
Proof.
  split; [reflexivity|]. split; [reflexivity|]. intros lv rv _. destruct (cut b lv rv); cbn; try exact I. intros r. reflexivity.
Qed.
Lemma clike_refl c : clike c c.
Proof. split; [reflexivity|]. split; [reflexivity|]. destruct (c_body c); [apply blike_refl|exact I|reflexivity]. Qed.
Lemma power_clike c c' : times_power_of_two c c' -> clike c c'.
Proof.
  intros (nm & nb & blocks & blocks' & b & b' & e & -> & -> & L & Zl & E & E' & F). destruct (power_like e nb blocks blocks' b b' L Zl E E' F) as [B S].
  split; [reflexivity|]. split; [exact S|exact B].
Qed.

Section Any.
Context {N : Num}.
Lemma trel_but get get' (t t' : tree N) : trel get get' t t' -> but_thresholds t t'.
Proof.
  induction 1 as [|s sp sp' l l' r r' S L IHl R IHr]; constructor; try assumption. destruct sp, sp'; try contradiction; try exact I. exact (proj1 S).
Qed.
Section Units.
Variables (v v' : view) (threads : nat) (top : nat -> nat -> list N -> nat) (draw : nat -> spec_float)
  (srt : (nat -> nat -> bool) -> list nat -> list nat) (w y : float_vector) (lf : loss N) (c : config N) (names : list str).
Hypothesis U : other_units v v'.
Lemma units_rel pos base base' : Forall2 (trel (v_get v) (v_get v')) (match base with Some b => b | None => [] end) (match base' with Some b => b | None => [] end) ->
  rrel (drel v v') (train v threads top draw pos srt names w y lf c base) (train v' threads top draw pos srt names w y lf c base').
Proof using U.
  destruct U as (Rows & Ord & Cols). apply train_rel.
  - intros n. specialize (Cols n). destruct (v_get v n) as [a|], (v_get v' n) as [b|]; try contradiction; [|exact I].
    destruct Cols as [_ [->|T]]; [apply clike_refl|apply power_clike, T].
  - exact Rows.
  - apply Ord.
  - intros n col E. specialize (Cols n). rewrite E in Cols. destruct (v_get v' n); [|contradiction]. apply Cols.
Qed.
Lemma drel_but (r r' : res (trained N)) : rrel (drel v v') r r' -> same_but_thresholds r r'.
Proof using.
  destruct r as [r| |], r' as [r'| |]; cbn; auto. intros (E & F & G). split; [exact E|]. split; [|exact G].
  induction F as [|t t' l l' H F IH]; constructor; [exact (trel_but _ _ _ _ H)|exact IH].
Qed.
Lemma units_train pos : same_but_thresholds (train v threads top draw pos srt names w y lf c None) (train v' threads top draw pos srt names w y lf c None).
Proof using U. apply drel_but, units_rel. constructor. Qed.
End Units.
Lemma units_continue v v' threads (top : nat -> nat -> list N -> nat) draw pos srt names w y (lf : loss N) (c : config N) r r' threads2 (top2 : nat -> nat -> list N -> nat)
  draw2 pos2 srt2 names2 w2 y2 (lf2 : loss N) (c2 : config N) : other_units v v' ->
  train v threads top draw pos srt names w y lf c None = Ret r -> train v' threads top draw pos srt names w y lf c None = Ret r' ->
  same_but_thresholds (train v threads2 top2 draw2 pos2 srt2 names2 w2 y2 lf2 c2 (Some (tr_forest r))) (train v' threads2 top2 draw2 pos2 srt2 names2 w2 y2 lf2 c2 (Some (tr_forest r'))).
Proof.
  intros U E E'. apply (drel_but v v'), units_rel; [exact U|]. pose proof (units_rel v v' threads top draw srt w y lf c names U pos None None (Forall2_nil _)) as H.
  unfold forest in *. rewrite E, E' in H. exact (proj1 (proj2 H)).
Qed.
End Any.

(** Buckets *)
Lemma order_buckets nb (blocks : list (list (f32 * f32))) : same_order (concat blocks) ->
  match b_load nb (map (map fst) blocks), b_load nb (map (map snd) blocks) with
  | Ret b, Ret b' => b_status b' = b_status b /\ b_ints b' = b_ints b /\
      Forall2 (fun x y => In (x, y) ((fnan, fnan) :: (flt_max, flt_max) :: concat blocks)) (b_maxs b) (b_maxs b') /\
      Forall2 (fun x y => In (x, y) ((fnan, fnan) :: (flt_max, flt_max) :: concat blocks)) (b_mins b) (b_mins b')
  | Undef, Undef | Fatal, Fatal => True
  | _, _ => False
  end.
Proof.
  intros S. pose proof (same_order_load nb blocks S) as H. destruct (b_load nb (map (map fst) blocks)), (b_load nb (map (map snd) blocks)); try contradiction; try exact I.
  cbn in H. destruct H. repeat split; try assumption; symmetry; assumption.
Qed.
