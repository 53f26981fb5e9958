(** Prop_Order.v - property C82.  Statements only.  Model: Column.v, Split.v, Tree.v, Train.v; vocabulary: OrderSpec.v. *)
From Coq Require Import SpecFloat.
From Verif Require Import Base F32 Column ColumnSpec DataStore Num Forest Config Score Eval Split SplitSpec Split_proofs Tree TreeSpec Train Loss
  OrderSpec OrderPower_proofs OrderTrain_proofs Prop_Score Prop_Split Prop_Tree Prop_Train Prop_Threads Prop_Units.

(** ** C82 - units of feature values *)
(** Bucketizing sees only the order: if the values of a column are replaced by others in the same order, every row gets the same bucket number, loading ends
    the same way, and the limits of the buckets are replaced alike. *)
Theorem C82_buckets nb (blocks : list (list (f32 * f32))) : same_order (concat blocks) ->
  match b_load nb (map (map fst) blocks), b_load nb (map (map snd) blocks) with
  | Ret b, Ret b' => b_status b' = b_status b /\ b_ints b' = b_ints b /\
      Forall2 (fun x y => In (x, y) ((fnan, fnan) :: (flt_max, flt_max) :: concat blocks)) (b_maxs b) (b_maxs b') /\
      Forall2 (fun x y => In (x, y) ((fnan, fnan) :: (flt_max, flt_max) :: concat blocks)) (b_mins b) (b_mins b')
  | Undef, Undef | Fatal, Fatal => True
  | _, _ => False
  end.
Proof. exact (order_buckets nb blocks). Qed.
Print Assumptions C82_buckets.

(** Thresholds halfway between two limits sort every value alike after all three are multiplied by the same power of two. *)
Theorem C82_halfway e x x' y y' z z' : times_power e x x' -> times_power e y y' -> times_power e z z' -> is_nan x = false ->
  fltb z (middle x y) = fltb z' (middle x' y').
Proof. intros X Y Z. exact (middle_routes e x x' y y' z z' (or_introl X) (or_introl Y) (or_introl Z)). Qed.
Print Assumptions C82_halfway.

(** Any arithmetic, any loss, any schedule: training on data where some columns are multiplied by powers of two, each column by its own, ends the same way, with the
    same function values and the same forest but for the thresholds. *)
Theorem C82_units {N : Num} (v v' : view) threads (top : nat -> nat -> list N -> nat) draw pos srt names w y (lf : loss N) (c : config N) : other_units v v' ->
  same_but_thresholds (train v threads top draw pos srt names w y lf c None) (train v' threads top draw pos srt names w y lf c None).
Proof. intros U. exact (units_train v v' threads top draw srt w y lf c names U pos). Qed.
Print Assumptions C82_units.
(** So does training that continues from the two forests. *)
Theorem C82_continue {N : Num} (v v' : view) threads (top : nat -> nat -> list N -> nat) draw pos srt names w y (lf : loss N) (c : config N) r r'
    threads2 top2 draw2 pos2 srt2 names2 w2 y2 (lf2 : loss N) (c2 : config N) : other_units v v' ->
  train v threads top draw pos srt names w y lf c None = Ret r -> train v' threads top draw pos srt names w y lf c None = Ret r' ->
  same_but_thresholds (train v threads2 top2 draw2 pos2 srt2 names2 w2 y2 lf2 c2 (Some (tr_forest r)))
    (train v' threads2 top2 draw2 pos2 srt2 names2 w2 y2 lf2 c2 (Some (tr_forest r'))).
Proof. exact (units_continue v v' threads top draw pos srt names w y lf c r r' threads2 top2 draw2 pos2 srt2 names2 w2 y2 lf2 c2). Qed.
Print Assumptions C82_continue.

(** Six rows, one of them without value; then with all values multiplied by 8. *)
Definition ex_feature (xs : list f32) : column := mkCol (lit "x") (BodyB (ex_bcol xs)).
Fixpoint ex_thresholds (t : tree Ex) : list f32 :=
  match t with
  | TNode _ (Some s) l r => match sp_float s with Some (x, _) => [x] | None => [] end ++ ex_thresholds l ++ ex_thresholds r
  | _ => []
  end.
Definition ex_cuts (r : res (trained Ex)) : list f32 := match r with Ret r => flat_map ex_thresholds (tr_forest r) | _ => [] end.
Definition ex_weighted (xs : list f32) (ys : list Z) : res (trained Ex) := ex_units xs (map (fun _ => fl 1) xs) (map fl ys) (ex_units_cfg 0 0 0).
Example C82_example :
  let xs := fnan :: map fl [1; 2; 3; 4; 6]%Z in let xs' := fnan :: map fl [8; 16; 24; 32; 48]%Z in let ys := [0; 0; 0; 0; 0; 6]%Z in
  times_power_of_two (ex_feature xs) (ex_feature xs') /\ ex_shape (ex_weighted xs' ys) = ex_shape (ex_weighted xs ys) /\
  ex_values (ex_weighted xs ys) = Some (SOk, map dbl [0; 0; 0; 0; 0; 6]%Z) /\ ex_cuts (ex_weighted xs ys) = [fl 5] /\ ex_cuts (ex_weighted xs' ys) = [fl 40].
Proof.
  cbn zeta. split; [|vm_compute; repeat split; reflexivity].
  exists (lit "x"), 100%Z, [fnan :: map fl [1; 2; 3; 4; 6]%Z], [fnan :: map fl [8; 16; 24; 32; 48]%Z], (ex_bcol (fnan :: map fl [1; 2; 3; 4; 6]%Z)),
    (ex_bcol (fnan :: map fl [8; 16; 24; 32; 48]%Z)), 3%Z.
  repeat (split; [first [reflexivity|vm_compute; repeat split; congruence]|]). vm_compute. repeat constructor; congruence.
Qed.

(** The order of the values alone does not decide: three rows of weight 1 with targets 0, 3, 6.  The middle row has no gradient in the first round, so the search
    sees only the other two and cuts halfway between them; the middle row falls on the one or the other side. *)
Theorem C82_order_refuted : exists (l : list (f32 * f32)) ys r r', same_order l /\
  ex_values (ex_weighted (map fst l) ys) = Some (SOk, r) /\ ex_values (ex_weighted (map snd l) ys) = Some (SOk, r') /\ r' <> r.
Proof.
  exists [(fl 1, fl 1); (fl 2, fl 99); (fl 100, fl 100)], [0; 3; 6]%Z. do 2 eexists.
  split; [|split; [vm_compute; reflexivity|split; [vm_compute; reflexivity|discriminate]]].
  split; [intros p [<-|[<-|[<-|[]]]]; reflexivity|].
  intros p q [<-|[<-|[<-|[<-|[]]]]] [<-|[<-|[<-|[<-|[]]]]]; vm_compute; reflexivity.
Qed.
Print Assumptions C82_order_refuted.
(** New rows need not be sorted alike: the threshold that divides missing from other values lies 0.001 below the smallest value, whatever the unit.  Two rows without
    value and two rows with value 1 (then 2^-10): a new row with half that value is below the threshold, in the other unit above. *)
Definition ex_tiny (z : Z) : f32 := binary_normalize 24 128 z (-11) false.
Theorem C82_new_rows_refuted : exists xs xs' ys t t' z z', Forall2 (times_power (-10)) xs xs' /\ times_power (-10) z z' /\
  ex_cuts (ex_weighted xs ys) = [t] /\ ex_cuts (ex_weighted xs' ys) = [t'] /\ fltb z t = true /\ fltb z' t' = false.
Proof.
  exists [fnan; fnan; fl 1; fl 1], [fnan; fnan; ex_tiny 2; ex_tiny 2], [0; 0; 6; 6]%Z. do 2 eexists. exists (binary_normalize 24 128 1 (-1) false), (ex_tiny 1).
  split; [vm_compute; repeat constructor; congruence|]. split; [vm_compute; repeat split; congruence|].
  split; [vm_compute; reflexivity|]. split; [vm_compute; reflexivity|]. split; vm_compute; reflexivity.
Qed.
Print Assumptions C82_new_rows_refuted.
