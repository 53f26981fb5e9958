(** Prop_Factory.v - property C70.  Statements only.  Model: Loss.v, Pairwise.v; vocabulary: FactorySpec.v. *)
From Coq Require Import SpecFloat Reals.
From Verif Require Import Base F32 Column Num Par Config Split SplitSpec Split_proofs Tree Train Loss LossSpec Pairwise PairSpec FactorySpec
  Factory_proofs Prop_Score Prop_Split Prop_Train Prop_Loss Prop_Pair.
Local Open Scope R_scope.

(** ** C70 - the name of a loss decides what is minimised *)
Theorem C70_row_losses srt threads to_uint pick (c : config Exact) name binary form : row_loss name binary form -> cf_loss_func c = lit name ->
  exists lossf, create_loss srt threads to_uint pick c = Some (pointwise_loss threads binary lossf) /\ forall y f, loss_of lossf y f = form y f.
Proof. exact (row_factory srt threads to_uint pick c name binary form). Qed.
Print Assumptions C70_row_losses.

(** Pairs have their larger target first.  (C46 says what the ranks are.) *)
Theorem C70_pair_losses srt threads to_uint pick (c : config Exact) name ranked form : pair_loss name ranked form -> cf_loss_func c = lit name ->
  exists weight lossf, create_loss srt threads to_uint pick c = Some (pairwise_loss srt threads to_uint pick c ranked weight lossf) /\
    pair_kind c ranked weight lossf /\ (forall t d, 0 < t -> loss_of lossf t d = form t d) /\
    forall y g a b i j va vb ra rb, a_float (cf_dcg_base c) -> finite_float (cf_dcg_base c) = true ->
      nth_error (gr_rows g) a = Some i -> nth_error (gr_rows g) b = Some j -> y i = Ret va -> y j = Ret vb ->
      nth_error (gr_ranks g) a = Some ra -> nth_error (gr_ranks g) b = Some rb ->
      weight y g (a, b) = Ret (pair_weight ranked c (real_of va) (real_of vb) ra rb).
Proof. exact (pair_factory srt threads to_uint pick c name ranked form). Qed.
Print Assumptions C70_pair_losses.

(** Other names give no loss. *)
Theorem C70_unknown {N : Num} srt threads to_uint pick (c : config N) :
  (forall name binary form, row_loss name binary form -> cf_loss_func c <> lit name) ->
  (forall name ranked form, pair_loss name ranked form -> cf_loss_func c <> lit name) ->
  create_loss srt threads to_uint pick c = None.
Proof. exact (unknown_loss srt threads to_uint pick c). Qed.
Print Assumptions C70_unknown.

(** One round of a loss by name, for two rows with targets 1 and -1, which make one pair: gradients and hessians. *)
Definition ex_named_cfg (name : String.string) : config Ex :=
  mkConfig 1 2 f32_one (dbl 0) (dbl 0) (dbl 0) f32_one f32_one 0 [] [] [] [] false [] (lit name) (fl 1) false f32_zero false.
Definition ex_named_round (name : String.string) (f : list f64) : option (list (f64 * f64)) :=
  match create_loss (N := Ex) insertion_sort 2 double_to_uint ex_pick (ex_named_cfg name) with
  | Some lf =>
      match l_init lf 2 ones (ex_targets (map fl [1; -1]%Z)) None with
      | Ret (inr s) => match l_round lf s 0%nat f (repeat gzero 2) with Ret (_, gd, _, _) => Some (map (fun d => (gg d, gh d)) gd) | _ => None end
      | _ => None
      end
  | None => None
  end.
Example C70_example :
  ex_named_round "auc" [ratio 1 2; dbl 0] = Some [(ratio 1 2, dbl 2); (ratio (-1) 2, dbl 2)] /\
  ex_named_round "gbrank" [dbl 1; dbl 0] = Some [(dbl 1, dbl 2); (dbl (-1), dbl 2)] /\
  ex_named_round "ranknet" [dbl 1; dbl 0] = None.
Proof. vm_compute. repeat split; reflexivity. Qed.
