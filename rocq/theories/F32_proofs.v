(** F32_proofs.v - the comparison of floats is a total preorder on non-NaN values. *)
From Coq Require Import SpecFloat.
From Verif Require Import Base F32.
Local Open Scope Z_scope.

Definition fk1 (v : f32) : Z :=
  match v with
  | S754_zero _ => 0
  | S754_infinity true => -2
  | S754_infinity false => 2
  | S754_nan => 3
  | S754_finite true _ _ => -1
  | S754_finite false _ _ => 1
  end.
Definition fk2 (v : f32) : Z :=
  match v with
  | S754_finite true _ e => - e
  | S754_finite false _ e => e
  | _ => 0
  end.
Definition fk3 (v : f32) : Z :=
  match v with
  | S754_finite true m _ => Zneg m
  | S754_finite false m _ => Zpos m
  | _ => 0
  end.

Definition klt (a b : f32) : Prop :=
  fk1 a < fk1 b \/ (fk1 a = fk1 b /\ (fk2 a < fk2 b \/ (fk2 a = fk2 b /\ fk3 a < fk3 b))).
Definition keq (a b : f32) : Prop := fk1 a = fk1 b /\ fk2 a = fk2 b /\ fk3 a = fk3 b.

Lemma is_nan_key v : is_nan v = true <-> fk1 v = 3.
Proof. destruct v as [[]|[]| |[]]; cbn; split; try discriminate; try lia; auto. Qed.

Lemma SFcompare_key a b :
  is_nan a = false -> is_nan b = false ->
  match SFcompare a b with
  | Some Lt => klt a b
  | Some Eq => keq a b
  | Some Gt => klt b a
  | None => False
  end.
Proof.
  unfold klt, keq.
  destruct a as [sa|sa| |sa ma ea], b as [sb|sb| |sb mb eb]; cbn; try discriminate; intros _ _;
    destruct sa, sb; cbn; try lia.
  all: destruct (Z.compare_spec ea eb); try lia;
    change (Pos.compare_cont Eq ma mb) with (Pos.compare ma mb);
    destruct (Pos.compare_spec ma mb); cbn; subst; lia.
Qed.

Lemma fltb_key a b :
  fltb a b = true <-> is_nan a = false /\ is_nan b = false /\ klt a b.
Proof.
  unfold fltb. destruct (is_nan a) eqn:Ha.
  { destruct a; try discriminate; cbn. intuition discriminate. }
  destruct (is_nan b) eqn:Hb.
  { destruct b; try discriminate. destruct a as [|[]| |]; cbn; intuition discriminate. }
  pose proof (SFcompare_key a b Ha Hb) as H. unfold klt, keq in *.
  destruct (SFcompare a b) as [[]|]; split; try tauto; intros; try lia; try discriminate.
Qed.

Lemma fleb_key a b :
  fleb a b = true <-> is_nan a = false /\ is_nan b = false /\ ~ klt b a.
Proof.
  unfold fleb. destruct (is_nan a) eqn:Ha.
  { destruct a; try discriminate; cbn. intuition discriminate. }
  destruct (is_nan b) eqn:Hb.
  { destruct b; try discriminate. destruct a as [|[]| |]; cbn; intuition discriminate. }
  pose proof (SFcompare_key a b Ha Hb) as H. unfold klt, keq in *.
  destruct (SFcompare a b) as [[]|]; split; intros; try tauto; try discriminate;
    repeat split; auto; lia.
Qed.

Lemma feqb_key a b :
  feqb a b = true <-> is_nan a = false /\ is_nan b = false /\ keq a b.
Proof.
  unfold feqb. destruct (is_nan a) eqn:Ha.
  { destruct a; try discriminate; cbn. intuition discriminate. }
  destruct (is_nan b) eqn:Hb.
  { destruct b; try discriminate. destruct a as [|[]| |]; cbn; intuition discriminate. }
  pose proof (SFcompare_key a b Ha Hb) as H. unfold klt, keq in *.
  destruct (SFcompare a b) as [[]|]; split; intros; try tauto; try discriminate;
    repeat split; auto; lia.
Qed.

Lemma bool_not_true b : b = false <-> ~ b = true.
Proof. destruct b; intuition discriminate. Qed.

(** Decide goals about [fltb], [fleb], [feqb], [is_nan]: reduce to the lexicographic keys, then
    linear arithmetic. *)
Ltac forder :=
  repeat match goal with
  | H : context [fmin ?a ?b] |- _ => unfold fmin in H
  | |- context [fmin ?a ?b] => unfold fmin
  | H : context [if fltb ?a ?b then _ else _] |- _ => destruct (fltb a b) eqn:?
  | |- context [if fltb ?a ?b then _ else _] => destruct (fltb a b) eqn:?
  end;
  rewrite ?bool_not_true in *;
  rewrite ?fltb_key, ?fleb_key, ?feqb_key, ?is_nan_key in *;
  rewrite ?bool_not_true in *;
  rewrite ?is_nan_key in *;
  unfold klt, keq in *; try lia.

(** The same after clearing every hypothesis that is not about float order. *)
Ltac ford :=
  repeat match goal with
  | H : ?T |- _ =>
      lazymatch T with
      | fltb _ _ = _ => fail
      | fleb _ _ = _ => fail
      | feqb _ _ = _ => fail
      | is_nan _ = _ => fail
      | _ => clear H
      end
  end;
  solve [forder].

Lemma fltb_irrefl a : fltb a a = false.
Proof. forder. Qed.
Lemma fltb_trans a b c : fltb a b = true -> fltb b c = true -> fltb a c = true.
Proof. intros; forder. Qed.
Lemma fltb_asym a b : fltb a b = true -> fltb b a = false.
Proof. intros; forder. Qed.
Lemma fleb_trans a b c : fleb a b = true -> fleb b c = true -> fleb a c = true.
Proof. intros; forder. Qed.
Lemma fleb_ltb_trans a b c : fleb a b = true -> fltb b c = true -> fltb a c = true.
Proof. intros; forder. Qed.
Lemma fltb_leb_trans a b c : fltb a b = true -> fleb b c = true -> fltb a c = true.
Proof. intros; forder. Qed.
Lemma fltb_total a b : is_nan a = false -> is_nan b = false ->
  fltb a b = true \/ feqb a b = true \/ fltb b a = true.
Proof. intros; forder. Qed.
Lemma fltb_fleb a b : fltb a b = true -> fleb a b = true.
Proof. intros; forder. Qed.
Lemma fleb_not_ltb a b : is_nan a = false -> is_nan b = false -> fleb a b = negb (fltb b a).
Proof. intros. destruct (fltb b a) eqn:E; cbn; forder. Qed.
Lemma feqb_refl a : is_nan a = false -> feqb a a = true.
Proof. intros; forder. Qed.
Lemma fleb_refl a : is_nan a = false -> fleb a a = true.
Proof. intros; forder. Qed.
Lemma feqb_sym a b : feqb a b = feqb b a.
Proof. destruct (feqb a b) eqn:E, (feqb b a) eqn:F; auto; forder. Qed.
Lemma feqb_trans a b c : feqb a b = true -> feqb b c = true -> feqb a c = true.
Proof. intros; forder. Qed.
Lemma fltb_nan_l a b : fltb a b = true -> is_nan a = false.
Proof. intros; forder. Qed.
Lemma fltb_nan_r a b : fltb a b = true -> is_nan b = false.
Proof. intros; forder. Qed.
Lemma fleb_nan_r a b : fleb a b = true -> is_nan b = false.
Proof. intros; forder. Qed.
Lemma fleb_nan_l a b : fleb a b = true -> is_nan a = false.
Proof. intros; forder. Qed.
Lemma fleb_feqb a b : fleb a b = true -> fltb a b = false -> feqb a b = true.
Proof. intros; forder. Qed.
Lemma feqb_fleb a b : feqb a b = true -> fleb a b = true.
Proof. intros; forder. Qed.
Lemma flt_max_nan : is_nan flt_max = false.
Proof. reflexivity. Qed.
