(** JsonSound_proofs.v - only texts of JSON are read (property C96). *)
From Coq Require Import SpecFloat Reals Lia ZArith.
From Verif Require Import Base Base_proofs F32 Num Strings Forest Driver Stopwatch Print PrintSpec Print_proofs Draw Saved JsonText JsonSpec JsonText_proofs.
Local Close Scope R_scope.

Lemma skip_split s : exists a, blanks a /\ s = a ++ skip s.
Proof.
  induction s as [|c s (a & B & E)]; [exists []; split; [constructor|reflexivity]|]. unfold skip in *. cbn [drop_while]. destruct (is_blank c) eqn:C.
  - exists (c :: a). split; [|cbn [app]; rewrite <- E; reflexivity]. constructor; [|exact B]. unfold is_blank in C. rewrite !Bool.orb_true_iff, !is_char_true in C by lia. cbn [map In]. intuition (subst; auto).
  - exists []. split; [constructor|reflexivity].
Qed.
Lemma is_char_is n c : n < 256 -> is_char n c = true -> c = char n.
Proof. intros B. apply is_char_true, B. Qed.

(** ** Strings *)
Lemma hex_sound c z : hex_value c = Some z -> exists n, z = Z.of_nat n /\ hex_digit c n.
Proof.
  intros H. exists (Z.to_nat z). unfold hex_digit. destruct c as [[] [] [] [] [] [] [] []]; vm_compute in H; try discriminate H; injection H as <-; split; vm_compute; auto.
Qed.
Lemma escape_sound e c : short_escape e = Some c -> In (e, c) escapes.
Proof.
  destruct e as [[] [] [] [] [] [] [] []]; intros H; vm_compute in H; try discriminate H; injection H as <-; vm_compute; auto 10.
Qed.
Lemma byte_is n : forall z, z = Z.of_nat n -> byte z = char n.
Proof. intros z ->. apply byte_char. Qed.
Lemma utf8_sound n bytes : (Z.of_nat n < 65536)%Z -> utf8 (Z.of_nat n) = Some bytes -> utf8_bytes n bytes.
Proof.
  intros B. unfold utf8. set (u := Z.of_nat n) in *. assert (0 <= u)%Z as P by (unfold u; lia). destruct (Z.ltb_spec u 128) as [L|L].
  - intros H. injection H as <-. rewrite (byte_is n) by reflexivity. constructor. lia.
  - destruct (Z.ltb_spec u 2048) as [L'|L'].
    + intros H. injection H as <-. set (a := Z.to_nat (u / 64)). set (b := Z.to_nat (u mod 64)).
      pose proof (Z.div_mod u 64 ltac:(lia)) as D. pose proof (Z.mod_pos_bound u 64 ltac:(lia)) as M.
      assert (2 <= u / 64 < 32)%Z as A by (split; [apply Z.div_le_lower_bound; lia|apply Z.div_lt_upper_bound; lia]).
      rewrite (byte_is (192 + a)), (byte_is (128 + b)) by (unfold a, b; lia).
      replace n with (a * 64 + b) by (unfold a, b; lia). constructor; unfold a, b; lia.
    + destruct ((55296 <=? u) && (u <=? 57343))%Z eqn:S; [discriminate|]. intros H. injection H as <-.
      set (a := Z.to_nat (u / 4096)). set (b := Z.to_nat ((u / 64) mod 64)). set (c := Z.to_nat (u mod 64)).
      pose proof (Z.div_mod u 64 ltac:(lia)) as D. pose proof (Z.mod_pos_bound u 64 ltac:(lia)) as M.
      pose proof (Z.div_mod (u / 64) 64 ltac:(lia)) as D'. pose proof (Z.mod_pos_bound (u / 64) 64 ltac:(lia)) as M'.
      assert (u / 64 / 64 = u / 4096)%Z as Q by (rewrite Z.div_div by lia; reflexivity). rewrite Q in D'.
      assert (0 <= u / 4096 < 16)%Z as A by (split; [apply Z.div_pos; lia|apply Z.div_lt_upper_bound; lia]).
      rewrite (byte_is (224 + a)), (byte_is (128 + b)), (byte_is (128 + c)) by (unfold a, b, c; lia).
      replace n with (a * 4096 + b * 64 + c) by (unfold a, b, c; lia). apply Bool.andb_false_iff in S. rewrite !Z.leb_gt in S. constructor; unfold a, b, c; lia.
Qed.
Lemma prepend_some s x y r : prepend s x = Some (y, r) -> exists t, x = Some (t, r) /\ y = s ++ t.
Proof. destruct x as [[t u]|]; [|discriminate]. cbn. intros H. injection H as <- <-. exists t. auto. Qed.
Lemma hex_bound c n : hex_digit c n -> n < 16.
Proof. intros H. apply hex_ok in H. apply H. Qed.
Lemma chars_sound : forall n s x r, List.length s <= n -> read_chars s = Some (x, r) -> exists u, spelt x u /\ s = u ++ char 34 :: r.
Proof.
  induction n as [|n IH]; intros s x r L H; (destruct s as [|c s]; [discriminate|]); cbn [List.length] in L; [lia|]. cbn [read_chars] in H.
  destruct (is_char 34 c) eqn:C34; [apply is_char_is in C34; [|lia]; injection H as <- <-; exists []; split; [constructor|subst c; reflexivity]|].
  destruct (is_char 92 c) eqn:C92.
  - apply is_char_is in C92; [|lia]. subst c. destruct s as [|e s]; [discriminate|]. cbn [List.length] in L. destruct (is_char 117 e) eqn:E.
    + apply is_char_is in E; [|lia]. subst e. destruct s as [|p [|q [|w [|v s]]]]; try discriminate. cbn [List.length] in L. unfold unit16 in H.
      destruct (hex_value p) as [a|] eqn:Ha; [|discriminate]. destruct (hex_value q) as [b|] eqn:Hb; [|discriminate]. destruct (hex_value w) as [d|] eqn:Hd; [|discriminate]. destruct (hex_value v) as [f|] eqn:Hf; [|discriminate].
      cbn [obind] in H. apply hex_sound in Ha, Hb, Hd, Hf. destruct Ha as (a' & -> & Ha), Hb as (b' & -> & Hb), Hd as (d' & -> & Hd), Hf as (f' & -> & Hf).
      pose proof (hex_bound _ _ Ha). pose proof (hex_bound _ _ Hb). pose proof (hex_bound _ _ Hd). pose proof (hex_bound _ _ Hf).
      replace (Z.of_nat a' * 4096 + Z.of_nat b' * 256 + Z.of_nat d' * 16 + Z.of_nat f')%Z with (Z.of_nat (((a' * 16 + b') * 16 + d') * 16 + f')) in H by lia.
      destruct (utf8 _) as [bytes|] eqn:U; [|discriminate]. apply prepend_some in H. destruct H as (t & R & ->). apply IH in R; [|lia]. destruct R as (u & Sp & ->).
      apply utf8_sound in U; [|lia]. exists (char 92 :: "u"%char :: p :: q :: w :: v :: u). split; [econstructor; eassumption|reflexivity].
    + destruct (short_escape e) as [b|] eqn:Es; [|discriminate]. apply prepend_some in H. destruct H as (t & R & ->). apply IH in R; [|lia]. destruct R as (u & Sp & ->).
      exists (char 92 :: e :: u). split; [|reflexivity]. apply (SpeltShort e b t u (escape_sound e b Es) Sp).
  - destruct (nat_of_ascii c <? 32) eqn:B; [discriminate|]. apply prepend_some in H. destruct H as (t & R & ->). apply IH in R; [|lia]. destruct R as (u & Sp & ->).
    exists (c :: u). split; [|reflexivity]. apply Nat.ltb_ge in B. constructor; [exact B| | |exact Sp]; intros ->; [discriminate C34|discriminate C92].
Qed.
Lemma string_sound s x r : read_chars s = Some (x, r) -> exists t, quoted x t /\ char 34 :: s = t ++ r.
Proof.
  intros H. apply (chars_sound (List.length s)) in H; [|lia]. destruct H as (u & Sp & ->). exists (char 34 :: u ++ [char 34]). split; [exists u; auto|]. cbn [app]. rewrite <- app_assoc. reflexivity.
Qed.

(** ** Numbers *)
Lemma take_sound s : forall d r, take_digits s = (d, r) -> Forall decimal_digit d /\ s = d ++ r.
Proof.
  induction s as [|c s IH]; intros d r H; cbn [take_digits] in H; [injection H as <- <-; split; constructor|]. destruct (is_digit c) eqn:C.
  - destruct (take_digits s) as [d' r'] eqn:T. injection H as <- <-. destruct (IH d' r' eq_refl) as [D ->]. split; [constructor; [apply digit_spec, C|exact D]|reflexivity].
  - injection H as <- <-. split; [constructor|reflexivity].
Qed.
Lemma fraction_sound s f r : read_fraction s = Some (f, r) -> Forall decimal_digit f /\ s = match f with [] => [] | _ => lit "." ++ f end ++ r.
Proof.
  destruct s as [|c s]; cbn [read_fraction]; [intros H; injection H as <- <-; split; constructor|]. destruct (is_char 46 c) eqn:C.
  - apply is_char_is in C; [|lia]. subst c. destruct (take_digits s) as [d u] eqn:T. apply take_sound in T. destruct T as [D ->]. destruct d as [|c d]; [discriminate|].
    intros H. injection H as <- <-. split; [exact D|reflexivity].
  - intros H. injection H as <- <-. split; [constructor|reflexivity].
Qed.
Lemma exponent_sound s e r : read_exponent s = Some (e, r) -> exists t, exponent_text t e /\ s = t ++ r.
Proof.
  destruct s as [|c s]; cbn [read_exponent]; [intros H; injection H as <- <-; exists []; split; [constructor|reflexivity]|]. destruct (is_char 101 c || is_char 69 c) eqn:C.
  2:{ intros H. injection H as <- <-. exists []. split; [constructor|reflexivity]. }
  assert (In c (lit "eE")) as L by (apply Bool.orb_true_iff in C; rewrite !is_char_true in C by lia; destruct C as [-> | ->]; [left|right; left]; reflexivity).
  assert (exists sign, exponent_sign s = (match sign with Some n => n | None => false end, snd (exponent_sign s)) /\ s = (match sign with Some n => if n : bool then lit "-" else lit "+" | None => [] end) ++ snd (exponent_sign s)) as (sign & E & Es).
  { destruct s as [|x s]; cbn [exponent_sign]; [exists None; split; reflexivity|]. destruct (is_char 45 x) eqn:X; [exists (Some true); apply is_char_is in X; [subst x; split; reflexivity|lia]|].
    destruct (is_char 43 x) eqn:X'; [exists (Some false); apply is_char_is in X'; [subst x; split; reflexivity|lia]|]. exists None. split; reflexivity. }
  rewrite E. destruct (take_digits (snd (exponent_sign s))) as [d u] eqn:T. apply take_sound in T. destruct T as [D T]. rewrite T in Es. destruct d as [|x d]; [discriminate|]. intros H. injection H as He <-.
  pose proof (Exponent c sign (x :: d) L ltac:(discriminate) D) as Ex. eexists. split; [|rewrite Es].
  - rewrite number_decimal in He. replace e with (match sign with Some true => (- decimal (x :: d))%Z | _ => decimal (x :: d) end); [exact Ex|]. destruct sign as [[|]|]; exact He.
  - cbn [app]. rewrite <- !app_assoc. reflexivity.
Qed.
Lemma number_sound s x r : read_number s = Some (x, r) -> exists t, json_number t x /\ s = t ++ r.
Proof.
  unfold read_number. assert (exists neg, signed s = (neg, snd (signed s)) /\ s = (if neg : bool then lit "-" else []) ++ snd (signed s)) as (neg & E & Es).
  { destruct s as [|c s]; cbn [signed]; [exists false; split; reflexivity|]. destruct (ascii_dec c "-"%char) as [->|_]; [exists true|exists false]; split; reflexivity. }
  rewrite E. destruct (take_digits (snd (signed s))) as [w u] eqn:T. apply take_sound in T. destruct T as [D T]. destruct (plain_whole w) eqn:P; [|discriminate].
  destruct (read_fraction u) as [[f v]|] eqn:F; [|discriminate]. apply fraction_sound in F. destruct F as [Df F]. destruct (read_exponent v) as [[e q]|] eqn:X; [|discriminate]. apply exponent_sound in X. destruct X as (ex & X & Ev).
  intros H. injection H as <- <-. rewrite number_decimal. assert (exists c t, w = c :: t /\ (c = "0"%char -> t = [])) as W.
  { destruct w as [|c [|c' w]]; [discriminate| |]; [exists c, []; auto|]. exists c, (c' :: w). split; [reflexivity|]. intros ->. discriminate P. }
  eexists. split; [apply (JsonNumber neg w f ex e); [apply Forall_app; auto|exact W|exact X]|]. rewrite Es, T, F, Ev, <- !app_assoc. reflexivity.
Qed.

(** ** Values *)
Lemma after_sound k : forall s r, after k s = Some r -> s = k ++ r.
Proof.
  induction k as [|a k IH]; intros s r H; [injection H as <-; reflexivity|]. destruct s as [|b s]; [discriminate|]. cbn [after] in H. destruct (ascii_dec a b) as [->|]; [|discriminate]. cbn [app]. rewrite (IH _ _ H) at 1. reflexivity.
Qed.
Definition value_sound (value : str -> option (json * str)) : Prop := forall s j r, value s = Some (j, r) -> exists a t, blanks a /\ json_text j t /\ s = a ++ t ++ r.
Lemma items_sound value : value_sound value -> forall n s l r, read_items value n s = Some (l, r) -> exists t, items_text l t /\ s = t ++ lit "]" ++ r.
Proof.
  intros V. induction n as [|n IH]; intros s l r H; [discriminate|]. cbn [read_items] in H. destruct (value s) as [[j u]|] eqn:E; [|discriminate]. apply V in E. destruct E as (a & t & A & T & ->).
  destruct (skip_split u) as (b & B & Eu). destruct (skip u) as [|c v]; [discriminate|]. destruct (is_char 44 c) eqn:C.
  - apply is_char_is in C; [|lia]. subst c. destruct (read_items value n v) as [[l' w]|] eqn:R; [|discriminate]. injection H as <- <-. apply IH in R. destruct R as (q & Q & ->).
    exists (a ++ t ++ b ++ lit "," ++ q). split; [constructor; assumption|]. rewrite Eu, <- !app_assoc. reflexivity.
  - destruct (is_char 93 c) eqn:C'; [|discriminate]. apply is_char_is in C'; [|lia]. subst c. injection H as <- <-. exists (a ++ t ++ b). split; [constructor; assumption|]. rewrite Eu, <- !app_assoc. reflexivity.
Qed.
Lemma member_sound value : value_sound value -> forall s k j r, read_member value s = Some ((k, j), r) ->
  exists a kt b c t, blanks a /\ quoted k kt /\ blanks b /\ blanks c /\ json_text j t /\ s = a ++ kt ++ b ++ lit ":" ++ c ++ t ++ r.
Proof.
  intros V s k j r. unfold read_member. destruct (skip_split s) as (a & A & Es). destruct (skip s) as [|c s']; [discriminate|]. destruct (is_char 34 c) eqn:C; [|discriminate]. apply is_char_is in C; [|lia]. subst c.
  destruct (read_chars s') as [[k' u]|] eqn:K; [|discriminate]. apply string_sound in K. destruct K as (kt & Q & K). destruct (skip_split u) as (b & B & Eu). destruct (skip u) as [|c v]; [discriminate|].
  destruct (is_char 58 c) eqn:C; [|discriminate]. apply is_char_is in C; [|lia]. subst c. destruct (value v) as [[j' w]|] eqn:E; [|discriminate]. apply V in E. destruct E as (c & t & Bc & T & ->).
  intros H. injection H as <- <- <-. exists a, kt, b, c, t. do 5 (split; [assumption|]). rewrite Es, K, Eu. reflexivity.
Qed.
Lemma members_sound value : value_sound value -> forall n s l r, read_members value n s = Some (l, r) -> exists t, members_text l t /\ s = t ++ lit "}" ++ r.
Proof.
  intros V. induction n as [|n IH]; intros s l r H; [discriminate|]. cbn [read_members] in H. destruct (read_member value s) as [[[k j] u]|] eqn:E; [|discriminate].
  apply (member_sound value V) in E. destruct E as (a & kt & b & c & t & A & K & B & C & T & ->).
  destruct (skip_split u) as (d & D & Eu). destruct (skip u) as [|x v]; [discriminate|]. destruct (is_char 44 x) eqn:X.
  - apply is_char_is in X; [|lia]. subst x. destruct (read_members value n v) as [[l' w]|] eqn:R; [|discriminate]. injection H as <- <-. apply IH in R. destruct R as (q & Q & ->).
    eexists. split; [apply (MoreMembers k kt j t a b c d l' q); assumption|]. rewrite Eu, <- !app_assoc. reflexivity.
  - destruct (is_char 125 x) eqn:X'; [|discriminate]. apply is_char_is in X'; [|lia]. subst x. injection H as <- <-. eexists. split; [apply (LastMember k kt j t a b c d); assumption|]. rewrite Eu, <- !app_assoc. reflexivity.
Qed.
Lemma value_is_sound : forall n, value_sound (read_value n).
Proof.
  induction n as [|n IH]; intros s j r H; [discriminate|]. cbn [read_value] in H. destruct (skip_split s) as (a & A & Es). destruct (skip s) as [|c t]; [discriminate|].
  exists a. cut (exists t0, json_text j t0 /\ c :: t = t0 ++ r). { intros (t0 & T & E). exists t0. rewrite <- E. auto. }
  destruct (is_char 123 c) eqn:C1.
  { apply is_char_is in C1; [|lia]. subst c. destruct (skip_split t) as (b & B & Et). destruct (skip t) as [|c' u] eqn:Sk; [discriminate|]. destruct (is_char 125 c') eqn:C'.
    - apply is_char_is in C'; [|lia]. subst c'. injection H as <- <-. eexists. split; [apply TextNoMembers, B|]. rewrite Et, <- !app_assoc. reflexivity.
    - destruct (read_members (read_value n) (List.length s) t) as [[l v]|] eqn:M; [|discriminate]. injection H as <- <-. apply (members_sound _ IH) in M. destruct M as (q & Q & Eq).
      eexists. split; [apply TextMembers, Q|]. rewrite Eq, <- !app_assoc. reflexivity. }
  destruct (is_char 91 c) eqn:C2.
  { apply is_char_is in C2; [|lia]. subst c. destruct (skip_split t) as (b & B & Et). destruct (skip t) as [|c' u] eqn:Sk; [discriminate|]. destruct (is_char 93 c') eqn:C'.
    - apply is_char_is in C'; [|lia]. subst c'. injection H as <- <-. eexists. split; [apply TextNoItems, B|]. rewrite Et, <- !app_assoc. reflexivity.
    - destruct (read_items (read_value n) (List.length s) t) as [[l v]|] eqn:M; [|discriminate]. injection H as <- <-. apply (items_sound _ IH) in M. destruct M as (q & Q & Eq).
      eexists. split; [apply TextItems, Q|]. rewrite Eq, <- !app_assoc. reflexivity. }
  destruct (is_char 34 c) eqn:C3.
  { apply is_char_is in C3; [|lia]. subst c. destruct (read_chars t) as [[x u]|] eqn:K; [|discriminate]. injection H as <- <-. apply string_sound in K. destruct K as (q & Q & K). exists q. split; [constructor; exact Q|exact K]. }
  destruct (is_char 116 c) eqn:C4.
  { apply is_char_is in C4; [|lia]. subst c. destruct (after (lit "rue") t) as [u|] eqn:K; [|discriminate]. injection H as <- <-. apply after_sound in K. eexists. split; [apply (TextBool true)|]. rewrite K. reflexivity. }
  destruct (is_char 102 c) eqn:C5.
  { apply is_char_is in C5; [|lia]. subst c. destruct (after (lit "alse") t) as [u|] eqn:K; [|discriminate]. injection H as <- <-. apply after_sound in K. eexists. split; [apply (TextBool false)|]. rewrite K. reflexivity. }
  destruct (read_number (c :: t)) as [[x u]|] eqn:K; [|discriminate]. injection H as <- <-. apply number_sound in K. destruct K as (q & Q & K). exists q. split; [constructor; exact Q|exact K].
Qed.
Lemma read_document s j : parse_json s = Some j <-> json_document j s.
Proof.
  split; [|apply document_read]. unfold parse_json. destruct (read_value _ s) as [[j' r]|] eqn:E; [|discriminate]. apply value_is_sound in E. destruct E as (a & t & A & T & ->).
  destruct (skip_split r) as (b & B & Er). destruct (skip r); [|discriminate]. intros H. injection H as <-. exists a, t, b. rewrite app_nil_r in Er. subst r. auto.
Qed.

(** ** The numbers of a text *)
Lemma json_nested (P : json -> Prop) : (forall b, P (JBool b)) -> (forall x, P (JNum x)) -> (forall s, P (JStr s)) -> (forall l, Forall P l -> P (JList l)) ->
  (forall l, Forall (fun m => P (snd m)) l -> P (JDict l)) -> forall j, P j.
Proof.
  intros B X S L D. fix IH 1. intros [b|x|s|l|l]; [apply B|apply X|apply S| |].
  - apply L. induction l as [|j l Hl]; constructor; [apply IH|exact Hl].
  - apply D. induction l as [|[k j] l Hl]; constructor; [apply IH|exact Hl].
Qed.
