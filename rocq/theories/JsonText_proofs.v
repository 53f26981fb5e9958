(** JsonText_proofs.v - texts of JSON are read as the values they stand for (property C96). *)
From Coq Require Import SpecFloat Reals Lia ZArith.
From Verif Require Import Base Base_proofs F32 Num Strings Forest Driver Stopwatch Print PrintSpec Print_proofs Draw Saved JsonText JsonSpec.
Local Close Scope R_scope.

Scheme json_text_mut := Induction for json_text Sort Prop
with items_text_mut := Induction for items_text Sort Prop
with members_text_mut := Induction for members_text Sort Prop.
Combined Scheme json_text_all from json_text_mut, items_text_mut, members_text_mut.

(** ** Characters *)
Lemma is_char_true n c : n < 256 -> is_char n c = true <-> c = char n.
Proof.
  intros B. unfold is_char, char. rewrite Nat.eqb_eq. split.
  - intros <-. symmetry. apply ascii_nat_embedding.
  - intros ->. apply nat_ascii_embedding. exact B.
Qed.
Lemma is_char_false n c : n < 256 -> c <> char n -> is_char n c = false.
Proof. intros B H. destruct (is_char n c) eqn:E; [|reflexivity]. apply is_char_true in E; [contradiction|exact B]. Qed.
Lemma blank_spec c : In c (map char [32; 9; 10; 13]) -> is_blank c = true.
Proof. cbn [map In]. intros [<-|[<-|[<-|[<-|[]]]]]; reflexivity. Qed.
Lemma skip_blanks a : forall s, blanks a -> skip (a ++ s) = skip s.
Proof. induction a as [|c a IH]; intros s H; [reflexivity|]. inversion H as [|? ? C A]; subst. unfold skip in *. cbn. rewrite (blank_spec c C). apply IH, A. Qed.
Lemma skip_all a : blanks a -> skip a = [].
Proof. intros H. rewrite <- (app_nil_r a), skip_blanks by exact H. reflexivity. Qed.
Lemma skip_stop c s : is_blank c = false -> skip (c :: s) = c :: s.
Proof. intros H. unfold skip. cbn. rewrite H. reflexivity. Qed.

(** ** Strings *)
Lemma hex_ok c z : hex_digit c z -> hex_value c = Some (Z.of_nat z) /\ z < 16.
Proof. intros [H|H]; (do 16 (destruct z as [|z]; [injection H as <-; split; [reflexivity|lia]|]); destruct z; discriminate H). Qed.
Lemma byte_char n : byte (Z.of_nat n) = char n.
Proof. unfold byte, char. rewrite Nat2Z.id. reflexivity. Qed.
Lemma utf8_ok u bytes : utf8_bytes u bytes -> utf8 (Z.of_nat u) = Some bytes.
Proof.
  intros [n H|a b H B|a b c A B C H S]; unfold utf8.
  - rewrite (proj2 (Z.ltb_lt _ _)) by lia. rewrite byte_char. reflexivity.
  - rewrite (proj2 (Z.ltb_ge _ _)), (proj2 (Z.ltb_lt _ _)) by lia.
    replace (Z.of_nat (a * 64 + b) / 64)%Z with (Z.of_nat a) by (apply Z.div_unique with (Z.of_nat b); lia).
    replace (Z.of_nat (a * 64 + b) mod 64)%Z with (Z.of_nat b) by (apply Z.mod_unique with (Z.of_nat a); lia).
    replace (192 + Z.of_nat a)%Z with (Z.of_nat (192 + a)) by lia. replace (128 + Z.of_nat b)%Z with (Z.of_nat (128 + b)) by lia. rewrite !byte_char. reflexivity.
  - rewrite !(proj2 (Z.ltb_ge _ _)) by lia.
    replace (((55296 <=? Z.of_nat (a * 4096 + b * 64 + c)) && (Z.of_nat (a * 4096 + b * 64 + c) <=? 57343))%Z) with false
      by (symmetry; apply andb_false_iff; rewrite !Z.leb_gt; lia).
    replace (Z.of_nat (a * 4096 + b * 64 + c) / 4096)%Z with (Z.of_nat a) by (apply Z.div_unique with (Z.of_nat (b * 64 + c)); lia).
    replace (Z.of_nat (a * 4096 + b * 64 + c) / 64)%Z with (Z.of_nat (a * 64 + b)) by (apply Z.div_unique with (Z.of_nat c); lia).
    replace (Z.of_nat (a * 64 + b) mod 64)%Z with (Z.of_nat b) by (apply Z.mod_unique with (Z.of_nat a); lia).
    replace (Z.of_nat (a * 4096 + b * 64 + c) mod 64)%Z with (Z.of_nat c) by (apply Z.mod_unique with (Z.of_nat (a * 64 + b)); lia).
    replace (224 + Z.of_nat a)%Z with (Z.of_nat (224 + a)) by lia. replace (128 + Z.of_nat b)%Z with (Z.of_nat (128 + b)) by lia. replace (128 + Z.of_nat c)%Z with (Z.of_nat (128 + c)) by lia.
    rewrite !byte_char. reflexivity.
Qed.
Lemma escape_ok e c : In (e, c) escapes -> short_escape e = Some c /\ is_char 117 e = false.
Proof. intros H. repeat (destruct H as [H|H]; [injection H as <- <-; split; reflexivity|]). destruct H. Qed.
Lemma chars_ok s t : spelt s t -> forall r, read_chars (t ++ char 34 :: r) = Some (s, r).
Proof.
  induction 1 as [|c s t G Q B _ IH|e c s t I _ IH|p q x w a b c d bytes s t P Q X W U _ IH]; intros r.
  - reflexivity.
  - cbn [app read_chars]. rewrite (is_char_false 34 c), (is_char_false 92 c) by (lia || assumption). rewrite (proj2 (Nat.ltb_ge _ _) G), IH. reflexivity.
  - destruct (escape_ok e c I) as [E U]. cbn [app read_chars]. change (is_char 34 (char 92)) with false. change (is_char 92 (char 92)) with true. cbv iota. rewrite U, E, IH. reflexivity.
  - cbn [app read_chars]. change (is_char 34 (char 92)) with false. change (is_char 92 (char 92)) with true. change (is_char 117 "u"%char) with true. cbv iota.
    destruct (hex_ok p a P) as [Pa _], (hex_ok q b Q) as [Qb _], (hex_ok x c X) as [Xc _], (hex_ok w d W) as [Wd _]. unfold unit16. rewrite Pa, Qb, Xc, Wd. cbn [obind].
    replace (Z.of_nat a * 4096 + Z.of_nat b * 256 + Z.of_nat c * 16 + Z.of_nat d)%Z with (Z.of_nat (((a * 16 + b) * 16 + c) * 16 + d)) by lia.
    rewrite (utf8_ok _ _ U), IH. reflexivity.
Qed.
Lemma quoted_ok s t : quoted s t -> forall r, exists u, t ++ r = char 34 :: u /\ read_chars u = Some (s, r).
Proof. intros (u & S & ->) r. exists (u ++ char 34 :: r). split; [cbn [app]; rewrite <- app_assoc; reflexivity|]. apply chars_ok, S. Qed.

(** ** Numbers *)
(** What comes after a value *)
Definition ends (r : str) : Prop := match r with [] => True | c :: _ => In c (map char [32; 9; 10; 13; 44; 93; 125]) end.
Lemma ends_blanks b r : blanks b -> ends r -> ends (b ++ r).
Proof. destruct b as [|c b]; intros B R; [exact R|]. inversion B as [|? ? C _]; subst. cbn [app ends]. cbn [map In] in *. tauto. Qed.
Lemma ends_not r : ends r -> match r with [] => True | c :: _ => is_digit c = false /\ is_char 46 c = false /\ is_char 101 c = false /\ is_char 69 c = false end.
Proof. destruct r as [|c r]; [trivial|]. intros H. cbn [ends map In] in H. repeat (destruct H as [<-|H]; [repeat split; reflexivity|]). destruct H. Qed.
Lemma fraction_ok' f r : Forall decimal_digit f -> match r with [] => True | c :: _ => is_digit c = false /\ is_char 46 c = false end ->
  read_fraction (match f with [] => [] | _ => lit "." ++ f end ++ r) = Some (f, r).
Proof.
  intros F R. destruct f as [|c f].
  - cbn [app]. destruct r as [|x r]; [reflexivity|]. destruct R as [_ R]. cbn [read_fraction]. rewrite R. reflexivity.
  - change ((lit "." ++ c :: f) ++ r) with ("."%char :: ((c :: f) ++ r)). cbn [read_fraction]. change (is_char 46 ".") with true. cbv iota. rewrite take_all; [reflexivity|exact F|].
    destruct r as [|x r]; [exact I|apply R].
Qed.
Lemma exponent_ok' t e r : exponent_text t e -> ends r -> read_exponent (t ++ r) = Some (e, r).
Proof.
  intros T R. apply ends_not in R. destruct T as [|letter sign d L Nd D].
  - cbn [app]. destruct r as [|x r]; [reflexivity|]. destruct R as (_ & _ & R1 & R2). cbn [read_exponent]. rewrite R1, R2. reflexivity.
  - rewrite <- app_comm_cons. cbn [read_exponent].
    assert (is_char 101 letter || is_char 69 letter = true) as -> by (cbn in L; destruct L as [<-|[<-|[]]]; reflexivity).
    assert (take_digits (d ++ r) = (d, r)) as Td by (apply take_all; [exact D|destruct r as [|x r]; [exact I|apply R]]).
    assert (exponent_sign ((match sign with Some n => if n then lit "-" else lit "+" | None => [] end ++ d) ++ r) = (match sign with Some n => n | None => false end, d ++ r)) as ->.
    { destruct sign as [[|]|]; [reflexivity|reflexivity|]. cbn [app]. destruct d as [|c d]; [congruence|]. inversion D as [|? ? C _]; subst. apply digit_spec in C. cbn [app exponent_sign].
      destruct (is_char 45 c) eqn:E; [apply is_char_true in E; [subst c; discriminate C|lia]|]. destruct (is_char 43 c) eqn:E'; [apply is_char_true in E'; [subst c; discriminate C|lia]|]. reflexivity. }
    rewrite Td. destruct d as [|c d]; [congruence|]. rewrite number_decimal. destruct sign as [[|]|]; reflexivity.
Qed.
Lemma number_ok t x r : json_number t x -> ends r -> read_number (t ++ r) = Some (x, r).
Proof.
  intros [neg whole f ex e D (c & w & -> & Z) X] R. apply Forall_app in D. destruct D as [Dw Df].
  assert (forall u, signed ((if neg then lit "-" else []) ++ (c :: w) ++ u) = (neg, (c :: w) ++ u)) as S.
  { intros u. destruct neg; [reflexivity|]. inversion Dw as [|? ? Dc _]; subst. apply digit_spec in Dc. cbn [app signed]. destruct (ascii_dec c "-"%char) as [->|_]; [discriminate Dc|reflexivity]. }
  unfold read_number. rewrite <- !app_assoc, S.
  assert (match ex ++ r with [] => True | c :: _ => is_digit c = false /\ is_char 46 c = false end) as F1.
  { destruct X as [|letter sign d L _ _]; [apply ends_not in R; cbn [app]; destruct r; [exact I|tauto]|]. cbn in L. destruct L as [<-|[<-|[]]]; split; reflexivity. }
  rewrite take_all; [|exact Dw|].
  - assert (plain_whole (c :: w) = true) as ->.
    { destruct w as [|c' w]; [reflexivity|]. cbn [plain_whole]. rewrite is_char_false; [reflexivity|lia|]. intros ->. discriminate (Z eq_refl). }
    rewrite fraction_ok' by assumption. rewrite (exponent_ok' ex e r X R), number_decimal. reflexivity.
  - destruct f; [cbn [app]; destruct (ex ++ r); [exact I|tauto]|reflexivity].
Qed.

(** ** Values *)
(** The first character of a value *)
Definition starts (t : str) : Prop := exists c u, t = c :: u /\ is_blank c = false /\ is_char 93 c = false /\ is_char 125 c = false.
Lemma number_starts t x : json_number t x -> exists c u, t = c :: u /\ (is_digit c = true \/ c = "-"%char).
Proof.
  intros [neg whole f ex e D (c & w & -> & Z) X]. destruct neg; [eexists _, _; split; [reflexivity|right; reflexivity]|]. eexists c, _. split; [reflexivity|]. left. inversion D; subst. apply digit_spec. assumption.
Qed.
Lemma digit_char_not c n : is_digit c = true \/ c = "-"%char -> n < 256 -> is_digit (char n) = false -> n <> 45 -> is_char n c = false.
Proof.
  intros H B D N. apply is_char_false; [exact B|]. intros ->. destruct H as [H|H]; [congruence|]. apply (f_equal nat_of_ascii) in H. unfold char in H. rewrite nat_ascii_embedding in H by exact B. cbn in H. lia.
Qed.
Lemma text_starts j t : json_text j t -> starts t.
Proof.
  intros [b|x t' H|s t' (u & _ & ->)|w _|l t' _|w _|l t' _].
  - destruct b; eexists _, _; (split; [reflexivity|]); repeat split; reflexivity.
  - destruct (number_starts t' x H) as (c & u & -> & D). exists c, u. split; [reflexivity|]. unfold is_blank.
    rewrite !(digit_char_not c) by (assumption || lia || reflexivity). repeat split; reflexivity.
  - eexists _, _. split; [reflexivity|]. repeat split; reflexivity.
  - eexists _, _. split; [reflexivity|]. repeat split; reflexivity.
  - eexists _, _. split; [reflexivity|]. repeat split; reflexivity.
  - eexists _, _. split; [reflexivity|]. repeat split; reflexivity.
  - eexists _, _. split; [reflexivity|]. repeat split; reflexivity.
Qed.
Lemma items_starts l u : items_text l u -> exists a t, u = a ++ t /\ blanks a /\ starts t.
Proof.
  intros [j t a b T A B|j t a b l' u' T A B _]; apply text_starts in T; destruct T as (c & v & -> & S); (eexists a, _; split; [reflexivity|]); (split; [exact A|]);
    eexists c, _; (split; [reflexivity|exact S]).
Qed.
Lemma members_starts l u : members_text l u -> exists a t, u = a ++ t /\ blanks a /\ starts t.
Proof.
  intros [k kt j t a b c d (q & _ & ->) T A B C D|k kt j t a b c d l' u' (q & _ & ->) T A B C D _]; (eexists a, _; split; [reflexivity|]); (split; [exact A|]);
    eexists _, _; (split; [reflexivity|]); repeat split; reflexivity.
Qed.
Lemma starts_skip t r : starts t -> skip (t ++ r) = t ++ r.
Proof. intros (c & u & -> & B & _). apply skip_stop, B. Qed.
Lemma read_all :
  (forall j t, json_text j t -> forall n a r, blanks a -> ends r -> List.length t <= n -> read_value n (a ++ t ++ r) = Some (j, r)) /\
  (forall l u, items_text l u -> forall n m r, List.length u <= n -> List.length u <= m -> read_items (read_value n) m (u ++ lit "]" ++ r) = Some (l, r)) /\
  (forall l u, members_text l u -> forall n m r, List.length u <= n -> List.length u <= m -> read_members (read_value n) m (u ++ lit "}" ++ r) = Some (l, r)).
Proof.
  assert (forall c r, In c (map char [44; 93; 125]) -> ends (c :: r)) as Stop by (intros c r; cbn; tauto).
  apply json_text_all.
  - intros b n a r A R L. destruct n as [|n]; [destruct b; cbn in L; lia|]. cbn [read_value]. rewrite skip_blanks by exact A. destruct b; reflexivity.
  - intros x t H n a r A R L. destruct (number_starts t x H) as (c & u & E & D). destruct n as [|n]; [rewrite E in L; cbn in L; lia|]. cbn [read_value].
    rewrite skip_blanks, (starts_skip t r (text_starts _ _ (TextNumber x t H))) by exact A. pose proof (number_ok t x r H R) as K. rewrite E in *. cbn [app] in *.
    rewrite !(digit_char_not c) by (assumption || lia || reflexivity). rewrite K. reflexivity.
  - intros s t H n a r A R L. destruct (quoted_ok s t H r) as (u & E & K). destruct n as [|n]; [destruct H as (v & _ & ->); cbn in L; lia|]. cbn [read_value].
    rewrite skip_blanks, E by exact A. change (skip (char 34 :: u)) with (char 34 :: u). cbv iota. change (is_char 123 (char 34)) with false. change (is_char 91 (char 34)) with false.
    change (is_char 34 (char 34)) with true. cbv iota. rewrite K. reflexivity.
  - intros w W n a r A R L. destruct n as [|n]; [cbn in L; lia|]. cbn [read_value]. rewrite skip_blanks by exact A. rewrite <- !app_assoc.
    change (lit "[" ++ w ++ lit "]" ++ r) with ("["%char :: (w ++ "]"%char :: r)). rewrite skip_stop by reflexivity. cbv iota.
    change (is_char 123 "[") with false. change (is_char 91 "[") with true. cbv iota. rewrite skip_blanks, skip_stop by (exact W || reflexivity). reflexivity.
  - intros l u U IH n a r A R L. destruct n as [|n]; [cbn in L; lia|]. cbn [read_value]. rewrite skip_blanks by exact A. rewrite <- !app_assoc.
    change (lit "[" ++ u ++ lit "]" ++ r) with ("["%char :: (u ++ lit "]" ++ r)). rewrite skip_stop by reflexivity. cbv iota.
    change (is_char 123 "[") with false. change (is_char 91 "[") with true. cbv iota.
    change (lit "[" ++ u ++ lit "]") with ("["%char :: (u ++ lit "]")) in L. cbn [List.length] in L. rewrite app_length in L. cbn [List.length lit] in L.
    rewrite IH; [|lia|rewrite app_length; cbn [List.length]; rewrite app_length; lia].
    destruct (items_starts l u U) as (b & t & -> & B & S). rewrite <- app_assoc, skip_blanks, starts_skip by assumption. destruct S as (c & v & -> & _ & S & _). cbn [app]. rewrite S. reflexivity.
  - intros w W n a r A R L. destruct n as [|n]; [cbn in L; lia|]. cbn [read_value]. rewrite skip_blanks by exact A. rewrite <- !app_assoc.
    change (lit "{" ++ w ++ lit "}" ++ r) with ("{"%char :: (w ++ "}"%char :: r)). rewrite skip_stop by reflexivity. cbv iota.
    change (is_char 123 "{") with true. cbv iota. rewrite skip_blanks, skip_stop by (exact W || reflexivity). reflexivity.
  - intros l u U IH n a r A R L. destruct n as [|n]; [cbn in L; lia|]. cbn [read_value]. rewrite skip_blanks by exact A. rewrite <- !app_assoc.
    change (lit "{" ++ u ++ lit "}" ++ r) with ("{"%char :: (u ++ lit "}" ++ r)). rewrite skip_stop by reflexivity. cbv iota. change (is_char 123 "{") with true. cbv iota.
    change (lit "{" ++ u ++ lit "}") with ("{"%char :: (u ++ lit "}")) in L. cbn [List.length] in L. rewrite app_length in L. cbn [List.length lit] in L.
    rewrite IH; [|lia|rewrite app_length; cbn [List.length]; rewrite app_length; lia].
    destruct (members_starts l u U) as (b & t & -> & B & S). rewrite <- app_assoc, skip_blanks, starts_skip by assumption. destruct S as (c & v & -> & _ & _ & S). cbn [app]. rewrite S. reflexivity.
  - intros j t a b T IH A B n m r L M. rewrite !app_length in L, M. destruct (text_starts j t T) as (c & v & E & _). destruct m as [|m]; [rewrite E in M; cbn in M; lia|].
    cbn [read_items]. rewrite <- !app_assoc, IH; [|exact A|apply ends_blanks; [exact B|apply Stop; cbn; tauto]|lia]. rewrite skip_blanks by exact B. reflexivity.
  - intros j t a b l u T IH A B U IHu n m r L M. rewrite !app_length in L, M. cbn [lit List.length] in L, M. destruct m as [|m]; [cbn in M; lia|].
    cbn [read_items]. rewrite <- !app_assoc, IH; [|exact A|apply ends_blanks; [exact B|apply Stop; cbn; tauto]|lia]. rewrite skip_blanks by exact B.
    change (skip (lit "," ++ u ++ lit "]" ++ r)) with (","%char :: (u ++ lit "]" ++ r)). cbv iota. change (is_char 44 ",") with true. cbv iota. rewrite IHu; [reflexivity|lia|]. cbn in M. lia.
  - intros k kt j t a b c d K T IH A B C D n m r L M. rewrite !app_length in L, M. cbn [lit List.length] in L, M. destruct m as [|m]; [cbn in M; lia|].
    cbn [read_members]. unfold read_member. rewrite <- !app_assoc. rewrite skip_blanks by exact A.
    destruct (quoted_ok k kt K (b ++ lit ":" ++ c ++ t ++ d ++ lit "}" ++ r)) as (v & -> & Kr). change (skip (char 34 :: v)) with (char 34 :: v). cbv iota. change (is_char 34 (char 34)) with true. cbv iota. rewrite Kr.
    rewrite skip_blanks by exact B. change (skip (lit ":" ++ c ++ t ++ d ++ lit "}" ++ r)) with (":"%char :: (c ++ t ++ d ++ lit "}" ++ r)). cbv iota. change (is_char 58 ":") with true. cbv iota.
    rewrite IH; [|exact C|apply ends_blanks; [exact D|apply Stop; cbn; tauto]|lia]. rewrite skip_blanks by exact D. reflexivity.
  - intros k kt j t a b c d l u K T IH A B C D U IHu n m r L M. rewrite !app_length in L, M. cbn [lit List.length] in L, M. destruct m as [|m]; [cbn in M; lia|].
    cbn [read_members]. unfold read_member. rewrite <- !app_assoc. rewrite skip_blanks by exact A.
    destruct (quoted_ok k kt K (b ++ lit ":" ++ c ++ t ++ d ++ lit "," ++ u ++ lit "}" ++ r)) as (v & -> & Kr). change (skip (char 34 :: v)) with (char 34 :: v). cbv iota. change (is_char 34 (char 34)) with true. cbv iota. rewrite Kr.
    rewrite skip_blanks by exact B. change (skip (lit ":" ++ c ++ t ++ d ++ lit "," ++ u ++ lit "}" ++ r)) with (":"%char :: (c ++ t ++ d ++ lit "," ++ u ++ lit "}" ++ r)). cbv iota. change (is_char 58 ":") with true. cbv iota.
    rewrite IH; [|exact C|apply ends_blanks; [exact D|apply Stop; cbn; tauto]|lia]. rewrite skip_blanks by exact D.
    change (skip (lit "," ++ u ++ lit "}" ++ r)) with (","%char :: (u ++ lit "}" ++ r)). cbv iota. change (is_char 44 ",") with true. cbv iota. rewrite IHu; [reflexivity|lia|]. cbn in M. lia.
Qed.
Lemma document_read j s : json_document j s -> parse_json s = Some j.
Proof.
  intros (a & t & b & A & T & B & ->). unfold parse_json. rewrite (proj1 read_all j t T); [|exact A| |rewrite !app_length; lia].
  - rewrite skip_all by exact B. reflexivity.
  - rewrite <- (app_nil_r b). apply ends_blanks; [exact B|exact I].
Qed.
