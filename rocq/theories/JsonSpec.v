(** JsonSpec.v - the grammar of JSON texts (RFC 8259, without null). *)
From Coq Require Import SpecFloat.
From Verif Require Import Base F32 Num PrintSpec Print Draw.

Definition char (n : nat) : ascii := ascii_of_nat n.
(** Space, tabulator, line feed, carriage return *)
Definition blanks (s : str) : Prop := Forall (fun c => In c (map char [32; 9; 10; 13])) s.

(** ** Strings *)
(** The bytes of a code point in UTF-8; pairs of surrogates are left out. *)
Inductive utf8_bytes : nat -> str -> Prop :=
| OneByte u : u < 128 -> utf8_bytes u [char u]
| TwoBytes a b : 2 <= a < 32 -> b < 64 -> utf8_bytes (a * 64 + b) [char (192 + a); char (128 + b)]
| ThreeBytes a b c : a < 16 -> b < 64 -> c < 64 -> 32 <= a * 64 + b -> ~ (a = 13 /\ 32 <= b) -> utf8_bytes (a * 4096 + b * 64 + c) [char (224 + a); char (128 + b); char (128 + c)].
Definition hex_digit (c : ascii) (z : nat) : Prop := nth_error (lit "0123456789abcdef") z = Some c \/ nth_error (lit "0123456789ABCDEF") z = Some c.
(** A backslash and a letter *)
Definition escapes : list (ascii * ascii) :=
  [(char 34, char 34); (char 92, char 92); ("/", "/"); ("b", char 8); ("f", char 12); ("n", char 10); ("r", char 13); ("t", char 9)]%char.
(** The bytes of a string, and its text between the quotes *)
Inductive spelt : str -> str -> Prop :=
| SpeltEnd : spelt [] []
| SpeltPlain c s t : 32 <= nat_of_ascii c -> c <> char 34 -> c <> char 92 -> spelt s t -> spelt (c :: s) (c :: t)
| SpeltShort e c s t : In (e, c) escapes -> spelt s t -> spelt (c :: s) (char 92 :: e :: t)
| SpeltHex p q r w a b c d bytes s t : hex_digit p a -> hex_digit q b -> hex_digit r c -> hex_digit w d -> utf8_bytes (((a * 16 + b) * 16 + c) * 16 + d) bytes ->
    spelt s t -> spelt (bytes ++ s) (char 92 :: "u"%char :: p :: q :: r :: w :: t).
Definition quoted (s t : str) : Prop := exists u, spelt s u /\ t = char 34 :: u ++ [char 34].

(** ** Numbers *)
(** An exponent: e or E, perhaps a sign, digits *)
Inductive exponent_text : str -> Z -> Prop :=
| NoExponent : exponent_text [] 0
| Exponent (letter : ascii) (sign : option bool) d : In letter (lit "eE") -> d <> [] -> Forall decimal_digit d ->
    exponent_text (letter :: (match sign with Some n => if n : bool then lit "-" else lit "+" | None => [] end) ++ d)
      (match sign with Some true => - decimal d | _ => decimal d end).
(** The double closest to the number is read (nearest_double; see C79). *)
Inductive json_number : str -> f64 -> Prop :=
| JsonNumber (neg : bool) whole fraction ex e : Forall decimal_digit (whole ++ fraction) -> (exists c t, whole = c :: t /\ (c = "0"%char -> t = [])) -> exponent_text ex e ->
    json_number ((if neg then lit "-" else []) ++ whole ++ (match fraction with [] => [] | _ => lit "." ++ fraction end) ++ ex)
      (nearest_double neg (decimal (whole ++ fraction)) (e - zlen fraction)).

(** ** Values *)
Inductive json_text : json -> str -> Prop :=
| TextBool (b : bool) : json_text (JBool b) (if b then lit "true" else lit "false")
| TextNumber x t : json_number t x -> json_text (JNum x) t
| TextString s t : quoted s t -> json_text (JStr s) t
| TextNoItems w : blanks w -> json_text (JList []) (lit "[" ++ w ++ lit "]")
| TextItems l t : items_text l t -> json_text (JList l) (lit "[" ++ t ++ lit "]")
| TextNoMembers w : blanks w -> json_text (JDict []) (lit "{" ++ w ++ lit "}")
| TextMembers l t : members_text l t -> json_text (JDict l) (lit "{" ++ t ++ lit "}")
with items_text : list json -> str -> Prop :=
| LastItem j t a b : json_text j t -> blanks a -> blanks b -> items_text [j] (a ++ t ++ b)
| MoreItems j t a b l u : json_text j t -> blanks a -> blanks b -> items_text l u -> items_text (j :: l) (a ++ t ++ b ++ lit "," ++ u)
with members_text : list (str * json) -> str -> Prop :=
| LastMember k kt j t a b c d : quoted k kt -> json_text j t -> blanks a -> blanks b -> blanks c -> blanks d ->
    members_text [(k, j)] (a ++ kt ++ b ++ lit ":" ++ c ++ t ++ d)
| MoreMembers k kt j t a b c d l u : quoted k kt -> json_text j t -> blanks a -> blanks b -> blanks c -> blanks d -> members_text l u ->
    members_text ((k, j) :: l) (a ++ kt ++ b ++ lit ":" ++ c ++ t ++ d ++ lit "," ++ u).
(** A whole text *)
Definition json_document (j : json) (s : str) : Prop := exists a t b, blanks a /\ json_text j t /\ blanks b /\ s = a ++ t ++ b.
