(** JsonText.v - the text of JSON: JsonUtils::ToJson and JsonUtils::FromJson (src/utils/json_utils.cc:49-68), as used for the model files of the command
    line program (src/main.cc:148-154, src/gbdt_algo/utils.cc:195-202) and for the strings of Python (src/python/forest_py.cc:18-32).  Definitions only.
    The library's own code is not in the repository; the model follows its documentation and RFC 8259.
    Simplifications: null is left out, and so are escapes of code points beyond 16 bits (pairs of surrogates); of characters beyond ASCII the library
    writes a few as escapes, here they are kept as they are; texts that RFC 8259 does not allow are refused (the library is more lenient). *)
From Coq Require Import SpecFloat.
From Verif Require Import Base F32 Num Strings Forest Driver Stopwatch Print Draw Saved.

Definition quote : ascii := ascii_of_nat 34.
Definition backslash : ascii := ascii_of_nat 92.
Definition is_char (n : nat) (c : ascii) : bool := nat_of_ascii c =? n.

(** ** Reading *)
Definition is_blank (c : ascii) : bool := is_char 32 c || is_char 9 c || is_char 10 c || is_char 13 c.
Definition skip (s : str) : str := drop_while is_blank s.

(** Four hexadecimal digits *)
Definition hex_value (c : ascii) : option Z :=
  let z := Z.of_nat (nat_of_ascii c) in
  if ((48 <=? z) && (z <=? 57))%Z then Some (z - 48)%Z
  else if ((65 <=? z) && (z <=? 70))%Z then Some (z - 55)%Z
  else if ((97 <=? z) && (z <=? 102))%Z then Some (z - 87)%Z else None.
Definition unit16 (a b c d : ascii) : option Z :=
  opt! w := hex_value a in opt! x := hex_value b in opt! y := hex_value c in opt! z := hex_value d in Some (w * 4096 + x * 256 + y * 16 + z)%Z.
(** UTF-8 *)
Definition byte (z : Z) : ascii := ascii_of_nat (Z.to_nat z).
Definition utf8 (u : Z) : option str :=
  if (u <? 128)%Z then Some [byte u]
  else if (u <? 2048)%Z then Some [byte (192 + u / 64); byte (128 + u mod 64)]
  else if ((55296 <=? u) && (u <=? 57343))%Z then None
  else Some [byte (224 + u / 4096); byte (128 + (u / 64) mod 64); byte (128 + u mod 64)].
Definition short_escape (c : ascii) : option ascii :=
  match nat_of_ascii c with
  | 34 => Some quote | 92 => Some backslash | 47 => Some c
  | 98 => Some (ascii_of_nat 8) | 102 => Some (ascii_of_nat 12) | 110 => Some (ascii_of_nat 10) | 114 => Some (ascii_of_nat 13) | 116 => Some (ascii_of_nat 9)
  | _ => None
  end.
(** The characters up to the closing quote, and the rest *)
Definition prepend (s : str) (x : option (str * str)) : option (str * str) := match x with Some (t, r) => Some (s ++ t, r) | None => None end.
Fixpoint read_chars (s : str) : option (str * str) :=
  match s with
  | [] => None
  | c :: t =>
      if is_char 34 c then Some ([], t)
      else if is_char 92 c then
        match t with
        | e :: t =>
            if is_char 117 e then
              match t with
              | w :: x :: y :: z :: t => match obind (unit16 w x y z) utf8 with Some b => prepend b (read_chars t) | None => None end
              | _ => None
              end
            else match short_escape e with Some b => prepend [b] (read_chars t) | None => None end
        | [] => None
        end
      else if nat_of_ascii c <? 32 then None else prepend [c] (read_chars t)
  end.

(** Numbers: a whole part without leading zeros, a fraction, an exponent *)
Definition read_fraction (s : str) : option (str * str) :=
  match s with
  | c :: t => if is_char 46 c then match take_digits t with ([], _) => None | x => Some x end else Some ([], s)
  | [] => Some ([], s)
  end.
Definition exponent_sign (s : str) : bool * str :=
  match s with
  | c :: t => if is_char 45 c then (true, t) else if is_char 43 c then (false, t) else (false, s)
  | [] => (false, s)
  end.
Definition read_exponent (s : str) : option (Z * str) :=
  match s with
  | c :: t =>
      if is_char 101 c || is_char 69 c then
        let '(neg, t) := exponent_sign t in
        match take_digits t with ([], _) => None | (d, r) => Some (if neg then (- number_of d)%Z else number_of d, r) end
      else Some (0%Z, s)
  | [] => Some (0%Z, s)
  end.
Definition plain_whole (w : str) : bool := match w with [] => false | [_] => true | c :: _ => negb (is_char 48 c) end.
Definition read_number (s : str) : option (f64 * str) :=
  let '(neg, s) := signed s in
  let '(w, s) := take_digits s in
  if plain_whole w then
    match read_fraction s with
    | Some (f, s) =>
        match read_exponent s with
        | Some (e, s) => Some (nearest_double neg (number_of (w ++ f)) (e - zlen f), s)
        | None => None
        end
    | None => None
    end
  else None.

(** The text [k], then the rest *)
Fixpoint after (k s : str) : option str :=
  match k, s with
  | [], _ => Some s
  | a :: k, b :: s => if ascii_dec a b then after k s else None
  | _, [] => None
  end.

(** Elements and members, up to the closing bracket; [value] reads one value. *)
Section Loops.
Context (value : str -> option (json * str)).
Fixpoint read_items (n : nat) (s : str) : option (list json * str) :=
  match n with
  | O => None
  | S n =>
      match value s with
      | Some (j, r) =>
          match skip r with
          | c :: r => if is_char 44 c then match read_items n r with Some (l, r) => Some (j :: l, r) | None => None end
                      else if is_char 93 c then Some ([j], r) else None
          | [] => None
          end
      | None => None
      end
  end.
Definition read_member (s : str) : option ((str * json) * str) :=
  match skip s with
  | c :: t =>
      if is_char 34 c then
        match read_chars t with
        | Some (k, r) =>
            match skip r with
            | c :: r => if is_char 58 c then match value r with Some (j, r) => Some ((k, j), r) | None => None end else None
            | [] => None
            end
        | None => None
        end
      else None
  | [] => None
  end.
Fixpoint read_members (n : nat) (s : str) : option (list (str * json) * str) :=
  match n with
  | O => None
  | S n =>
      match read_member s with
      | Some (m, r) =>
          match skip r with
          | c :: r => if is_char 44 c then match read_members n r with Some (l, r) => Some (m :: l, r) | None => None end
                      else if is_char 125 c then Some ([m], r) else None
          | [] => None
          end
      | None => None
      end
  end.
End Loops.
(** A value, after blanks, and the rest *)
Fixpoint read_value (n : nat) (s : str) : option (json * str) :=
  match n with
  | O => None
  | S n =>
      match skip s with
      | c :: t =>
          if is_char 123 c then
            match skip t with
            | c' :: r => if is_char 125 c' then Some (JDict [], r)
                         else match read_members (read_value n) (List.length s) t with Some (l, r) => Some (JDict l, r) | None => None end
            | [] => None
            end
          else if is_char 91 c then
            match skip t with
            | c' :: r => if is_char 93 c' then Some (JList [], r)
                         else match read_items (read_value n) (List.length s) t with Some (l, r) => Some (JList l, r) | None => None end
            | [] => None
            end
          else if is_char 34 c then match read_chars t with Some (x, r) => Some (JStr x, r) | None => None end
          else if is_char 116 c then match after (lit "rue") t with Some r => Some (JBool true, r) | None => None end
          else if is_char 102 c then match after (lit "alse") t with Some r => Some (JBool false, r) | None => None end
          else match read_number (c :: t) with Some (x, r) => Some (JNum x, r) | None => None end
      | [] => None
      end
  end.
Definition parse_json (s : str) : option json :=
  match read_value (S (List.length s)) s with
  | Some (j, r) => match skip r with [] => Some j | _ => None end
  | None => None
  end.

(** ** Writing *)
(** [k] digits as one number, and the exponent of the first *)
Definition first_digits (k : Z) (a b : Z) : Z * Z :=
  let x := exponent10 a b in
  let d := scaled a b (k - 1 - x) in
  if (d =? 10 ^ k)%Z then ((10 ^ (k - 1))%Z, (x + 1)%Z) else (d, x).
(** "%.<k>g" *)
Definition general_text (k : nat) (d x : Z) : str :=
  if ((-4 <=? x) && (x <? Z.of_nat k))%Z then
    if (0 <=? x)%Z then pointed (firstn (Z.to_nat (x + 1)) (padded k d)) (skipn (Z.to_nat (x + 1)) (padded k d))
    else pointed (lit "0") (repeat "0"%char (Z.to_nat (- x - 1)) ++ padded k d)
  else pointed (firstn 1 (padded k d)) (skipn 1 (padded k d)) ++ lit "e" ++ (if (x <? 0)%Z then lit "-" else lit "+") ++
       padded (if (Z.abs x <? 100)%Z then 2 else Z.to_nat (digits (Z.abs x))) (Z.abs x).
Definition digits_text (k : nat) (x : f64) : str :=
  match x with
  | S754_finite s m e =>
      let '(d, w) := if (0 <=? e)%Z then first_digits (Z.of_nat k) (Zpos m * 2 ^ e) 1 else first_digits (Z.of_nat k) (Zpos m) (2 ^ (- e)) in
      (if s then lit "-" else []) ++ general_text k d w
  | S754_zero s => (if s then lit "-" else []) ++ lit "0"
  | _ => []
  end.
(** The finite floats and doubles, as in Saved.v: six digits if they read back, otherwise [k]; fifteen or seventeen *)
Definition float_digits (k : nat) (x : f64) : str := digits_text (if feqb (to_f32 (digits_read 6 x)) (to_f32 x) then 6 else k) x.
Definition double_digits (x : f64) : str := digits_text (if feqb (digits_read 15 x) x then 15 else 17) x.

(** An int32 *)
Definition int_text (z : Z) : str := (if (z <? 0)%Z then lit "-" else []) ++ padded (Z.to_nat (Z.max 1 (digits (Z.abs z)))) (Z.abs z).

Definition hex_char (z : Z) : ascii := byte (if (z <? 10)%Z then 48 + z else 87 + z).
Definition written_char (c : ascii) : str :=
  match nat_of_ascii c with
  | 34 => [backslash; quote] | 92 => [backslash; backslash]
  | 8 => backslash :: lit "b" | 12 => backslash :: lit "f" | 10 => backslash :: lit "n" | 13 => backslash :: lit "r" | 9 => backslash :: lit "t"
  | n => if (n <? 32) || (n =? 60) || (n =? 62) || (n =? 127) then
           let z := Z.of_nat n in backslash :: lit "u00" ++ [hex_char (z / 16); hex_char (z mod 16)]
         else [c]
  end.
Definition string_text (s : str) : str := quote :: concat (map written_char s) ++ [quote].
Definition list_text (l : list str) : str := lit "[" ++ joined (lit ",") l ++ lit "]".
Definition object_text (l : list (str * str)) : str := lit "{" ++ joined (lit ",") (map (fun m => string_text (fst m) ++ lit ":" ++ snd m) l) ++ lit "}".
Definition number_text (digits : f64 -> str) (x : f64) : str :=
  match x with
  | S754_nan => string_text (lit "NaN")
  | S754_infinity s => string_text ((if s then lit "-" else []) ++ lit "Infinity")
  | _ => digits x
  end.
Definition bool_text (b : bool) : str := if b then lit "true" else lit "false".
Section Messages.
Context {c_exp c_log : f64 -> f64} (k : nat).
Notation N := (IEEE c_exp c_log).
(** The messages of src/proto/tree.proto, as in Draw.v *)
Definition float_split_text (s : f32 * bool) : str :=
  object_text [(lit "threshold", number_text (float_digits k) (to_f64 (fst s))); (lit "missingToRightChild", bool_text (snd s))].
Definition cat_split_text (s : list str * list Z) : str :=
  object_text [(lit "category", list_text (map string_text (fst s))); (lit "internalCategoricalIndex", list_text (map int_text (snd s)))].
Definition split_text (s : split N) : str :=
  object_text ([(lit "feature", string_text (sp_feature s))] ++
    match sp_float s with Some x => [(lit "floatSplit", float_split_text x)] | None => [] end ++
    match sp_cat s with Some x => [(lit "catSplit", cat_split_text x)] | None => [] end ++
    [(lit "gain", number_text double_digits (sp_gain s))]).
Fixpoint tree_text (t : tree N) : str :=
  match t with
  | TNone => object_text [(lit "score", number_text (float_digits k) (S754_zero false))]
  | TNode s sp l r =>
      object_text ([(lit "score", number_text (float_digits k) s)] ++
        match sp with Some x => [(lit "split", split_text x)] | None => [] end ++
        (if present l then [(lit "leftChild", tree_text l)] else []) ++
        (if present r then [(lit "rightChild", tree_text r)] else []))
  end.
Definition forest_text (f : forest N) (meta_info : str) : str :=
  object_text [(lit "tree", list_text (map tree_text f)); (lit "metaInfo", string_text meta_info)].
(** FromJson *)
Definition read_forest (text : str) : option (forest N * str) := obind (parse_json text) forest_of.
End Messages.
