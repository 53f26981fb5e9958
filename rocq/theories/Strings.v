(** Strings.v - model of the string helpers in src/utils/utils.{h,cc} and utils_inl.h.
    Definitions only. *)
From Verif Require Import Base F32.

(** [p] is a prefix of [s]. *)
Fixpoint prefixb (p s : str) : bool :=
  match p, s with
  | [], _ => true
  | a :: p', b :: s' => if ascii_dec a b then prefixb p' s' else false
  | _ :: _, [] => false
  end.

(** std::string::find(delim) on a suffix: offset of the first match. *)
Fixpoint find_sub (d s : str) : option nat :=
  if prefixb d s then Some 0
  else match s with [] => None | _ :: t => option_map S (find_sub d t) end.

(** The loop of SplitStringUsing (utils.cc:70-80); [s] is the text from start_pos on.
    Each turn consumes the piece and the delimiter; an empty delimiter makes the loop endless (the
    words vector grows until memory runs out), which shows here as running out of turns: [Fatal].
    Simplification: positions are stored in int / uint, so texts are assumed shorter than 2^31. *)
Fixpoint split_loop (turns : nat) (d s : str) : res (list str) :=
  match turns with
  | O => Fatal
  | S k =>
      match find_sub d s with
      | Some pos =>
          let! ws := split_loop k d (skipn (pos + List.length d) s) in
          Ret (firstn pos s :: ws)
      | None => Ret [s]
      end
  end.

(** SplitStringUsing / split (utils.cc:64-87) *)
Definition split (s d : str) : res (list str) :=
  match s with [] => Ret [] | _ => split_loop (S (List.length s)) d s end.

(** JoinStrings (utils_inl.h:31-41) *)
Definition join (ws : list str) (d : str) : str :=
  fst (fold_left (fun (st : str * bool) w =>
         let '(out, first) := st in
         ((if first then out else out ++ d) ++ w, false)) ws ([], true)).

(** isspace in the "C" locale: \t \n \v \f \r and blank.  Simplification: passing a negative char
    to isspace is formally undefined; bytes above 127 are treated as non-space. *)
Definition is_space (c : ascii) : bool :=
  let n := nat_of_ascii c in ((9 <=? n) && (n <=? 13)) || (n =? 32).

Fixpoint drop_while (f : ascii -> bool) (s : str) : str :=
  match s with [] => [] | c :: t => if f c then drop_while f t else s end.

(** LTrimWhiteSpace, RTrimWhiteSpace, TrimWhiteSpace (utils.h:35-47) *)
Definition ltrim (s : str) : str := drop_while is_space s.
Definition rtrim (s : str) : str := rev (drop_while is_space (rev s)).
Definition trim (s : str) : str := rtrim (ltrim s).

(** std::mismatch(p.begin(), p.end(), s.begin()).first == p.end(): reads s past its end if s runs
    out before a difference is found. *)
Fixpoint mismatch_all (p s : str) : res bool :=
  match p, s with
  | [], _ => Ret true
  | _ :: _, [] => Undef
  | a :: p', b :: s' => if ascii_dec a b then mismatch_all p' s' else Ret false
  end.
(** HasPrefix (utils.cc:95-97), HasSuffix (utils.cc:99-101) *)
Definition has_prefix (s p : str) : res bool := mismatch_all p s.
Definition has_suffix (s p : str) : res bool := mismatch_all (rev p) (rev s).

(** The C library's strtof, left abstract: value and number of characters consumed, given the
    characters before the first NUL. *)
Definition strtof_t := str -> f32 * nat.

(** c_str(): the characters strtof sees. *)
Fixpoint c_str (s : str) : str :=
  match s with [] => [] | c :: t => if ascii_dec c zero then [] else c :: c_str t end.

(** StringCast (utils.cc:89-93): [Some v] when it returns true. *)
Definition string_cast (strtof : strtof_t) (s : str) : option f32 :=
  let '(v, n) := strtof (c_str s) in
  if (n =? List.length (c_str s)) && (0 <? List.length s) then Some v else None.

Definition nl : ascii := ascii_of_nat 10.
Definition cr : ascii := ascii_of_nat 13.
Definition tab : ascii := ascii_of_nat 9.

(** The lines that `while (!in.eof()) { line = ReadLine(in); ... }` sees for a file's content:
    std::getline stops at a newline (consumed) or at the end of the file, which sets eof. *)
Fixpoint getlines (cur rest : str) : list str :=
  match rest with
  | [] => [rev cur]
  | c :: t => if ascii_dec c nl then rev cur :: getlines [] t else getlines (c :: cur) t
  end.

Definition is_eol (c : ascii) : bool :=
  (if ascii_dec c nl then true else false) || (if ascii_dec c cr then true else false).

(** ReadLine (utils.cc:105-110): line.erase(line.find_last_not_of("\n\r") + 1) *)
Definition strip_eol (s : str) : str := rev (drop_while is_eol (rev s)).
Definition file_lines (content : str) : list str := map strip_eol (getlines [] content).
