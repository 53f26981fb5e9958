(** Convert.v - model of scripts/convert_tsv_to_filatfiles.py.  Definitions only.
    Not modelled: reading the configuration, creating the output directory, messages. *)
From Verif Require Import Base F32 Strings.

(** Exceptions that end the script *)
Inductive convert_failure := NoHeader | CsvError | LongRow.

(** ** csv.reader(in_file, delimiter) (line 24)
    The library class of Python 2 with its default dialect (double quotes, doubled inside a quoted field; not strict), as the automaton of its
    implementation; [None] for the end of a line.  A result [None] is csv.Error. *)
Inductive csv_state := StartRecord | StartField | InField | InQuoted | QuoteInQuoted | EatNewline.
Definition quote : ascii := ascii_of_nat 34.
(** The state, the characters of the current field (latest first), and the fields of the record (latest first) *)
Definition csv := (csv_state * str * list str)%type.
Definition save (next : csv_state) (s : csv) : csv := let '(_, cur, fields) := s in (next, [], rev cur :: fields).
Definition put (next : csv_state) (c : ascii) (s : csv) : csv := let '(_, cur, fields) := s in (next, c :: cur, fields).
Definition goto (next : csv_state) (s : csv) : csv := let '(_, cur, fields) := s in (next, cur, fields).
Definition is (a b : ascii) : bool := if ascii_dec a b then true else false.
Definition csv_field (delim c : ascii) (s : csv) : csv :=
  if is c nl || is c cr then save EatNewline s
  else if is c quote then goto InQuoted s
  else if is c delim then save StartField s
  else put InField c s.
Definition csv_char (delim : ascii) (s : csv) (c : ascii) : option csv :=
  if is c zero then None
  else match fst (fst s) with
  | StartRecord => if is c nl || is c cr then Some (goto EatNewline s) else Some (csv_field delim c s)
  | StartField => Some (csv_field delim c s)
  | InField =>
      Some (if is c nl || is c cr then save EatNewline s else if is c delim then save StartField s else put InField c s)
  | InQuoted => Some (if is c quote then goto QuoteInQuoted s else put InQuoted c s)
  | QuoteInQuoted =>
      Some (if is c quote then put InQuoted c s
            else if is c delim then save StartField s
            else if is c nl || is c cr then save EatNewline s
            else put InField c s)
  | EatNewline => if is c nl || is c cr then Some s else None
  end.
Definition csv_end (s : csv) : csv :=
  match fst (fst s) with
  | StartRecord => s
  | InQuoted => s
  | EatNewline => goto StartRecord s
  | _ => save StartRecord s
  end.
Fixpoint csv_chars (delim : ascii) (s : csv) (line : str) : option csv :=
  match line with
  | [] => Some (csv_end s)
  | c :: t => match csv_char delim s c with None => None | Some s' => csv_chars delim s' t end
  end.
Definition csv_start : csv := (StartRecord, [], []).
(** The records.  Simplification: an error loses the records before it, too (the script dies and leaves incomplete files). *)
Fixpoint csv_records (delim : ascii) (s : csv) (lines : list str) : option (list (list str)) :=
  match lines with
  | [] =>
      let '(st, cur, fields) := s in
      match st, cur with
      | InQuoted, _ | _, _ :: _ => Some [rev (rev cur :: fields)]
      | _, [] => Some []
      end
  | l :: ls =>
      match csv_chars delim s l with
      | None => None
      | Some s' =>
          match fst (fst s') with
          | StartRecord => match csv_records delim csv_start ls with None => None | Some rs => Some (rev (snd s') :: rs) end
          | _ => csv_records delim s' ls
          end
      end
  end.
(** The lines a file object yields, with their newline; an empty rest is no line. *)
Fixpoint input_lines (cur rest : str) : list str :=
  match rest with
  | [] => match cur with [] => [] | _ => [rev cur] end
  | c :: t => if ascii_dec c nl then rev (c :: cur) :: input_lines [] t else input_lines (c :: cur) t
  end.
Definition csv_reader (delim : ascii) (content : str) : option (list (list str)) := csv_records delim csv_start (input_lines [] content).

(** ** CreateWriters (7-19) *)
(** os.path.join *)
Definition join_path (dir name : str) : str :=
  match rev dir with [] => name | c :: _ => if is c "/"%char then dir ++ name else dir ++ lit "/" ++ name end.
(** column.replace(' ', '_').replace('/', '_') (8) *)
Definition clean (column : str) : str := map (fun c => if is c " "%char || is c "/"%char then "_"%char else c) column.
Definition file_name (dir column : str) : str := join_path dir (clean column).
Definition listed (n : str) (l : list str) : bool := if in_dec str_eq_dec n l then true else false.
Definition type_line (raw strings : list str) (column : str) : str :=
  if listed column raw then lit "# dtype=raw_floats"
  else if listed column strings then lit "# dtype=strings"
  else lit "# dtype=binned_floats".

(** ** ConvertTsvToFlatfiles (22-29) *)
(** print >>writers[i], value for the values of one row (28-29); a writer is the list of its lines, latest first.  [None]: IndexError *)
Fixpoint write_row (writers : list (list str)) (row : list str) : option (list (list str)) :=
  match row, writers with
  | [], _ => Some writers
  | _ :: _, [] => None
  | v :: row', w :: ws => match write_row ws row' with None => None | Some ws' => Some ((v :: w) :: ws') end
  end.
Fixpoint write_rows (writers : list (list str)) (rows : list (list str)) : option (list (list str)) :=
  match rows with
  | [] => Some writers
  | r :: rs => match write_row writers r with None => None | Some ws => write_rows ws rs end
  end.
(** The content of a file: print ends every line. *)
Definition file_text (w : list str) : str := concat (map (fun l => l ++ [nl]) (rev w)).
(** The files and their contents, in the order of the header.  Two columns with the same file name overwrite each other's bytes; the list then has two entries for
    the name. *)
Definition convert (dir : str) (delim : ascii) (raw strings : list str) (content : str) : convert_failure + list (str * str) :=
  match csv_reader delim content with
  | None => inl CsvError
  | Some [] => inl NoHeader
  | Some (header :: rows) =>
      match write_rows (map (fun n => [type_line raw strings n]) header) rows with
      | None => inl LongRow
      | Some ws => inr (combine (map (file_name dir) header) (map file_text ws))
      end
  end.
