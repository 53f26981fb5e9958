(** ConvertSpec.v - vocabulary for the conversion of TSV text to flat files. *)
From Verif Require Import Base F32 Strings StringsSpec.

(** A text without quotes and NULs, and without carriage returns inside its lines; the delimiter is none of the special characters. *)
Definition plain (delim : ascii) (content : str) : Prop :=
  ~ In (ascii_of_nat 34) content /\ ~ In zero content /\ (forall l, In l (text_lines content) -> ~ In carriage_return l) /\
  ~ In delim [newline; carriage_return; ascii_of_nat 34; zero].
(** The values of column [i]: the cells at this position of the lines that have one. *)
Definition column_values (delim : ascii) (i : nat) (lines : list str) : list str :=
  flat_map (fun line => match nth_error (cut delim line) i with Some x => [x] | None => [] end) lines.
(** Blanks and slashes replaced by underscores *)
Definition underscored (n f : str) : Prop := Forall2 (fun c c' => (c = " "%char \/ c = "/"%char) /\ c' = "_"%char \/ c <> " "%char /\ c <> "/"%char /\ c' = c) n f.
(** The type line of a column *)
Definition typed (raw strings : list str) (n t : str) : Prop :=
  In n raw /\ t = lit "# dtype=raw_floats" \/
  ~ In n raw /\ In n strings /\ t = lit "# dtype=strings" \/
  ~ In n raw /\ ~ In n strings /\ t = lit "# dtype=binned_floats".
(** A directory given without a slash at its end *)
Definition directory (dir : str) : Prop := dir <> [] /\ forall p, dir <> p ++ lit "/".
(** A title that is its own file name *)
Definition tidy (n : str) : Prop := ~ In " "%char n /\ ~ In "/"%char n.
