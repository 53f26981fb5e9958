(** Prop_Strings.v - properties C14 and C60 (string helpers).  Statements only.  Model: Strings.v. *)
From Verif Require Import Base F32 Strings StringsSpec Strings_proofs StringsText_proofs.

(** ** C14 - splitting and joining are inverse *)
Theorem C14_join_of_split s d : d <> [] ->
  exists ws, split s d = Ret ws /\ join ws d = s /\
    (forall w, In w ws -> ~ exists a b, w = a ++ d ++ b) /\ (ws = [] <-> s = []).
Proof. exact (split_join s d). Qed.
Print Assumptions C14_join_of_split.

Theorem C14_split_of_join (c : ascii) ws : (forall w, In w ws -> ~ In c w) -> ws <> [[]] ->
  split (join ws [c]) [c] = Ret ws.
Proof. exact (join_split c ws). Qed.
Print Assumptions C14_split_of_join.

(** Splitting by one character cuts at every occurrence; only the empty text has no pieces. *)
Theorem C14_pieces (c : ascii) s : split s [c] = Ret (match s with [] => [] | _ => cut c s end).
Proof. exact (split_cut c s). Qed.
Print Assumptions C14_pieces.

(** Splitting by the empty delimiter never returns (endless loop). *)
Theorem C14_empty_delimiter s : s <> [] -> split s [] = Fatal.
Proof. exact (split_empty_delim s). Qed.
Print Assumptions C14_empty_delimiter.

(** The two exceptions to the round trip: [] is kept, [""] comes back as []. *)
Example C14_example :
  split (lit "a,,b,") (lit ",") = Ret [lit "a"; lit ""; lit "b"; lit ""] /\
  split (lit "abab-ab") (lit "ab") = Ret [lit ""; lit ""; lit "-"; lit ""] /\
  split (join [lit ""; lit ""] (lit ",")) (lit ",") = Ret [lit ""; lit ""] /\
  split (join [[]] (lit ",")) (lit ",") = Ret [].
Proof. repeat split. Qed.

(** ** C60 - trim, prefix, suffix *)
Theorem C60_trim s n : trimmed s n <-> trim s = n.
Proof. exact (trimmed_iff s n). Qed.
Print Assumptions C60_trim.

(** HasPrefix: undefined exactly when s is a proper prefix of p; otherwise it decides prefixhood. *)
Theorem C60_has_prefix s p :
  (has_prefix s p = Undef <-> exists x, x <> [] /\ p = s ++ x) /\
  (has_prefix s p = Ret true <-> exists r, s = p ++ r) /\ has_prefix s p <> Fatal.
Proof. exact (mismatch_spec p s). Qed.
Print Assumptions C60_has_prefix.

Theorem C60_has_suffix s p :
  (has_suffix s p = Undef <-> exists x, x <> [] /\ p = x ++ s) /\
  (has_suffix s p = Ret true <-> exists r, s = r ++ p) /\ has_suffix s p <> Fatal.
Proof. exact (has_suffix_spec s p). Qed.
Print Assumptions C60_has_suffix.

Example C60_example : trim (lit "  a b	 ") = lit "a b" /\ trim (lit "   ") = [] /\
  has_prefix (lit "dtype=strings") (lit "dtype") = Ret true /\ has_prefix (lit "dt") (lit "dtype") = Undef /\
  has_prefix (lit "dx") (lit "dtype") = Ret false /\ has_suffix (lit "a.tsv") (lit ".tsv") = Ret true.
Proof. repeat split. Qed.

(** StringCast succeeds exactly on numbers; a text is read by lines with their line ends removed. *)
Theorem C60_string_cast strtof s : string_cast strtof s = number strtof s.
Proof. exact (string_cast_number strtof s). Qed.
Print Assumptions C60_string_cast.

Theorem C60_lines content : file_lines content = text_lines content.
Proof. exact (file_lines_text_lines content). Qed.
Print Assumptions C60_lines.

Example C60_lines_example :
  let crlf := [carriage_return; newline] in
  file_lines (lit "a	b" ++ crlf ++ crlf ++ lit "c") = [lit "a	b"; []; lit "c"] /\
  file_lines (lit "a" ++ [newline]) = [lit "a"; []] /\
  string_cast (fun s => (fnan, 1)) (lit "7") = Some fnan /\ string_cast (fun s => (fnan, 1)) (lit "7x") = None.
Proof. vm_compute. repeat split. Qed.
