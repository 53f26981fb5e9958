(** Prop_Convert.v - property C83.  Statements only.  Model: Convert.v, Flatfiles.v; vocabulary: ConvertSpec.v, TsvSpec.v, FlatSpec.v. *)
From Verif Require Import Base F32 Column ColumnSpec DataStore Strings StringsSpec Tsv TsvSpec Flatfiles FlatSpec Convert ConvertSpec Convert_proofs Prop_Tsv.

(** ** C83 - converting TSV text to flat files *)
(** Text without quotes whose lines have at most as many cells as the header: one file per title, with the type line and then the cells at this position, line by line. *)
Theorem C83_files dir delim raw strings content h rest : plain delim content -> text_lines content = h :: rest -> h <> [] -> directory dir ->
  (forall line, In line (data_lines true content) -> List.length (cut delim line) <= List.length (cut delim h)) ->
  exists files, convert dir delim raw strings content = inr files /\ List.length files = List.length (cut delim h) /\
  forall i n, nth_error (cut delim h) i = Some n -> exists f t,
    nth_error files i = Some (dir ++ "/"%char :: f, text (t :: column_values delim i (data_lines true content)) []) /\ underscored n f /\ typed raw strings n t.
Proof. exact (files_written dir delim raw strings content h rest). Qed.
Print Assumptions C83_files.
(** A longer line ends the script. *)
Theorem C83_long_line dir delim raw strings content h rest : plain delim content -> text_lines content = h :: rest -> h <> [] ->
  (exists line, In line (data_lines true content) /\ List.length (cut delim h) < List.length (cut delim line)) ->
  convert dir delim raw strings content = inl LongRow.
Proof. exact (long_line dir delim raw strings content h rest). Qed.
Print Assumptions C83_long_line.

(** Columns listed as strings load from the written files as the TSV loader loads them from the text (C16), if no value starts with '#'. *)
Theorem C83_strings fs strtof dir raw strings content h rest files i n col : plain tabulator content -> text_lines content = h :: rest -> h <> [] -> directory dir ->
  convert dir tabulator raw strings content = inr files -> (forall f c, In (f, c) files -> fs f = Some c) ->
  nth_error (cut tabulator h) i = Some n -> tidy n -> In n strings -> ~ In n raw ->
  string_cells i (data_lines true content) col -> (forall x, In x col -> ~ starts_with_hash x) ->
  exists b, load_flat fs strtof [dir] n = Ret (Some (mkCol n b)) /\ column_holds strtof KS i [data_lines true content] b.
Proof.
  exact (fun P T H D C F Ti Td => string_column fs strtof dir raw strings content h rest files P T H D C F i n Ti Td col).
Qed.
Print Assumptions C83_strings.
(** So do the columns listed as raw floats. *)
Theorem C83_raw_floats fs strtof dir raw strings content h rest files i n col : plain tabulator content -> text_lines content = h :: rest -> h <> [] -> directory dir ->
  convert dir tabulator raw strings content = inr files -> (forall f c, In (f, c) files -> fs f = Some c) ->
  nth_error (cut tabulator h) i = Some n -> tidy n -> In n raw ->
  float_cells strtof i (data_lines true content) col ->
  (forall line x, In line (data_lines true content) -> cell line i = Some x -> ~ starts_with_hash x) ->
  exists b, load_flat fs strtof [dir] n = Ret (Some (mkCol n b)) /\ column_holds strtof KR i [data_lines true content] b.
Proof.
  exact (fun P T H D C F Ti Td => raw_column fs strtof dir raw strings content h rest files P T H D C F i n Ti Td col).
Qed.
Print Assumptions C83_raw_floats.
(** A column that is listed nowhere, a float feature, never loads: the type written is none the loader knows. *)
Theorem C83_float_features_refused fs strtof dir raw strings content h rest files i n : plain tabulator content -> text_lines content = h :: rest -> h <> [] -> directory dir ->
  convert dir tabulator raw strings content = inr files -> (forall f c, In (f, c) files -> fs f = Some c) ->
  nth_error (cut tabulator h) i = Some n -> tidy n -> ~ In n raw -> ~ In n strings -> load_flat fs strtof [dir] n = Ret None.
Proof.
  exact (fun P T H D C F Ti Td => feature_column fs strtof dir raw strings content h rest files P T H D C F i n Ti Td).
Qed.
Print Assumptions C83_float_features_refused.

(** Two rows, an empty line between them, Windows line ends *)
Definition ex_tsv_lines (l : list str) : str := concat (map (fun x => x ++ [cr; nl]) l).
Definition ex_tsv : str := ex_tsv_lines [tabbed ["y"%string; "a b"%string; "s"%string]; tabbed ["1"%string; "2"%string; ""%string]; []; tabbed ["3"%string; "x"%string; "u v"%string]].
Definition ex_fs (files : list (str * str)) : files_t := fun f => assoc f files.
Definition ex_convert (content : str) : list (str * str) :=
  match convert (lit "out") tabulator [lit "y"] [lit "s"] content with inr files => files | inl _ => [] end.
Example C83_example : plain tabulator ex_tsv /\
  ex_convert ex_tsv = [(lit "out/y", text [lit "# dtype=raw_floats"; lit "1"; lit "3"] []); (lit "out/a_b", text [lit "# dtype=binned_floats"; lit "2"; lit "x"] []);
                       (lit "out/s", text [lit "# dtype=strings"; []; lit "u v"] [])] /\
  load_flat (ex_fs (ex_convert ex_tsv)) digit_strtof [lit "out"] (lit "y") = Ret (Some (mkCol (lit "y") (BodyR (mkR SOk [num 1; num 3])))) /\
  load_flat (ex_fs (ex_convert ex_tsv)) digit_strtof [lit "out"] (lit "a_b") = Ret None.
Proof.
  split; [|vm_compute; repeat split; reflexivity].
  assert (D : forall c l, existsb (fun x => if ascii_dec x c then true else false) l = false -> ~ In c l).
  { intros c l E I. assert (T : existsb (fun x => if ascii_dec x c then true else false) l = true); [|congruence]. apply existsb_exists. exists c. split; [exact I|]. destruct (ascii_dec c c); congruence. }
  split; [apply D; vm_compute; reflexivity|]. split; [apply D; vm_compute; reflexivity|]. split; [|apply D; vm_compute; reflexivity].
  intros l Hl. apply D. vm_compute in Hl. decompose [or] Hl; try contradiction; subst l; vm_compute; reflexivity.
Qed.

(** A value that starts with '#' is taken for a comment: the column loses the row. *)
Definition ex_hash : str := ex_tsv_lines [tabbed ["y"%string; "s"%string]; tabbed ["1"%string; "#1"%string]; tabbed ["2"%string; "b"%string]].
Theorem C83_hash_refuted : exists c, load_flat (ex_fs (ex_convert ex_hash)) digit_strtof [lit "out"] (lit "s") = Ret (Some (mkCol (lit "s") (BodyS c))) /\
  str_size c = Ret 1 /\ data_lines true ex_hash = [tabbed ["1"%string; "#1"%string]; tabbed ["2"%string; "b"%string]].
Proof. eexists. split; [vm_compute; reflexivity|]. split; vm_compute; reflexivity. Qed.
Print Assumptions C83_hash_refuted.
(** Two titles can have the same file. *)
Theorem C83_names_refuted : exists content c c', ex_convert content = [(lit "out/a_b", c); (lit "out/a_b", c')] /\ c <> c'.
Proof.
  exists (ex_tsv_lines [tabbed ["a b"%string; "a_b"%string]; tabbed ["1"%string; "2"%string]]). do 2 eexists. split; [vm_compute; reflexivity|]. discriminate.
Qed.
Print Assumptions C83_names_refuted.
(** A quote at the start of a cell swallows what follows, tabs and lines: the TSV loader sees two rows here, the converter one. *)
Definition ex_quote : str := ex_tsv_lines [lit "s"; quote :: lit "a"; lit "b"].
Theorem C83_quotes_refuted : data_lines true ex_quote = [quote :: lit "a"; lit "b"] /\
  ex_convert ex_quote = [(lit "out/s", text [lit "# dtype=strings"; lit "a" ++ [cr]; lit "b" ++ [cr]; []] [])].
Proof. split; vm_compute; reflexivity. Qed.
Print Assumptions C83_quotes_refuted.
