(** Prop_PyTsv.v - property C90 (loading TSV files from Python).  Statements only.
    Vocabulary: PyTsvSpec.v, TsvSpec.v, PythonSpec.v.  Model: PyTsv.v, Tsv.v, Python.v. *)
From Coq Require Import SpecFloat.
From Verif Require Import Base F32 Column ColumnSpec DataStore Strings StringsSpec Tsv TsvSpec TextSpec Python PythonSpec PyTsv PyTsvSpec TsvProps_proofs PyTsv_proofs Prop_Tsv.

(** ** C90 - load_tsv and from_tsvs *)
(** With distinct names that are titles of the first file the outcome does not depend on the schedule: the columns asked for
    with the cells of the text, or an exception for the first unreadable line and the old store, or the failure of C09. *)
Theorem C90_outcome fs strtof q tsvs first more d : tsvs = first :: more -> sensible fs first q ->
  exists out, py_load fs strtof tsvs (rq_buckets q) (rq_raws q) (rq_strings q) d out /\
  (forall out', py_load fs strtof tsvs (rq_buckets q) (rq_raws q) (rq_strings q) d out' -> out' = out) /\
  match out with
  | Ret (None, d') => exists lines, lines_of fs true tsvs lines /\
      (zlen (concat lines) < 2147483648 -> text_held fs strtof first q (concat lines) d')
  | Ret (Some e, d') => d' = d /\ first_unreadable fs strtof tsvs first q e
  | Undef => exists n i, In n (rq_buckets q) /\ header_position fs first n i /\ bucketizing_fails fs strtof tsvs i
  | Fatal => False
  end%Z.
Proof. exact (load_outcome fs strtof q tsvs first more d). Qed.
Print Assumptions C90_outcome.

(** From the text to the data frame: len() is the number of data lines, and to_df gives pandas every column asked for, once,
    with the cells of its title. *)
Theorem C90_frame fs strtof q tsvs first more d d' : tsvs = first :: more -> sensible fs first q ->
  py_load fs strtof tsvs (rq_buckets q) (rq_raws q) (rq_strings q) d (Ret (None, d')) ->
  exists lines, lines_of fs true tsvs lines /\
  ((zlen (concat lines) < 2147483648)%Z ->
   (asked_names q <> [] -> forall beg, py_num_rows beg d' = Ret (List.length (concat lines))) /\
   exists l, py_frame d' l /\ (forall l', py_frame d' l' -> l' = l) /\ frame_held fs strtof first q (concat lines) l).
Proof. exact (load_frame fs strtof q tsvs first more d d'). Qed.
Print Assumptions C90_frame.

(** No file at all, a first file that can not be opened, and a name that is no title: an exception and the old store. *)
Theorem C90_no_files fs strtof b r s d out : py_load fs strtof [] b r s d out <-> out = Ret (Some InvalidArgument, d).
Proof. exact (no_files fs strtof b r s d out). Qed.
Print Assumptions C90_no_files.
Theorem C90_no_first_file fs strtof tsvs first more b r s d out : tsvs = first :: more -> fs first = None ->
  (py_load fs strtof tsvs b r s d out <-> out = Ret (Some IosFailure, d)).
Proof. exact (no_first fs strtof tsvs first more b r s d out). Qed.
Print Assumptions C90_no_first_file.
Theorem C90_no_title fs strtof q tsvs first more d out : tsvs = first :: more -> has_header fs first ->
  (exists n, In n (asked_names q) /\ forall i, ~ header_position fs first n i) ->
  (py_load fs strtof tsvs (rq_buckets q) (rq_raws q) (rq_strings q) d out <-> out = Ret (Some IosFailure, d)).
Proof. exact (no_title fs strtof tsvs first more q d out). Qed.
Print Assumptions C90_no_title.

(** Naming a column twice is undefined (a column object is used after it is destroyed), if the first file is readable. *)
Theorem C90_repeated_refuted fs strtof q tsvs first more d content out : tsvs = first :: more -> fs first = Some content ->
  has_header fs first -> (forall n, In n (asked_names q) -> exists i, header_position fs first n i) -> ~ NoDup (asked_names q) ->
  (forall fp sp, Forall2 (header_position fs first) (rq_buckets q ++ rq_raws q) fp ->
     Forall2 (header_position fs first) (rq_strings q) sp ->
     forall l, In l (data_lines true content) -> line_ok strtof fp sp l) ->
  (py_load fs strtof tsvs (rq_buckets q) (rq_raws q) (rq_strings q) d out <-> out = Undef).
Proof. exact (repeated fs strtof tsvs first more q d content out). Qed.
Print Assumptions C90_repeated_refuted.

(** Two files, three columns; then the title of the strings is asked for as floats. *)
Example C90_example : sensible ex_fs (lit "one") (mkRequest [lit "f"] [lit "y"] [lit "s"]) /\
  (exists m, py_from_tsvs ex_fs digit_strtof ex_files [lit "f"] [lit "y"] [lit "s"] (py_ret (Some m)) /\
     map (fun c => (c_name c, col_type c)) (py_cols (Some m)) = [(lit "f", TBucketized); (lit "s", TString); (lit "y", TRaw)] /\
     map (fun c => (py_get c 0, py_get c 1, py_get c 2, py_get c 3)) (py_cols (Some m)) =
       [(py_ret (VFloat (num 2)), py_ret (VFloat fnan), py_ret (VFloat (num 6)), py_raise OutOfRange);
        (py_ret (VString (lit "a")), py_ret (VString (lit "b")), py_ret (VString (lit "b")), py_raise OutOfRange);
        (py_ret (VFloat (num 1)), py_ret (VFloat (num 3)), py_ret (VFloat (num 5)), py_raise OutOfRange)]) /\
  py_from_tsvs ex_fs digit_strtof ex_files [] [lit "s"] [] (py_raise InvalidArgument) /\
  py_from_tsvs ex_fs digit_strtof [lit "three"] [] [lit "s"] [] (py_raise IosFailure).
Proof.
  split; [|split; [|split]].
  - split; [eexists; do 2 eexists; split; vm_compute; reflexivity|]. split; [apply NoDup_count_occ' with (decA := str_eq_dec); intros x [<-|[<-|[<-|[]]]]; vm_compute; reflexivity|].
    assert (exists content line rest headers, ex_fs (lit "one") = Some content /\ text_lines content = line :: rest /\ split line [tab] = Ret headers /\
      headers = map lit ["y"; " f "; "s"]%string) as (content & line & rest & headers & E1 & E2 & E3 & E4) by (do 4 eexists; repeat split; vm_compute; reflexivity).
    pose proof (header_position_map ex_fs (lit "one") content line rest headers E1 E2 E3) as H. rewrite E4 in H.
    intros n [<-|[<-|[<-|[]]]]; eexists; apply H; vm_compute; reflexivity.
  - eexists. split; [|split].
    + eexists. split.
      * unfold py_load. match goal with |- match ?x with _ => _ end => let y := eval vm_compute in x in change x with y end. cbv iota.
        eexists. split; [|split].
        -- eapply LStep; [eapply LStep; [eapply LStep; [eapply LStep; [eapply LStep; [apply LRefl|]|]|]|]|].
           ++ eapply (StWorker _ _ _ 1); vm_compute; reflexivity.
           ++ eapply (StWorker _ _ _ 0); vm_compute; reflexivity.
           ++ eapply (StAdd _ _ _ _ _ _ _ SOk); [vm_compute; reflexivity|apply Permutation_refl| |]; vm_compute; reflexivity.
           ++ eapply (StAdd _ _ _ _ _ _ _ SOk); [vm_compute; reflexivity|apply Permutation_refl| |]; vm_compute; reflexivity.
           ++ eapply (StEnd _ _ _ _ _ SOk); [vm_compute; reflexivity|apply Permutation_refl| |]; vm_compute; reflexivity.
        -- exact I.
        -- cbn [py_after_load]. reflexivity.
      * cbn [bind]. reflexivity.
    + vm_compute. reflexivity.
    + vm_compute. reflexivity.
  - eexists. split.
    + unfold py_load. match goal with |- match ?x with _ => _ end => let y := eval vm_compute in x in change x with y end. cbv iota.
      eexists. split; [|split].
      * eapply LStep; [eapply LStep; [apply LRefl|]|].
        -- eapply (StWorker _ _ _ 0); vm_compute; reflexivity.
        -- eapply StBad. vm_compute. reflexivity.
      * exact I.
      * reflexivity.
    + reflexivity.
  - exists (Ret (Some IosFailure, None)). split; [|reflexivity]. apply (no_first ex_fs digit_strtof [lit "three"] (lit "three") []); reflexivity.
Qed.
