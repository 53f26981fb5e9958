(** Prop_Tsv.v - properties C15-C17 (reading TSV files).  Statements only.
    Vocabulary: TsvSpec.v.  Model: Tsv.v. *)
From Verif Require Import Base F32 Column DataStore Strings Tsv TsvSpec Tsv_proofs TsvProps_proofs.

(** ** C15 - a TSV block is parsed row by row *)
Theorem C15_block_rows fs strtof file content fidx sidx skip : fs file = Some content ->
  let lines := data_lines skip content in
  exists b, read_tsv fs strtof file fidx sidx skip = Ret b /\
  match b with
  | POk (fl, sl) =>
      Forall2 (fun i col => float_cells strtof i lines col) fidx fl /\
      Forall2 (fun i col => string_cells i lines col) sidx sl
  | PErr e =>
      exists pre line post, lines = pre ++ line :: post /\
        (forall l, In l pre -> line_ok strtof fidx sidx l) /\ ~ line_ok strtof fidx sidx line /\
        ((e = OUT_OF_RANGE /\ exists i, In i (sidx ++ fidx) /\ cell line i = None) \/
         (e = INVALID_ARGUMENT /\ (forall i, In i sidx -> exists x, cell line i = Some x) /\
          exists i x, In i fidx /\ cell line i = Some x /\ float_value strtof x = None))
  end.
Proof. exact (tsv_block fs strtof file content fidx sidx skip). Qed.
Print Assumptions C15_block_rows.

(** It succeeds exactly when every data line has all requested cells and numbers. *)
Theorem C15_block_success fs strtof file content fidx sidx skip b : fs file = Some content ->
  read_tsv fs strtof file fidx sidx skip = Ret b ->
  ((exists fl sl, b = POk (fl, sl)) <->
   forall l, In l (data_lines skip content) -> line_ok strtof fidx sidx l).
Proof. exact (tsv_block_success fs strtof file content fidx sidx skip b). Qed.
Print Assumptions C15_block_success.

(** A number parser for the examples: one digit. *)
Definition digit_strtof : strtof_t := fun s =>
  match s with
  | c :: _ => let n := nat_of_ascii c in
      if (48 <=? n) && (n <=? 57) then (f32_of_Z (Z.of_nat (n - 48)), 1) else (fnan, 0)
  | [] => (fnan, 0)
  end.
Definition tabbed (l : list string) : str := join (map lit l) [tab].
Definition file1 : str := join [tabbed ["y"; " f "; "s"]; tabbed ["1"; "2"; "a"]; []; tabbed ["3"; "?"; "b"]]%string [nl].
Definition file2 : str := join [tabbed ["5"; "6"; "b"]; []]%string [nl].
Definition ex_fs : files_t := fun f =>
  if str_eqb f (lit "one") then Some file1 else if str_eqb f (lit "two") then Some file2 else None.
Definition num (z : Z) : f32 := f32_of_Z z.

Example C15_example :
  read_tsv ex_fs digit_strtof (lit "one") [0; 1] [2] true =
    Ret (POk ([[num 1; num 3]; [num 2; fnan]], [[lit "a"; lit "b"]])) /\
  read_tsv ex_fs digit_strtof (lit "one") [0; 3] [2] true = Ret (PErr OUT_OF_RANGE) /\
  read_tsv ex_fs digit_strtof (lit "one") [2] [] true = Ret (PErr INVALID_ARGUMENT).
Proof. vm_compute. auto. Qed.

(** ** C16 - several files, any schedule *)
(** What any complete run of a load gives, when the configured names are distinct and present. *)
Theorem C16_load_result fs strtof files first more c : files = first :: more ->
  names_present fs first c -> NoDup (all_names c) ->
  exists s0, load_start fs files c = Ret s0 /\
  forall s, lreach fs strtof files s0 s -> lfinal s ->
  match s with
  | Running _ _ _ => False
  | Done SOk t =>
      exists lines, lines_of fs true files lines /\
      forall n k, role_of c n k -> exists i b, header_position fs first n i /\
        tsv_get n t = Some (mkCol n b) /\ column_holds strtof k i lines b
  | Done (SErr e) _ =>
      exists fp sp m f, float_positions fs first c fp /\ string_positions fs first c sp /\
        nth_error files m = Some f /\ read_tsv fs strtof f fp sp (m =? 0) = Ret (PErr e) /\
        forall i g, i < m -> nth_error files i = Some g ->
          exists blk, read_tsv fs strtof g fp sp (i =? 0) = Ret (POk blk)
  | Crash => exists n i, In n (cc_float_feature c) /\ header_position fs first n i /\
               bucketizing_fails fs strtof files i
  end.
Proof. exact (load_result fs strtof files first more c). Qed.
Print Assumptions C16_load_result.

Theorem C16_schedule_independent fs strtof files first more c s0 s1 s2 : files = first :: more ->
  names_present fs first c -> NoDup (all_names c) -> load_start fs files c = Ret s0 ->
  lreach fs strtof files s0 s1 -> lreach fs strtof files s0 s2 -> lfinal s1 -> lfinal s2 -> s1 = s2.
Proof. exact (load_deterministic fs strtof files first more c s0 s1 s2). Qed.
Print Assumptions C16_schedule_independent.

(** No run is infinite, and a run that can not continue is complete. *)
Theorem C16_terminates fs strtof files c s0 s : load_start fs files c = Ret s0 ->
  lreach fs strtof files s0 s ->
  Acc (fun a b => lstep fs strtof files b a) s /\ (lfinal s \/ exists s', lstep fs strtof files s s').
Proof.
  exact (fun E R => conj (TsvLoad_proofs.lstep_wf fs strtof files s)
                         (load_progress fs strtof files c s0 s E R)).
Qed.
Print Assumptions C16_terminates.

Theorem C16_missing_name fs files first more c : files = first :: more -> has_header fs first ->
  (exists n, In n (all_names c) /\ forall i, ~ header_position fs first n i) ->
  load_start fs files c = Ret (Done (SErr NOT_FOUND) tsv_init).
Proof. exact (missing_name fs files first more c). Qed.
Print Assumptions C16_missing_name.

Definition ex_config : columns_config := mkCC [lit "f"] [] (lit "y") [] [lit "s"] [] [].
Definition ex_files : list str := [lit "one"; lit "two"].

(** The second file is parsed before the first. *)
Example C16_example : exists s0 t b, load_start ex_fs ex_files ex_config = Ret s0 /\
  lreach ex_fs digit_strtof ex_files s0 (Done SOk t) /\
  tsv_get (lit "y") t = Some (mkCol (lit "y") (BodyR (mkR SOk [num 1; num 3; num 5]))) /\
  tsv_get (lit "s") t = Some (mkCol (lit "s") (BodyS b)) /\
  map (str_row b) [0; 1; 2] = [Ret (lit "a"); Ret (lit "b"); Ret (lit "b")].
Proof.
  do 3 eexists. split; [vm_compute; reflexivity|]. split; [|split; [|split]].
  - eapply LStep; [eapply LStep; [eapply LStep; [eapply LStep; [eapply LStep; [apply LRefl|]|]|]|]|].
    + eapply (StWorker _ _ _ 1); vm_compute; reflexivity.
    + eapply (StWorker _ _ _ 0); vm_compute; reflexivity.
    + eapply (StAdd _ _ _ _ _ _ _ SOk); [vm_compute; reflexivity|apply Permutation_refl| |];
        vm_compute; reflexivity.
    + eapply (StAdd _ _ _ _ _ _ _ SOk); [vm_compute; reflexivity|apply Permutation_refl| |];
        vm_compute; reflexivity.
    + eapply (StEnd _ _ _ _ _ SOk); [vm_compute; reflexivity|apply Permutation_refl| |];
        vm_compute; reflexivity.
  - vm_compute. reflexivity.
  - vm_compute. reflexivity.
  - vm_compute. reflexivity.
Qed.

(** ** C17 - naming a column twice *)
(** If the first file's data is readable, every complete run uses a destroyed column object. *)
Theorem C17_duplicate_name fs strtof files first more c content : files = first :: more ->
  fs first = Some content -> names_present fs first c -> ~ NoDup (all_names c) ->
  (forall fp sp, float_positions fs first c fp -> string_positions fs first c sp ->
     forall l, In l (data_lines true content) -> line_ok strtof fp sp l) ->
  exists s0, load_start fs files c = Ret s0 /\
    (forall s, lreach fs strtof files s0 s -> lfinal s -> s = Crash) /\
    lreach fs strtof files s0 Crash.
Proof. exact (duplicate_crash fs strtof files first more c content). Qed.
Print Assumptions C17_duplicate_name.

(** With distinct names every handle refers to a live object of the type of its role. *)
Theorem C17_distinct_names fs first c : names_present fs first c -> NoDup (all_names c) ->
  exists t, setup_columns fs first c = Ret (POk t) /\
    (forall k id pos, In (k, id, pos) (t_handles t) -> exists n, role_of c n k /\
       nth_error (t_heap t) id = Some (Some (mkCol n (fresh k)))) /\
    (forall n k, role_of c n k -> tsv_get n t = Some (mkCol n (fresh k))).
Proof. exact (distinct_setup fs first c). Qed.
Print Assumptions C17_distinct_names.

(** The target is also listed as a float feature: one handle is dead, the other is alive. *)
Example C17_example :
  exists t, setup_columns ex_fs (lit "one") (mkCC [lit "y"; lit "f"] [] (lit "y") [] [] [] []) = Ret (POk t) /\
  t_handles t = [(KB, 0, 0); (KB, 1, 1); (KR, 2, 2)] /\
  map (fun o => match o with Some c => Some (c_name c) | None => None end) (t_heap t) =
    [None; Some (lit "f"); Some (lit "y")].
Proof. eexists. split; [vm_compute; reflexivity|]. vm_compute. auto. Qed.
