(** Tsv.v - model of src/data_store/tsv_block.cc and tsv_data_store.cc.  Definitions only. *)
From Verif Require Import Base F32 Column DataStore Strings.

(** Either an error status or a value. *)
Inductive parsed (A : Type) := PErr (c : code) | POk (a : A).
Arguments PErr {A} c.
Arguments POk {A} a.

(** The file system: content of a file, [None] if it can not be opened.  Simplification: files do not
    change during the load, and reading an opened file does not fail. *)
Definition files_t := str -> option str.

(** ** TSVBlock *)

(** kValidNaNValues_ (tsv_block.cc:29) *)
Definition nan_tokens : list str :=
  [lit "NAN"; lit "nan"; lit "NaN"; lit "?"; lit "_"; lit "-"; lit "*"].

(** Body of the string loop (tsv_block.cc:64-72) and of the float loop (75-98) for one line.  A column
    is kept next to the index it reads from.  Indices are int, here nat (SetupColumns only produces
    non-negative ones).  On an error the partially filled columns are dropped: LoadTSVs returns
    without reading them. *)
Fixpoint push_cells {A} (cell : str -> parsed A) (row : list str) (cols : list (nat * list A))
  : parsed (list (nat * list A)) :=
  match cols with
  | [] => POk []
  | (i, col) :: t =>
      match nth_error row i with
      | None => PErr OUT_OF_RANGE
      | Some x =>
          match cell x with
          | PErr e => PErr e
          | POk v =>
              match push_cells cell row t with
              | PErr e => PErr e
              | POk r => POk ((i, col ++ [v]) :: r)
              end
          end
      end
  end.

Definition string_cell (x : str) : parsed str := POk x.
Definition float_cell (strtof : strtof_t) (x : str) : parsed f32 :=
  match string_cast strtof x with
  | Some v => POk v
  | None => if in_dec str_eq_dec x nan_tokens then POk fnan else PErr INVALID_ARGUMENT
  end.

(** The read loop (tsv_block.cc:58-99). *)
Fixpoint read_lines (strtof : strtof_t) (lines : list str)
    (scols : list (nat * list str)) (fcols : list (nat * list f32))
  : res (parsed (list (nat * list f32) * list (nat * list str))) :=
  match lines with
  | [] => Ret (POk (fcols, scols))
  | line :: t =>
      match line with
      | [] => read_lines strtof t scols fcols
      | _ =>
          let! row := split line [tab] in
          match push_cells string_cell row scols with
          | PErr e => Ret (PErr e)
          | POk scols' =>
              match push_cells (float_cell strtof) row fcols with
              | PErr e => Ret (PErr e)
              | POk fcols' => read_lines strtof t scols' fcols'
              end
          end
      end
  end.

(** The columns of a block, or its error status. *)
Definition block := parsed (list (list f32) * list (list str)).

(** ReadTSV (tsv_block.cc:38-105) *)
Definition read_tsv (fs : files_t) (strtof : strtof_t) (file : str) (fidx sidx : list nat)
    (skip_header : bool) : res block :=
  match fs file with
  | None => Ret (PErr NOT_FOUND)
  | Some content =>
      let lines := file_lines content in
      let! r := read_lines strtof (if skip_header then tl lines else lines)
                  (map (fun i => (i, [])) sidx) (map (fun i => (i, [])) fidx) in
      match r with
      | PErr e => Ret (PErr e)
      | POk (f, s) => Ret (POk (map snd f, map snd s))
      end
  end.

(** ** TSVDataStore *)

(** The fields of Config that name columns (src/proto/config.proto). *)
Record columns_config := mkCC {
  cc_float_feature : list str;
  cc_additional_float : list str;
  cc_target : str;
  cc_weight : str;
  cc_categorical : list str;
  cc_group : str;
  cc_additional_string : list str
}.

Definition opt_name (n : str) : list str := match n with [] => [] | _ => [n] end.
(** raw_float_columns (tsv_data_store.cc:163-170) *)
Definition raw_names (c : columns_config) : list str :=
  cc_additional_float c ++ opt_name (cc_target c) ++ opt_name (cc_weight c).
(** string_columns, then additional_string_column (tsv_data_store.cc:185-211) *)
Definition string_names (c : columns_config) : list str :=
  cc_categorical c ++ opt_name (cc_group c) ++ cc_additional_string c.

Inductive kind := KB | KR | KS.
(** new BucketizedFloatColumn(header) etc.; the default budget is 30000 (column.h:141-142) *)
Definition fresh (k : kind) : body :=
  match k with KB => BodyB (b_init default_buckets) | KR => BodyR r_init | KS => BodyS str_init end.

(** Column objects live on a heap: [None] is a destroyed object.  [t_map] is column_map_ (latest
    binding first; an overwritten binding stays behind it), [t_handles] the three vectors
    bucketized_float_columns_, raw_float_columns_, string_columns_ in one list:
    kind, object, position in float_column_indices_ or string_column_indices_. *)
Record tsv := mkTsv {
  t_heap : list (option column);
  t_map : list (str * nat);
  t_handles : list (kind * nat * nat);
  t_fidx : list nat;
  t_sidx : list nat
}.
Definition tsv_init : tsv := mkTsv [] [] [] [] [].

(** Body of the four loops in SetupColumns (tsv_data_store.cc:149-160, 172-183, 190-199, 202-211).
    column_map_[header].reset(new ...) destroys a column stored under the same name. *)
Definition setup_one (hdr : list (str * nat)) (k : kind) (t : tsv) (n : str) : parsed tsv :=
  match assoc n hdr with
  | None => PErr NOT_FOUND
  | Some i =>
      let id := List.length (t_heap t) in
      let heap := match assoc n (t_map t) with
                  | Some old => set_nth old None (t_heap t)
                  | None => t_heap t
                  end ++ [Some (mkCol n (fresh k))] in
      match k with
      | KS => POk (mkTsv heap ((n, id) :: t_map t)
                     (t_handles t ++ [(k, id, List.length (t_sidx t))]) (t_fidx t) (t_sidx t ++ [i]))
      | _ => POk (mkTsv heap ((n, id) :: t_map t)
                     (t_handles t ++ [(k, id, List.length (t_fidx t))]) (t_fidx t ++ [i]) (t_sidx t))
      end
  end.

Fixpoint setup_all (hdr : list (str * nat)) (todo : list (kind * str)) (t : tsv) : parsed tsv :=
  match todo with
  | [] => POk t
  | (k, n) :: rest =>
      match setup_one hdr k t n with PErr e => PErr e | POk t' => setup_all hdr rest t' end
  end.

(** map_from_header_to_index (tsv_data_store.cc:141-145): a later duplicate wins. *)
Definition header_map (headers : list str) : list (str * nat) :=
  rev (combine (map trim headers) (seq 0 (List.length headers))).

Definition roles (c : columns_config) : list (kind * str) :=
  map (pair KB) (cc_float_feature c) ++ map (pair KR) (raw_names c) ++ map (pair KS) (string_names c).

(** SetupColumns (tsv_data_store.cc:134-214) *)
Definition setup_columns (fs : files_t) (first : str) (c : columns_config) : res (parsed tsv) :=
  match fs first with
  | None => Ret (PErr NOT_FOUND)
  | Some content =>
      match file_lines content with
      | [] => Undef
      | line :: _ =>
          let! headers := split line [tab] in
          Ret (setup_all (header_map headers) (roles c) tsv_init)
      end
  end.

(** A task on one column object. *)
Definition task := (nat * (body -> res body))%type.

Definition run_task (heap : list (option column)) (tk : task) : res (list (option column)) :=
  match nth_error heap (fst tk) with
  | Some (Some c) =>
      let! b := snd tk (c_body c) in Ret (set_nth (fst tk) (Some (mkCol (c_name c) b)) heap)
  | _ => Undef  (* use after free *)
  end.

(** The lambdas of ProcessBlock (tsv_data_store.cc:104-112) *)
Definition add_task (fl : list (list f32)) (sl : list (list str)) (h : kind * nat * nat) : task :=
  let '(k, id, pos) := h in
  (id, fun b =>
    match k, b with
    | KB, BodyB c => let! d := vget fl pos in let! c' := b_add d c in Ret (BodyB c')
    | KR, BodyR c => let! d := vget fl pos in Ret (BodyR (r_add d c))
    | KS, BodyS c => let! d := vget sl pos in Ret (BodyS (str_add d c))
    | _, _ => Undef
    end).

(** The lambdas of Finalize (tsv_data_store.cc:121-129) *)
Definition fin_task (h : kind * nat * nat) : task :=
  let '(k, id, _) := h in
  (id, fun b =>
    match k, b with
    | KB, BodyB c => let! c' := b_finalize c in Ret (BodyB c')
    | KR, BodyR c => Ret (BodyR (r_finalize c))
    | KS, BodyS c => Ret (BodyS (str_finalize c))
    | _, _ => Undef
    end).

Definition col_status (c : column) : status :=
  match c_body c with BodyB b => b_status b | BodyR r => r_status r | BodyS s => s_status s end.

(** MaybeFindFirstNotOK (tsv_data_store.cc:44-51), in the order of the list.  The scan stops at the first
    binding of a name; shadowed bindings are not in the map. *)
Fixpoint first_not_ok (seen : list str) (m : list (str * nat)) (heap : list (option column)) : res status :=
  match m with
  | [] => Ret SOk
  | (n, id) :: t =>
      if in_dec str_eq_dec n seen then first_not_ok seen t heap
      else match nth_error heap id with
           | Some (Some c) =>
               if is_ok (col_status c) then first_not_ok (n :: seen) t heap else Ret (col_status c)
           | _ => Undef
           end
  end.

(** LoadTSVs after SetupColumns (tsv_data_store.cc:72-95) as a transition system.
    [Running proms next t]: the promises fulfilled so far by pool threads, and the main thread
    waiting for block [next].  Pool threads may fulfil promises in any order; the tasks of ProcessBlock and
    Finalize run in any order on different objects (one task per handle; the pool's destructor waits
    for all of them, property C20). *)
Inductive lstate :=
| Running (proms : list (option block)) (next : nat) (t : tsv)
| Done (s : status) (t : tsv)
| Crash.

Definition with_heap (t : tsv) (h : list (option column)) : tsv :=
  mkTsv h (t_map t) (t_handles t) (t_fidx t) (t_sidx t).

Inductive lstep (fs : files_t) (strtof : strtof_t) (files : list str) : lstate -> lstate -> Prop :=
| StWorker i f b proms next t :
    nth_error files i = Some f -> nth_error proms i = Some None ->
    read_tsv fs strtof f (t_fidx t) (t_sidx t) (i =? 0) = Ret b ->
    lstep fs strtof files (Running proms next t) (Running (set_nth i (Some b) proms) next t)
| StWorkerCrash i f proms next t :
    nth_error files i = Some f -> nth_error proms i = Some None ->
    (forall b, read_tsv fs strtof f (t_fidx t) (t_sidx t) (i =? 0) <> Ret b) ->
    lstep fs strtof files (Running proms next t) Crash
| StBad e proms next t :
    nth_error proms next = Some (Some (PErr e)) ->
    lstep fs strtof files (Running proms next t) (Done (SErr e) t)
| StAdd fl sl order heap s proms next t :
    nth_error proms next = Some (Some (POk (fl, sl))) ->
    Permutation order (map (add_task fl sl) (t_handles t)) ->
    fold_res run_task order (t_heap t) = Ret heap ->
    first_not_ok [] (t_map t) heap = Ret s ->
    lstep fs strtof files (Running proms next t)
      (match s with SOk => Running proms (S next) (with_heap t heap) | _ => Done s (with_heap t heap) end)
| StAddCrash fl sl order proms next t :
    nth_error proms next = Some (Some (POk (fl, sl))) ->
    Permutation order (map (add_task fl sl) (t_handles t)) ->
    (forall heap, fold_res run_task order (t_heap t) = Ret heap ->
       forall s, first_not_ok [] (t_map t) heap <> Ret s) ->
    lstep fs strtof files (Running proms next t) Crash
| StEnd order heap s proms next t :
    next = List.length files ->
    Permutation order (map fin_task (t_handles t)) ->
    fold_res run_task order (t_heap t) = Ret heap ->
    first_not_ok [] (t_map t) heap = Ret s ->
    lstep fs strtof files (Running proms next t) (Done s (with_heap t heap))
| StEndCrash order proms next t :
    next = List.length files ->
    Permutation order (map fin_task (t_handles t)) ->
    (forall heap, fold_res run_task order (t_heap t) = Ret heap ->
       forall s, first_not_ok [] (t_map t) heap <> Ret s) ->
    lstep fs strtof files (Running proms next t) Crash.

Inductive lreach (fs : files_t) (strtof : strtof_t) (files : list str) : lstate -> lstate -> Prop :=
| LRefl s : lreach fs strtof files s s
| LStep s1 s2 s3 : lreach fs strtof files s1 s2 -> lstep fs strtof files s2 s3 ->
    lreach fs strtof files s1 s3.

Definition lfinal (s : lstate) : Prop := match s with Running _ _ _ => False | _ => True end.

(** LoadTSVs (tsv_data_store.cc:59-99): what it starts from once the first checks pass. *)
Definition load_start (fs : files_t) (files : list str) (c : columns_config) : res lstate :=
  match files with
  | [] => Ret (Done (SErr INVALID_ARGUMENT) tsv_init)
  | first :: _ =>
      let! r := setup_columns fs first c in
      match r with
      | PErr e => Ret (Done (SErr e) tsv_init)
      | POk t => Ret (Running (map (fun _ => None) files) 0 t)
      end
  end.

(** GetColumn on the loaded store: the object bound to the name. *)
Definition tsv_get (n : str) (t : tsv) : option column :=
  match assoc n (t_map t) with
  | Some id => match nth_error (t_heap t) id with Some (Some c) => Some c | _ => None end
  | None => None
  end.
