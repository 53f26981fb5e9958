(** Prop_JsonText.v - the text of a saved forest (property C96). *)
From Coq Require Import SpecFloat Reals.
From Verif Require Import Base F32 Column DataStore Strings Tsv Flatfiles Num Forest Config Score Eval SplitSpec Tree Train Loss Pairwise Driver DriverSpec AccuracySpec Draw Saved SavedSpec SpellingSpec TrainedSpec
  Saved_proofs JsonText JsonSpec JsonText_proofs JsonSound_proofs JsonWrite_proofs Options Loaded_proofs Prop_Score Prop_Draw Prop_Saved.
Local Close Scope R_scope.

(** The texts that are read are those of the grammar, and they are read as the values they stand for. *)
Theorem C96_documents s j : parse_json s = Some j <-> json_document j s.
Proof. exact (read_document s j). Qed.
Print Assumptions C96_documents.

(** What is written for a forest is a text of its JSON form, *)
Theorem C96_written {c_exp c_log : f64 -> f64} k (f : forest (IEEE c_exp c_log)) meta : Forall writable_tree f ->
  json_document (forest_json (float_text (Z.of_nat (S k))) double_text f meta) (forest_text (S k) f meta).
Proof. exact (forest_written k f meta). Qed.
Print Assumptions C96_written.
(** and with nine digits it is read as the forest, but for the signs of zeros. *)
Theorem C96_kept {c_exp c_log : f64 -> f64} (f : forest (IEEE c_exp c_log)) meta : Forall writable_tree f -> ~ In TNone f ->
  exists f', read_forest (forest_text 9 f meta) = Some (f', meta) /\ Forall2 like f f' /\ Forall no_minus_zero f'.
Proof. exact (text_loaded f meta). Qed.
Print Assumptions C96_kept.

(** So is any other text of the form, whatever its blanks, escapes and spellings of numbers, *)
Theorem C96_loaded {c_exp c_log : f64 -> f64} reread regain (f : forest (IEEE c_exp c_log)) meta s :
  float_writer reread -> double_writer regain -> Forall writable_tree f -> ~ In TNone f -> json_document (forest_json reread regain f meta) s ->
  exists f', read_forest s = Some (f', meta) /\ Forall2 like f f' /\ Forall no_minus_zero f'.
Proof. exact (document_loaded reread regain f meta s). Qed.
Print Assumptions C96_loaded.
(** and texts whose fields have other names or another order, or are left out. *)
Theorem C96_spellings {c_exp c_log : f64 -> f64} j j' s s' r : respelled j j' -> json_document j s -> json_document j' s' ->
  read_forest (c_exp := c_exp) (c_log := c_log) s = Some r -> read_forest (c_exp := c_exp) (c_log := c_log) s' = Some r.
Proof. exact (text_spelling j j' s s' r). Qed.
Print Assumptions C96_spellings.

(** Whatever is read: the numbers have the types of their fields, and no tree is missing. *)
Theorem C96_numbers {c_exp c_log : f64 -> f64} text (f : forest (IEEE c_exp c_log)) meta : read_forest text = Some (f, meta) -> Forall typed_tree f /\ ~ In TNone f.
Proof. exact (read_typed text f meta). Qed.
Print Assumptions C96_numbers.

(** Training from the command line: the model file holds the forest that was trained. *)
Theorem C96_files {c_exp c_log : f64 -> f64} fs can_open meta show flat tsv srt top draw to_uint pick importance fg ws :
  gives_doubles c_exp -> gives_doubles c_log -> fg_mode fg = lit "train" ->
  main (N := IEEE c_exp c_log) fs can_open text_config text_forest (forest_file meta) show flat tsv srt top draw to_uint pick importance fg = (ws, Exits) ->
  exists c src base lf w y r text, configured fs text_config fg c /\ data_of flat tsv fg c src /\ base_given fs text_forest fg base /\
    create_loss srt (fg_num_threads fg) to_uint (pick (fg_seed fg)) c = Some lf /\ sample_weights c (src_get src) = Ret w /\ targets c (src_get src) = Ret y /\
    train (source_view src (asked_for_training c)) (fg_num_threads fg) top (draw (fg_seed fg)) 0 srt (config_features c) w y lf c base = Ret r /\ tr_status r = SOk /\
    hd_error ws = Some (out_file fg ".json", text) /\
    (Forall moderate (tr_forest r) -> exists f', text_forest text = Some f' /\ Forall2 like (tr_forest r) f' /\ Forall no_minus_zero f').
Proof. exact (files_train fs can_open meta show flat tsv srt top draw to_uint pick importance fg ws). Qed.
Print Assumptions C96_files.

(** The text of the forest of C94, and the same forest written by hand *)
Definition ex_quoted (s : String.string) : str := map (fun c => if ascii_dec c "'"%char then char 34 else if ascii_dec c "~"%char then char 92 else c) (lit s).
Definition ex_small : forest Ex := [TNode (dbl 0) (Some (mkSplit (lit "x<" ++ [char 10]) (Some (ex_third32, true)) None (SFdiv 53 1024 (dbl 1) (dbl 3) : Ex))) (ex_leaf_of (dbl 100000000)) (ex_leaf_of S754_nan)].
Definition ex_show (r : option (forest Ex * str)) := option_map (fun r => (map ex_nodes (fst r), snd r)) r.
Example C96_example :
  forest_text 9 ex_small (lit "note") = ex_quoted
    "{'tree':[{'score':0,'split':{'feature':'x~u003c~n','floatSplit':{'threshold':0.333333343,'missingToRightChild':true},'gain':0.33333333333333331},'leftChild':{'score':1e+08},'rightChild':{'score':'NaN'}}],'metaInfo':'note'}" /\
  ex_show (read_forest (forest_text 9 ex_small (lit "note"))) = Some (map ex_nodes ex_small, lit "note") /\
  ex_show (read_forest (ex_quoted
    " { 'meta_info' : 'n~u006Fte', 'tree':[ {'right_child':{'score':'NaN'} , 'left_child':{'score':100000.0E3},'split':{'feature' :'~u0078<~n','gain':3333333333333333.1e-16,'float_split':{'missing_to_right_child':true,'threshold':0.333333343 }}}]} ")) =
    Some (map ex_nodes ex_small, lit "note") /\
  ex_show (read_forest (forest_text 9 ex_kept (lit "note"))) = ex_show (forest_of (forest_json (float_text 9) double_text ex_kept (lit "note"))).
Proof. vm_compute. repeat split; reflexivity. Qed.
(** Not texts of JSON *)
Example C96_refused : map (fun s => parse_json (ex_quoted s)) [""; "01"; "1."; ".5"; "+1"; "1e"; "[1,]"; "{'a':1,}"; "{a:1}"; "'~x'"; "[1] 2"; "tru"]%string = repeat None 12 /\ parse_json [char 34; char 10; char 34] = None.
Proof. vm_compute. split; reflexivity. Qed.
