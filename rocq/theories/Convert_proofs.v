(** Convert_proofs.v - TSV text to flat files (property C83). *)
From Verif Require Import Base F32 Column ColumnSpec DataStore Strings StringsSpec Tsv TsvSpec Flatfiles FlatSpec Convert ConvertSpec Base_proofs Strings_proofs StringsText_proofs Flat_proofs.

Lemma is_true a b : is a b = true <-> a = b.
Proof. unfold is. destruct (ascii_dec a b); split; congruence. Qed.
Lemma is_false a b : a <> b -> is a b = false.
Proof. unfold is. destruct (ascii_dec a b); congruence. Qed.

(** ** Records *)
Section Csv.
Variable d : ascii.
Hypothesis Dnl : d <> nl.
Hypothesis Dcr : d <> cr.
Hypothesis Dq : d <> quote.
Hypothesis Dz : d <> zero.
Definition fine (c : ascii) : Prop := c <> nl /\ c <> cr /\ c <> quote /\ c <> zero.
Definition ending (e : str) : Prop := forall c, In c e -> c = nl \/ c = cr.

Lemma eat e : ending e -> forall fields : list str, csv_chars d (EatNewline, [], fields) e = Some (StartRecord, [], fields).
Proof using.
  intros E fields. induction e as [|c e IH]; [reflexivity|]. cbn [csv_chars]. unfold csv_char.
  assert (K : c = nl \/ c = cr) by (apply E; left; reflexivity).
  assert (Z : is c zero = false) by (apply is_false; destruct K as [->| ->]; discriminate). rewrite Z. cbn [fst].
  assert (N : is c nl || is c cr = true) by (destruct K as [->| ->]; reflexivity). rewrite N. apply IH. intros x X. apply E. right. exact X.
Qed.
Definition cut_after (cur s : str) : list str := match cut d s with [] => [] | p :: ps => (rev cur ++ p) :: ps end.
Lemma fields_end st (cur : str) (fields : list str) e : ending e -> (st = StartField \/ st = InField) -> (st = StartField -> cur = []) ->
  csv_chars d (st, cur, fields) e = Some (StartRecord, [], rev cur :: fields).
Proof using.
  intros E S C. destruct e as [|c e]; [destruct S as [-> | ->]; reflexivity|].
  assert (K : c = nl \/ c = cr) by (apply E; left; reflexivity). cbn [csv_chars]. unfold csv_char.
  assert (Z : is c zero = false) by (apply is_false; destruct K as [->| ->]; discriminate). rewrite Z. cbn [fst].
  assert (N : is c nl || is c cr = true) by (destruct K as [->| ->]; reflexivity).
  assert (E' : ending e) by (intros x X; apply E; right; exact X).
  destruct S as [-> | ->]; [unfold csv_field|]; rewrite N; cbn [save]; apply eat; exact E'.
Qed.
Lemma char_step (st : csv_state) (cur : str) (fields : list str) c : fine c -> st = StartField \/ st = InField ->
  csv_char d (st, cur, fields) c = Some (if is c d then save StartField (st, cur, fields) else put InField c (st, cur, fields)).
Proof using.
  intros (N1 & N2 & N3 & N4) S. unfold csv_char. rewrite (is_false c zero N4). cbn [fst]. unfold csv_field.
  rewrite (is_false c nl N1), (is_false c cr N2), (is_false c quote N3). cbn [orb]. destruct S as [-> | ->]; reflexivity.
Qed.
Lemma fields_run s : (forall c, In c s -> fine c) -> forall e st (cur : str) (fields : list str), ending e -> (st = StartField /\ cur = [] \/ st = InField) ->
  csv_chars d (st, cur, fields) (s ++ e) = Some (StartRecord, [], rev (cut_after cur s) ++ fields).
Proof using Dz Dq Dnl Dcr.
  induction s as [|c s IH]; intros F e st cur fields E S.
  - cbn [app]. rewrite fields_end; [|exact E|destruct S as [[-> _]| ->]; auto|intros ->; destruct S as [[_ ->]|]; [reflexivity|discriminate]].
    unfold cut_after. cbn. rewrite app_nil_r. reflexivity.
  - destruct (F c (or_introl eq_refl)) as (N1 & N2 & N3 & N4). assert (F' : forall x, In x s -> fine x) by (intros x X; apply F; right; exact X).
    cbn [app csv_chars]. rewrite (char_step st cur fields c) by (first [exact (F c (or_introl eq_refl))|tauto]).
    unfold cut_after. cbn [cut]. unfold is. destruct (ascii_dec c d) as [->|Nd].
    + etransitivity; [exact (IH F' e StartField [] (rev cur :: fields) E (or_introl (conj eq_refl eq_refl)))|]. unfold cut_after. cbn [rev app].
      destruct (cut_nonempty d s) as (p & ps & ->). cbn [rev app]. rewrite app_nil_r. cbn [rev]. rewrite <- !app_assoc. reflexivity.
    + etransitivity; [exact (IH F' e InField (c :: cur) fields E (or_intror eq_refl))|]. unfold cut_after. cbn [put save].
      destruct (cut_nonempty d s) as (p & ps & ->). cbn [rev app]. rewrite <- !app_assoc. reflexivity.
Qed.
(** The record of a line *)
Definition record (l : str) : list str := match l with [] => [] | _ => cut d l end.
Lemma line_record s e : (forall c, In c s -> fine c) -> ending e -> csv_chars d csv_start (s ++ e) = Some (StartRecord, [], rev (record s)).
Proof using Dz Dq Dnl Dcr.
  intros F E. destruct s as [|c s].
  - cbn [app record rev]. destruct e as [|c e]; [reflexivity|]. assert (K : c = nl \/ c = cr) by (apply E; left; reflexivity). cbn [csv_chars]. unfold csv_char.
    assert (Z : is c zero = false) by (apply is_false; destruct K as [->| ->]; discriminate). rewrite Z. cbn [fst csv_start].
    assert (N : is c nl || is c cr = true) by (destruct K as [->| ->]; reflexivity). rewrite N. apply eat. intros x X. apply E. right. exact X.
  - assert (Eq : csv_chars d csv_start ((c :: s) ++ e) = csv_chars d (StartField, [], []) ((c :: s) ++ e)).
    { destruct (F c (or_introl eq_refl)) as (N1 & N2 & N3 & N4). cbn [app csv_chars]. unfold csv_char. cbn [fst csv_start]. rewrite (is_false c nl N1), (is_false c cr N2).
      unfold csv_field, csv_start. rewrite (is_false c nl N1), (is_false c cr N2). cbn [orb]. destruct (is c quote), (is c d); reflexivity. }
    rewrite Eq. etransitivity; [exact (fields_run (c :: s) F e StartField [] [] E (or_introl (conj eq_refl eq_refl)))|]. rewrite app_nil_r. unfold cut_after, record. cbn [rev app].
    destruct (cut d (c :: s)); reflexivity.
Qed.
Lemma csv_lines ls : Forall (fun p => (forall c, In c (fst p) -> fine c) /\ ending (snd p)) ls ->
  csv_records d csv_start (map (fun p => fst p ++ snd p) ls) = Some (map (fun p => record (fst p)) ls).
Proof using Dz Dq Dnl Dcr.
  induction 1 as [|[s e] ls [F E] A IH]; [reflexivity|]. cbn [map csv_records fst snd] in *. rewrite (line_record s e F E). cbn [fst snd]. rewrite IH, rev_involutive. reflexivity.
Qed.
End Csv.

(** ** Lines *)
Lemma chomp_split s : exists e, s = chomp s ++ e /\ forall c, In c e -> c = cr.
Proof.
  induction s as [|x t (e & E & H)]; [exists []; split; [reflexivity|contradiction]|]. cbn [chomp]. destruct (chomp t) as [|u us] eqn:C.
  - destruct (ascii_dec x carriage_return) as [->|N].
    + exists (carriage_return :: t). split; [reflexivity|]. cbn [app] in E. subst e. intros c [<-|X]; [reflexivity|apply H, X].
    + exists e. cbn [app] in *. subst e. split; [reflexivity|exact H].
  - exists e. split; [cbn [app] in *; f_equal; exact E|exact H].
Qed.
Lemma input_form rest : forall cur, exists qs z, match cut newline rest with p :: ps => (rev cur ++ p) :: ps | [] => [] end = qs ++ [z] /\
  input_lines cur rest = map (fun l => l ++ [nl]) qs ++ match z with [] => [] | _ => [z] end.
Proof.
  induction rest as [|c t IH]; intros cur.
  - exists [], (rev cur). cbn. rewrite app_nil_r. split; [reflexivity|]. destruct cur as [|x cur]; [reflexivity|]. cbn [rev]. destruct (rev cur ++ [x]) eqn:E; [destruct (rev cur); discriminate|reflexivity].
  - cbn [cut input_lines]. change newline with nl in *. destruct (ascii_dec c nl) as [->|N].
    + destruct (IH []) as (qs & z & E1 & E2). exists (rev cur :: qs), z. rewrite E2. cbn [rev map app] in *. split; [|reflexivity].
      rewrite app_nil_r. f_equal. rewrite <- E1. destruct (cut nl t); reflexivity.
    + destruct (IH (c :: cur)) as (qs & z & E1 & E2). exists qs, z. rewrite E2. split; [|reflexivity]. rewrite <- E1.
      destruct (cut nl t) as [|p ps]; [reflexivity|]. cbn [rev]. rewrite <- app_assoc. reflexivity.
Qed.
Lemma chomp_empty z : chomp z <> [] -> z <> [].
Proof. intros H ->. apply H. reflexivity. Qed.
Definition plain_char (c : ascii) : Prop := c <> quote /\ c <> zero.
Lemma chomp_in s c : In c (chomp s) -> In c s.
Proof. destruct (chomp_split s) as (e & E & _). intros I. rewrite E. apply in_app_iff. left. exact I. Qed.
Lemma cut_in c s w x : In w (cut c s) -> In x w -> In x s.
Proof.
  revert w. induction s as [|y s IH]; cbn [cut]; intros w.
  - intros [<-|[]] [].
  - destruct (ascii_dec y c).
    + intros [<-|W] X; [contradiction|]. right. exact (IH w W X).
    + destruct (cut c s) as [|p ps]; [contradiction|]. intros [<-|W] X; [destruct X as [<-|X]; [left; reflexivity|right; apply (IH p); [left; reflexivity|exact X]]|].
      right. apply (IH w); [right; exact W|exact X].
Qed.

Lemma reader_lines d content : plain d content -> exists ls, csv_reader d content = Some (map (record d) ls) /\
  exists z, text_lines content = ls ++ z /\ (z = [] \/ z = [[]]) .
Proof.
  intros (Q & Z & C & D). unfold csv_reader. destruct (input_form content []) as (qs & z & E1 & E2). rewrite E2.
  assert (E : cut newline content = qs ++ [z]) by (rewrite <- E1; destruct (cut newline content); reflexivity). clear E1 E2.
  assert (Dd : d <> nl /\ d <> cr /\ d <> quote /\ d <> zero).
  { cbn in D. repeat split; intros ->; apply D; auto. }
  assert (F : forall p, In p (qs ++ [z]) -> (forall c, In c (chomp p) -> fine c) /\ exists e, p = chomp p ++ e /\ ending e).
  { intros p Hp. rewrite <- E in Hp. split.
    - intros c Hc. pose proof (chomp_in _ _ Hc) as Hc1. pose proof (cut_in newline content p c Hp Hc1) as Hc2. repeat split.
      + intros ->. exact (cut_pieces newline content p Hp Hc1).
      + intros ->. apply (C (chomp p)); [apply in_map, Hp|exact Hc].
      + intros ->. exact (Q Hc2).
      + intros ->. exact (Z Hc2).
    - destruct (chomp_split p) as (e & Ee & He). exists e. split; [exact Ee|]. intros c Hc. right. apply He, Hc. }
  set (all := map (fun l => l ++ [nl]) qs ++ match z with [] => [] | _ => [z] end).
  assert (G : exists L, all = map (fun p => fst p ++ snd p) L /\ Forall (fun p => (forall c, In c (fst p) -> fine c) /\ ending (snd p)) L /\
    map fst L = map chomp (qs ++ match z with [] => [] | _ => [z] end)).
  { assert (G1 : exists L, map (fun l => l ++ [nl]) qs = map (fun p => fst p ++ snd p) L /\ Forall (fun p => (forall c, In c (fst p) -> fine c) /\ ending (snd p)) L /\ map fst L = map chomp qs).
    { assert (F1 : forall p, In p qs -> (forall c, In c (chomp p) -> fine c) /\ exists e, p = chomp p ++ e /\ ending e) by (intros p Hp; apply F, in_app_iff; left; exact Hp).
      clear - F1. induction qs as [|q qs IH]; [exists []; repeat split; constructor|]. destruct IH as (L & A & B & Cc); [intros p Hp; apply F1; right; exact Hp|].
      destruct (F1 q (or_introl eq_refl)) as (Fq & e & Ee & He). exists ((chomp q, e ++ [nl]) :: L). cbn [map fst snd]. split; [|split; [constructor|]].
      - rewrite A, app_assoc, <- Ee. reflexivity.
      - split; [exact Fq|]. cbn [snd]. intros c Hc. apply in_app_iff in Hc as [Hc|[<-|[]]]; [apply He, Hc|left; reflexivity].
      - exact B.
      - rewrite Cc. reflexivity. }
    destruct G1 as (L & A & B & Cc). unfold all. rewrite A. destruct (F z) as (Fz & e & Ee & He); [apply in_app_iff; right; left; reflexivity|].
    destruct z as [|x z].
    - exists L. rewrite !app_nil_r. auto.
    - exists (L ++ [(chomp (x :: z), e)]). rewrite !map_app, Cc. cbn [map fst snd]. rewrite <- Ee. split; [reflexivity|]. split; [|reflexivity].
      apply Forall_app. split; [exact B|]. constructor; [split; assumption|constructor]. }
  destruct G as (L & -> & GL & GM). exists (map fst L). split.
  - rewrite map_map. apply csv_lines; tauto || assumption.
  - exists (match z with [] => [[]] | _ => [] end). unfold text_lines. rewrite E, GM. destruct z; [|rewrite !app_nil_r; auto].
    rewrite app_nil_r, map_app. auto.
Qed.

(** ** Writing *)
Lemma write_row_ok row : forall ws, List.length row <= List.length ws -> exists ws', write_row ws row = Some ws' /\ List.length ws' = List.length ws /\
  forall i w, nth_error ws i = Some w -> nth_error ws' i = Some (match nth_error row i with Some x => [x] | None => [] end ++ w).
Proof.
  induction row as [|v row IH]; intros ws L.
  - exists ws. split; [destruct ws; reflexivity|]. split; [reflexivity|]. intros i w W. rewrite (proj2 (nth_error_None (@nil str) i)) by apply Nat.le_0_l. exact W.
  - destruct ws as [|w ws]; [cbn in L; lia|]. cbn [List.length] in L. destruct (IH ws) as (ws' & E & Ln & H); [lia|]. cbn [write_row]. rewrite E. exists ((v :: w) :: ws').
    split; [reflexivity|]. split; [cbn; lia|]. intros [|i] x; cbn [nth_error]; [intros [= <-]; reflexivity|apply H].
Qed.
Lemma write_row_long row : forall ws, List.length ws < List.length row -> write_row ws row = None.
Proof.
  induction row as [|v row IH]; intros ws L; [cbn in L; lia|]. destruct ws as [|w ws]; [reflexivity|]. cbn [write_row]. rewrite IH; [reflexivity|cbn in L; lia].
Qed.
Section Write.
Variable d : ascii.
Lemma write_ok lines : forall ws, (forall l, In l lines -> List.length (cut d l) <= List.length ws) ->
  exists ws', write_rows ws (map (cut d) lines) = Some ws' /\ List.length ws' = List.length ws /\
  forall i w, nth_error ws i = Some w -> nth_error ws' i = Some (rev (column_values d i lines) ++ w).
Proof using.
  induction lines as [|l lines IH]; intros ws L; cbn [map write_rows].
  - exists ws. split; [reflexivity|]. split; [reflexivity|]. intros i w W. exact W.
  - destruct (write_row_ok (cut d l) ws) as (ws1 & E1 & L1 & H1); [apply L; left; reflexivity|]. rewrite E1.
    destruct (IH ws1) as (ws2 & E2 & L2 & H2); [intros k K; rewrite L1; apply L; right; exact K|]. exists ws2. split; [exact E2|]. split; [congruence|].
    intros i w W. rewrite (H2 i _ (H1 i w W)). unfold column_values. cbn [flat_map]. rewrite rev_app_distr, <- app_assoc. destruct (nth_error (cut d l) i); reflexivity.
Qed.
Lemma write_long lines : forall ws, (exists l, In l lines /\ List.length ws < List.length (cut d l)) -> write_rows ws (map (cut d) lines) = None.
Proof using.
  induction lines as [|l lines IH]; intros ws (k & K & L); [contradiction|]. cbn [map write_rows].
  destruct (Nat.le_gt_cases (List.length (cut d l)) (List.length ws)) as [Le|G]; [|rewrite write_row_long by exact G; reflexivity].
  destruct (write_row_ok (cut d l) ws Le) as (ws1 & E1 & L1 & _). rewrite E1. apply IH. destruct K as [->|K]; [lia|]. exists k. rewrite L1. auto.
Qed.
Lemma write_skip lines : forall ws, write_rows ws (map (record d) lines) = write_rows ws (map (cut d) (filter nonempty lines)).
Proof using.
  induction lines as [|l lines IH]; intros ws; [reflexivity|]. destruct l as [|c l]; cbn [map filter nonempty record write_rows]; [destruct ws; apply IH|].
  destruct (write_row ws (cut d (c :: l))); [apply IH|reflexivity].
Qed.
End Write.

Lemma clean_underscored n : underscored n (clean n).
Proof.
  unfold underscored, clean. induction n as [|c n IH]; cbn [map]; constructor; [|exact IH]. unfold is.
  destruct (ascii_dec c " "%char) as [->|A]; [left; auto|]. destruct (ascii_dec c "/"%char) as [->|B]; [left; auto|]. right. auto.
Qed.
Lemma type_typed raw strings n : typed raw strings n (type_line raw strings n).
Proof.
  unfold typed, type_line, listed. destruct (in_dec str_eq_dec n raw); [left; auto|]. destruct (in_dec str_eq_dec n strings); [right; left; auto|]. right. right. auto.
Qed.
Lemma path_join dir n : directory dir -> join_path dir n = dir ++ "/"%char :: n.
Proof.
  intros [D E]. unfold join_path. destruct (rev dir) as [|c r] eqn:R.
  - destruct D. rewrite <- (rev_involutive dir), R. reflexivity.
  - rewrite is_false; [reflexivity|]. intros ->. apply (E (rev r)). rewrite <- (rev_involutive dir), R. reflexivity.
Qed.
Lemma file_text_text w : file_text w = text (rev w) [].
Proof. unfold file_text, text. rewrite app_nil_r. reflexivity. Qed.

Section Main.
Variables (dir : str) (d : ascii) (raw strings : list str) (content h : str) (rest : list str).
Hypothesis Pl : plain d content.
Hypothesis Tl : text_lines content = h :: rest.
Hypothesis Hn : h <> [].
Lemma converted : convert dir d raw strings content =
  match write_rows (map (fun n => [type_line raw strings n]) (cut d h)) (map (cut d) (data_lines true content)) with
  | None => inl LongRow
  | Some ws => inr (combine (map (file_name dir) (cut d h)) (map file_text ws))
  end.
Proof using Pl Tl Hn.
  destruct (reader_lines d content Pl) as (ls & E & z & Ez & Hz). unfold convert. rewrite E. rewrite Tl in Ez.
  destruct ls as [|h' ls]; [destruct Hz as [->| ->]; cbn in Ez; congruence|]. cbn [app] in Ez. injection Ez as <- Er. cbn [map].
  assert (Rh : record d h = cut d h) by (destruct h; [congruence|reflexivity]). rewrite Rh, write_skip.
  assert (Dl : filter nonempty ls = data_lines true content).
  { unfold data_lines. rewrite Tl. cbn [tl]. rewrite Er, filter_app. destruct Hz as [->| ->]; cbn; rewrite app_nil_r; reflexivity. }
  rewrite Dl. reflexivity.
Qed.
Lemma files_written : directory dir -> (forall line, In line (data_lines true content) -> List.length (cut d line) <= List.length (cut d h)) ->
  exists files, convert dir d raw strings content = inr files /\ List.length files = List.length (cut d h) /\
  forall i n, nth_error (cut d h) i = Some n -> exists f t,
    nth_error files i = Some (dir ++ "/"%char :: f, text (t :: column_values d i (data_lines true content)) []) /\ underscored n f /\ typed raw strings n t.
Proof using Pl Tl Hn.
  intros D L. rewrite converted. destruct (write_ok d (data_lines true content) (map (fun n => [type_line raw strings n]) (cut d h))) as (ws & E & Ln & H).
  { intros l Hl. rewrite map_length. apply L, Hl. }
  rewrite E. rewrite map_length in Ln. eexists. split; [reflexivity|]. split; [rewrite combine_length, !map_length; lia|].
  intros i n Hi. exists (clean n), (type_line raw strings n). split; [|split; [apply clean_underscored|apply type_typed]].
  assert (Hw : nth_error ws i = Some (rev (column_values d i (data_lines true content)) ++ [type_line raw strings n])) by (apply H; rewrite nth_error_map, Hi; reflexivity).
  assert (Nc : forall A B (a : list A) (b : list B) j x y, nth_error a j = Some x -> nth_error b j = Some y -> nth_error (combine a b) j = Some (x, y)).
  { clear. intros A B a. induction a as [|u a IH]; intros [|v b] [|j] x y; cbn; try discriminate; [congruence|apply IH]. }
  apply Nc.
  - rewrite nth_error_map, Hi. cbn. unfold file_name. rewrite path_join by exact D. reflexivity.
  - rewrite nth_error_map, Hw. cbn [option_map]. rewrite file_text_text, rev_app_distr, rev_involutive. reflexivity.
Qed.
Lemma long_line : (exists line, In line (data_lines true content) /\ List.length (cut d h) < List.length (cut d line)) ->
  convert dir d raw strings content = inl LongRow.
Proof using Pl Tl Hn.
  intros (l & I & L). rewrite converted, write_long; [reflexivity|]. exists l. rewrite map_length. auto.
Qed.
End Main.

(** ** Loading what was written *)
Lemma tidy_same n f : tidy n -> underscored n f -> f = n.
Proof.
  intros [A B] U. induction U as [|c c' n f H U IH]; [reflexivity|]. f_equal.
  - destruct H as [[[->| ->] _]|(_ & _ & ->)]; [destruct A; left; reflexivity|destruct B; left; reflexivity|reflexivity].
  - apply IH; intros I; [apply A|apply B]; right; exact I.
Qed.
Lemma stripped_self l : ~ In cr l -> stripped l l.
Proof. intros N. exists []. split; [rewrite app_nil_r; reflexivity|]. split; [contradiction|]. intros s' ->. apply N, in_app_iff. right. left. reflexivity. Qed.
Section Load.
Variables (fs : files_t) (strtof : strtof_t) (dir n t : str) (vals : list str).
Hypothesis Fs : fs (dir ++ "/"%char :: n) = Some (text (t :: vals) []).
Hypothesis Vals : forall v, In v (t :: vals) -> ~ In nl v /\ ~ In cr v.
Hypothesis Hash : starts_with_hash t.
Lemma load_found : found_in fs [dir] n (text (t :: vals) []).
Proof using Fs. exists [], dir, []. split; [reflexivity|]. split; [exact Fs|]. contradiction. Qed.
Lemma load_written : (forall v, In v vals -> ~ starts_with_hash v) -> load_flat fs strtof [dir] n =
  if str_eqb t (lit "# dtype=strings") then Ret (Some (mkCol n (BodyS (create_string_column vals))))
  else if str_eqb t (lit "# dtype=raw_floats") then Ret (Some (mkCol n (BodyR (create_raw (map (flat_float strtof) vals)))))
  else if str_eqb t (lit "# dtype=bucketized_floats") then let! c := create_bucketized default_buckets (map (flat_float strtof) vals) in Ret (Some (mkCol n (BodyB c)))
  else Ret None.
Proof using Fs Vals Hash.
  intros H. apply (load_eq fs strtof [dir] n (t :: vals) [] (t :: vals) [] vals load_found) with (more := vals ++ [[]]).
  - intros l [<-|I]; [intros []|]. apply Vals, I.
  - assert (G : forall l, In l (t :: vals) -> stripped l l) by (intros l I; apply stripped_self, Vals, I). revert G. clear. generalize (t :: vals). intros ls.
    induction ls as [|l ls IH]; intros G; constructor; [apply G; left; reflexivity|apply IH; intros x X; apply G; right; exact X].
  - apply stripped_self. intros [].
  - exists (false :: map (fun _ => true) vals). cbn [app]. rewrite app_nil_r. split.
    + constructor; [split; [intros _; exact Hash|reflexivity]|]. clear - H. revert H. generalize vals. intros l H. induction l as [|v l IH]; cbn [map]; constructor.
      * split; [discriminate|]. intros S. destruct (H v (or_introl eq_refl) S).
      * apply IH. intros w W. apply H. right. exact W.
    + cbn [combine filter snd]. generalize vals. intros l. induction l as [|v l IH]; [reflexivity|]. cbn. f_equal. exact IH.
  - reflexivity.
Qed.
(** Types the loader does not know, whatever the values *)
Lemma load_refused : t <> lit "# dtype=strings" -> t <> lit "# dtype=raw_floats" -> t <> lit "# dtype=bucketized_floats" -> load_flat fs strtof [dir] n = Ret None.
Proof using Fs Vals.
  intros A B C. destruct (rows_of_exists (t :: vals) []) as [rows Rows].
  apply (load_unknown fs strtof [dir] n (t :: vals) [] (t :: vals) [] rows load_found) with (first := t); try assumption; try reflexivity.
  - intros l [<-|I]; [intros []|]. apply Vals, I.
  - assert (G : forall l, In l (t :: vals) -> stripped l l) by (intros l I; apply stripped_self, Vals, I). revert G. clear. generalize (t :: vals). intros ls.
    induction ls as [|l ls IH]; intros G; constructor; [apply G; left; reflexivity|apply IH; intros x X; apply G; right; exact X].
  - apply stripped_self. intros [].
Qed.
End Load.

Lemma values_chars d i content : plain d content -> forall v, In v (column_values d i (data_lines true content)) -> ~ In nl v /\ ~ In cr v.
Proof.
  intros (_ & _ & C & _) v Hv. unfold column_values in Hv. apply in_flat_map in Hv as (line & Hl & Hv). unfold data_lines in Hl. apply filter_In in Hl as [Hl _].
  assert (Hl' : In line (text_lines content)) by (destruct (text_lines content); [contradiction|right; exact Hl]).
  destruct (nth_error (cut d line) i) as [x|] eqn:E; [|contradiction]. destruct Hv as [<-|[]]. apply nth_error_In in E. split; intros I.
  - pose proof (cut_in d line x _ E I) as I1. unfold text_lines in Hl'. apply in_map_iff in Hl' as (p & <- & Hp). apply (cut_pieces newline content p Hp). apply chomp_in. exact I1.
  - apply (C line Hl'). exact (cut_in d line x _ E I).
Qed.
Lemma string_values content i col : string_cells i (data_lines true content) col -> column_values tabulator i (data_lines true content) = col.
Proof.
  unfold string_cells. generalize (data_lines true content). intros ls F. induction F as [|line x ls col H F IH]; [reflexivity|]. unfold column_values in *. cbn [flat_map].
  unfold cell in H. destruct line as [|c l]; [discriminate|]. rewrite H, IH. reflexivity.
Qed.
Lemma float_values strtof content i col : float_cells strtof i (data_lines true content) col ->
  map (flat_float strtof) (column_values tabulator i (data_lines true content)) = col.
Proof.
  unfold float_cells. generalize (data_lines true content). intros ls F. induction F as [|line v ls col (x & H & V) F IH]; [reflexivity|]. unfold column_values in *. cbn [flat_map].
  unfold cell in H. destruct line as [|c l]; [discriminate|]. rewrite H. cbn [app map]. rewrite IH. f_equal. unfold flat_float, float_value in *.
  rewrite string_cast_number. destruct (number strtof x) as [w|]; [congruence|]. destruct (in_dec str_eq_dec x _); congruence.
Qed.

Section Columns.
Variables (fs : files_t) (strtof : strtof_t) (dir : str) (raw strings : list str) (content h : str) (rest : list str) (files : list (str * str)).
Hypothesis Pl : plain tabulator content.
Hypothesis Tl : text_lines content = h :: rest.
Hypothesis Hn : h <> [].
Hypothesis Dir : directory dir.
Hypothesis Conv : convert dir tabulator raw strings content = inr files.
Hypothesis Fs : forall f c, In (f, c) files -> fs f = Some c.
Variables (i : nat) (n : str).
Hypothesis Title : nth_error (cut tabulator h) i = Some n.
Hypothesis Tidy : tidy n.
Lemma file_found : exists t, fs (dir ++ "/"%char :: n) = Some (text (t :: column_values tabulator i (data_lines true content)) []) /\ typed raw strings n t.
Proof using Pl Tl Hn Dir Conv Fs Title Tidy.
  destruct (existsb (fun line => Nat.ltb (List.length (cut tabulator h)) (List.length (cut tabulator line))) (data_lines true content)) eqn:X.
  - apply existsb_exists in X as (line & I & L). apply Nat.ltb_lt in L. rewrite (long_line dir tabulator raw strings content h rest Pl Tl Hn) in Conv by eauto. discriminate.
  - assert (Le : forall line, In line (data_lines true content) -> List.length (cut tabulator line) <= List.length (cut tabulator h)).
    { intros line I. destruct (Nat.leb_spec (List.length (cut tabulator line)) (List.length (cut tabulator h))) as [L|L]; [exact L|]. exfalso.
      assert (Y : existsb (fun line => Nat.ltb (List.length (cut tabulator h)) (List.length (cut tabulator line))) (data_lines true content) = true); [|congruence].
      apply existsb_exists. exists line. split; [exact I|]. apply Nat.ltb_lt. exact L. }
    destruct (files_written dir tabulator raw strings content h rest Pl Tl Hn Dir Le) as (files' & E & _ & H). rewrite Conv in E. injection E as <-.
    destruct (H i n Title) as (f & t & Ef & U & T). rewrite (tidy_same n f Tidy U) in Ef. exists t. split; [|exact T]. apply Fs. exact (nth_error_In _ _ Ef).
Qed.
Lemma values_ok t : typed raw strings n t -> (forall v, In v (t :: column_values tabulator i (data_lines true content)) -> ~ In nl v /\ ~ In cr v) /\ starts_with_hash t.
Proof using Pl.
  intros T. assert (K : t = lit "# dtype=raw_floats" \/ t = lit "# dtype=strings" \/ t = lit "# dtype=binned_floats") by (unfold typed in T; tauto).
  split; [|destruct K as [->|[->| ->]]; eexists; reflexivity].
  intros v [<-|V]; [|exact (values_chars tabulator i content Pl v V)].
  destruct K as [->|[->| ->]]; vm_compute; split; intuition discriminate.
Qed.
Lemma string_column col : In n strings -> ~ In n raw -> string_cells i (data_lines true content) col -> (forall x, In x col -> ~ starts_with_hash x) ->
  exists b, load_flat fs strtof [dir] n = Ret (Some (mkCol n b)) /\ column_holds strtof KS i [data_lines true content] b.
Proof using Pl Tl Hn Dir Conv Fs Title Tidy.
  intros S R C H. destruct file_found as (t & F & T). destruct (values_ok t T) as [V Hs]. rewrite (string_values content i col C) in *.
  rewrite (load_written fs strtof dir n t col F V Hs H). assert (Et : t = lit "# dtype=strings") by (unfold typed in T; tauto). subst t. cbn [str_eqb].
  eexists. split; [reflexivity|]. exists [col]. split; [constructor; [exact C|constructor]|]. reflexivity.
Qed.
Lemma raw_column col : In n raw -> float_cells strtof i (data_lines true content) col -> 
  (forall line x, In line (data_lines true content) -> cell line i = Some x -> ~ starts_with_hash x) ->
  exists b, load_flat fs strtof [dir] n = Ret (Some (mkCol n b)) /\ column_holds strtof KR i [data_lines true content] b.
Proof using Pl Tl Hn Dir Conv Fs Title Tidy.
  intros R C H. destruct file_found as (t & F & T). destruct (values_ok t T) as [V Hs].
  assert (H' : forall v, In v (column_values tabulator i (data_lines true content)) -> ~ starts_with_hash v).
  { intros v Hv. apply in_flat_map in Hv as (line & Hl & Hv). apply (H line v Hl). unfold cell. destruct (nth_error (cut tabulator line) i) as [x|] eqn:E; [|contradiction].
    destruct Hv as [<-|[]]. destruct line; [|reflexivity]. unfold data_lines in Hl. apply filter_In in Hl as [_ Hl]. discriminate. }
  rewrite (load_written fs strtof dir n t _ F V Hs H'). assert (Et : t = lit "# dtype=raw_floats") by (unfold typed in T; tauto). subst t.
  eexists. split; [reflexivity|]. exists [col]. split; [constructor; [exact C|constructor]|]. rewrite (float_values strtof content i col C). cbn [concat]. rewrite app_nil_r. reflexivity.
Qed.
Lemma feature_column : ~ In n raw -> ~ In n strings -> load_flat fs strtof [dir] n = Ret None.
Proof using Pl Tl Hn Dir Conv Fs Title Tidy.
  intros R S. destruct file_found as (t & F & T). destruct (values_ok t T) as [V Hs]. assert (Et : t = lit "# dtype=binned_floats") by (unfold typed in T; tauto). subst t.
  apply (load_refused fs strtof dir n _ _ F V); discriminate.
Qed.
End Columns.
