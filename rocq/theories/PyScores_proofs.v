(** PyScores_proofs.v - predictions at checkpoints from Python (property C78). *)
From Verif Require Import Base Base_proofs F32 Column ColumnSpec DataStore DataStoreSpec Strings StringsSpec Strings_proofs StringsText_proofs Num Forest Score Eval EvalSpec
  Eval_proofs Python PythonSpec PyPlot ValueSpec Value_proofs Driver DriverSpec Driver_proofs PyScores PyScoresSpec.

(** ** Lines *)
Definition word (w : str) : Prop := w <> [] /\ forall c, In c w -> ~ blank c.
Lemma eol_blank c : is_eol c = true -> blank c.
Proof.
  unfold is_eol. destruct (ascii_dec c nl) as [->|_]; [intros _; vm_compute; auto|]. destruct (ascii_dec c cr) as [->|_]; [intros _; vm_compute; auto 10|discriminate].
Qed.
Lemma pieces_word w : (forall c, In c w -> ~ blank c) -> forall cur rest, pieces cur (w ++ rest) = pieces (rev w ++ cur) rest.
Proof.
  induction w as [|c w IH]; intros H cur rest; [reflexivity|]. cbn [app pieces]. destruct (is_eol c) eqn:E.
  - destruct (H c (or_introl eq_refl) (eol_blank c E)).
  - rewrite IH by (intros x I; apply H; right; exact I). cbn [rev]. rewrite <- app_assoc. reflexivity.
Qed.
Lemma trim_word w : word w -> trim w = w.
Proof.
  intros [Ne H]. apply trimmed_iff. exists [], []. rewrite app_nil_r. split; [reflexivity|]. split; [intros c []|]. split; [intros c []|].
  split; intros c t ->; apply H; [left; reflexivity|apply in_or_app; right; left; reflexivity].
Qed.
Lemma pieces_separated ws : forall w, Forall word (w :: ws) -> pieces [] (w ++ concat (map (cons newline) ws)) = w :: ws.
Proof.
  induction ws as [|v ws IH]; intros w H; inversion H as [|? ? [_ Hw] Hs]; subst.
  - rewrite (pieces_word w Hw). rewrite app_nil_r. cbn. rewrite rev_involutive. reflexivity.
  - rewrite (pieces_word w Hw), app_nil_r. cbn [map concat app pieces]. change (is_eol newline) with true. cbv iota. rewrite rev_involutive. f_equal.
    apply IH. exact Hs.
Qed.
Lemma lines_separated ws : Forall word ws -> score_file_lines (separated ws) = ws.
Proof.
  intros H. unfold score_file_lines. destruct ws as [|w ws]; [reflexivity|]. cbn [separated]. rewrite (pieces_separated ws w H).
  induction H as [|v vs Hv Hs IH]; [reflexivity|]. cbn [map filter]. rewrite (trim_word v Hv). destruct v as [|c v]; [destruct Hv; congruence|]. f_equal. exact IH.
Qed.

Section Generator.
Context {N : Num}.
Variables (beg : begin_choice) (order : list str -> list str) (threads : nat) (show : N -> str) (parse : str -> option N)
  (can_open : str -> bool) (tmp : str).

Lemma read_back exact : (forall x, exists y, survives show parse x y) ->
  exists scores, parse_all parse (score_file_lines (score_text show exact)) = Some scores /\ Forall2 (survives show parse) exact scores.
Proof.
  intros Sv. unfold score_text. rewrite join_separated, lines_separated.
  - induction exact as [|x xs (ys & E & F)]; [exists []; split; [reflexivity|constructor]|]. destruct (Sv x) as [y Y]. exists (y :: ys). split; [|constructor; assumption].
    cbn. destruct Y as (_ & _ & ->). rewrite E. reflexivity.
  - apply Forall_forall. intros w I. apply in_map_iff in I. destruct I as (x & <- & _). destruct (Sv x) as (y & A & B & _). split; assumption.
Qed.

(** ** Files *)
Lemma put_same D n t : put D n t n = Some t.
Proof. unfold put. rewrite str_eqb_refl. reflexivity. Qed.
Lemma put_other D n t m : m <> n -> put D n t m = D m.
Proof. intros Ne. unfold put. destruct (str_eqb_spec m n); [contradiction|reflexivity]. Qed.
Lemma put_scores_out ws : forall D p, ~ In p (map fst ws) -> put_scores show tmp D ws (score_name tmp p) = D (score_name tmp p).
Proof.
  induction ws as [|[q sc] ws IH]; intros D p H; [reflexivity|]. cbn. unfold put_scores in IH. rewrite IH by (intros I; apply H; right; exact I).
  apply put_other. intros E. apply score_name_inj in E. apply H. left. symmetry. exact E.
Qed.
Lemma put_scores_in ws : NoDup (map fst ws) -> forall D p sc, In (p, sc) ws -> put_scores show tmp D ws (score_name tmp p) = Some (score_text show sc).
Proof.
  induction ws as [|[q sq] ws IH]; intros ND D p sc I; [destruct I|]. inversion ND as [|? ? Nq ND']; subst. destruct I as [E|I].
  - injection E as <- <-. cbn. pose proof (put_scores_out ws (put D (score_name tmp q) (score_text show sq)) q Nq) as P. unfold put_scores in P. rewrite P.
    apply put_same.
  - cbn. apply IH; assumption.
Qed.
Lemma sorted_nodup l : StronglySorted Z.lt l -> NoDup l.
Proof.
  induction 1 as [|a l S IH F]; constructor; [|exact IH]. intros I. rewrite Forall_forall in F. specialize (F a I). lia.
Qed.

(** ** Iteration over what has been written *)
Local Notation nxt := (next beg order threads show parse can_open tmp).
Definition fine (D : disk) (good : Z -> list N -> Prop) (p : Z) : Prop :=
  exists text scores, D (score_name tmp p) = Some text /\ parse_all parse (score_file_lines text) = Some scores /\ good p scores.
Lemma read_iterates (others : disk -> disk -> Prop) pts (good : Z -> list N -> Prop) (wr : Z -> Prop) :
  (forall D D', others D D' -> spares (score_name tmp) pts D D') ->
  forall points D g items last, (forall p, In p points -> In p pts) -> (forall p, In p points -> wr p -> fine D good p) ->
  (forall D1 g1 x, nxt D g = Ret (x, g1, D1) -> (x, g1) = read_next parse tmp D1 points /\ spares (score_name tmp) pts D D1) ->
  iterates nxt others D g items last ->
  (exists rest, points = map fst items ++ rest /\
     (last = Stops /\ rest = [] \/ exists p rest', rest = p :: rest' /\ ~ wr p /\ (last = NoFile p \/ last = NoNumber p))) /\
  forall p sc, In (p, sc) items -> wr p -> good p sc.
Proof.
  intros Sp points D g items last Inc Fi Nx It. revert points Inc Fi Nx.
  induction It as [D g D1 g1 D2 p scores items last E O It IH|D g D1 g1 last E NY]; intros points Inc Fi Nx.
  - destruct (Nx _ _ _ E) as [R S1]. destruct points as [|q points]; [discriminate R|]. cbn in R.
    destruct (D1 (score_name tmp q)) as [text|] eqn:T; [|discriminate R].
    destruct (parse_all parse (score_file_lines text)) as [sc|] eqn:P; [|discriminate R]. injection R as <- <- ->.
    destruct (IH points) as [(rest & -> & L) G].
    + intros x I. apply Inc. right. exact I.
    + intros x I Wx. destruct (Fi x (or_intror I) Wx) as (tx & sx & A & B & C). exists tx, sx. split; [|split; assumption].
      rewrite (Sp _ _ O x (Inc x (or_intror I))), (S1 x (Inc x (or_intror I))). exact A.
    + intros D3 g3 x X. cbn in X. injection X as X <-. split; [symmetry; exact X|]. intros ? _. reflexivity.
    + split; [exists rest; split; [reflexivity|exact L]|]. intros q sc' [X|I] Wq; [|exact (G q sc' I Wq)]. injection X as <- <-.
      destruct (Fi p (or_introl eq_refl) Wq) as (tx & sx & A & B & C). rewrite (S1 p (Inc p (or_introl eq_refl))) in T. congruence.
  - destruct (Nx _ _ _ E) as [R S1]. split; [|intros p sc []]. exists points. split; [reflexivity|]. destruct points as [|q points]; cbn in R.
    + left. split; [congruence|reflexivity].
    + right. exists q, points. split; [reflexivity|]. split.
      * intros Wq. destruct (Fi q (or_introl eq_refl) Wq) as (tx & sx & A & B & C). rewrite (S1 q (Inc q (or_introl eq_refl))), A, B in R.
        injection R as -> _. exact (NY q sx eq_refl).
      * destruct (D1 (score_name tmp q)) as [text|]; [|left; congruence]. destruct (parse_all parse (score_file_lines text)) as [sc|]; [|right; congruence].
        injection R as -> _. destruct (NY q sc eq_refl).
Qed.
Lemma read_exists : forall points D g, (forall p, In p points -> exists text scores, D (score_name tmp p) = Some text /\ parse_all parse (score_file_lines text) = Some scores) ->
  nxt D g = Ret (read_next parse tmp D points, D) -> exists items, iterates nxt eq D g items Stops.
Proof.
  induction points as [|p points IH]; intros D g H E.
  - exists []. eapply IterEnd; [exact E|]. discriminate.
  - destruct (H p (or_introl eq_refl)) as (text & scores & T & P). cbn in E. rewrite T, P in E.
    destruct (IH D (GRead points)) as [items I].
    + intros q Iq. apply H. right. exact Iq.
    + reflexivity.
    + exists ((p, scores) :: items). eapply IterItem; [exact E|reflexivity|exact I].
Qed.

(** ** The whole *)
Hypothesis Order : forall l x, In x (order l) <-> In x l.
Hypothesis Threads : 1 <= threads.
Lemma firstn_forall {A} (P : A -> Prop) n l : Forall P l -> Forall P (firstn n l).
Proof. intros H. rewrite <- (firstn_skipn n l) in H. apply Forall_app in H. apply H. Qed.
Lemma write_ok k cols d (f : forest N) points : well_typed k cols -> lossless k (frame_of cols) -> cols <> [] -> Forall (scorable (frame_of cols)) f ->
  py_add_all beg cols None = py_ret d -> (forall p, written points (List.length f) p -> can_open (score_name tmp p) = true) ->
  exists W, write_checkpoints beg order threads can_open tmp f d points = py_ret W /\ NoDup (map fst W) /\
    (forall p, In p (map fst W) <-> written points (List.length f) p) /\
    forall p sc, In (p, sc) W -> List.length sc = k /\
      forall row s, row < k -> nth_error sc row = Some s <-> score_of (frame_of cols) (firstn (Z.to_nat p) f) row s.
Proof.
  intros W Ls NE Sc E Op. destruct (dict_shows beg k cols W Ls) as (d' & E' & S). assert (d' = d) as -> by (unfold py_ret in *; congruence).
  destruct cols as [|[[n t] vals] cols]; [congruence|]. set (fr := frame_of ((n, t, vals) :: cols)) in *.
  assert (fr n = Some (t, vals)) as F by (unfold fr, frame_of, first_listed; cbn [find fst]; rewrite str_eqb_refl; reflexivity).
  pose proof (lossless_typed k fr Ls) as T. pose proof S as [ND H]. destruct d as [m|].
  2:{ specialize (H n). rewrite F in H. destruct H as (_ & cc & C & _). discriminate. }
  unfold write_checkpoints, py_predict_and_output. pose proof (shows_rows beg _ _ _ _ _ S F) as R. cbn in R. rewrite R. cbn [bind].
  destruct (checkpoints_ok (store_view order m k) threads (fun p => can_open (score_name tmp p)) f points) as (Ws & done & rest & s & (SS & In1 & Pr) & EW & Ev & Cw & Re).
  - exact Threads.
  - exact Order.
  - intros t0 n' I M. rewrite Forall_forall in Sc. destruct (scorable_named fr t0 n' (Sc t0 I) M) as [[ty vs] F'].
    pose proof (H n') as G. rewrite F' in G. destruct G as (_ & c & G & _ & C). exists c. split; [exact G|apply C].
  - apply Forall_forall. intros t0 I. apply (shows_fits (Some m) k fr t0 S). rewrite Forall_forall in Sc. exact (Sc t0 I).
  - destruct Re as [[-> ->]|(p & sc & rest' & -> & Cp & _)].
    2:{ rewrite Op in Cp; [discriminate|]. apply In1. rewrite EW, map_app. apply in_or_app. right. left. reflexivity. }
    rewrite app_nil_r in EW. subst done. rewrite Ev. cbn [bind py_throw throws]. exists Ws. split; [reflexivity|].
    split; [exact (sorted_nodup _ SS)|]. split; [exact In1|].
    intros p sc I. destruct (Pr p sc I) as [L P]. split; [exact L|]. intros row x Rw.
    assert (forall y, score_of fr (firstn (Z.to_nat p) f) row y -> nth_error sc row = Some y) as Q.
    { intros y (ls & Hl & ->). apply P; [exact Rw|]. unfold leaves. cbn. clear - Hl S.
      induction Hl as [|t1 s' f' ls' X Hl IH]; constructor; [exact (leaf_routes _ _ _ _ _ _ S X)|exact IH]. }
    split; [|exact (Q x)]. intros Ex. destruct (score_total threads Threads k fr _ row T (firstn_forall _ (Z.to_nat p) f Sc) Rw) as [y Y].
    pose proof (Q y Y). congruence.
Qed.

Lemma checkpoints_iterate k cols d (f : forest N) points (others : disk -> disk -> Prop) D items last :
  well_typed k cols -> lossless k (frame_of cols) -> cols <> [] -> Forall (scorable (frame_of cols)) f -> py_add_all beg cols None = py_ret d ->
  (forall p, written points (List.length f) p -> can_open (score_name tmp p) = true) -> (forall x, exists y, survives show parse x y) ->
  (forall D D', others D D' -> spares (score_name tmp) points D D') ->
  iterates nxt others D (GNew f d points) items last ->
  (exists rest, points = map fst items ++ rest /\
     (last = Stops /\ rest = [] \/ exists p rest', rest = p :: rest' /\ ~ written points (List.length f) p /\ (last = NoFile p \/ last = NoNumber p))) /\
  forall p sc, In (p, sc) items -> written points (List.length f) p -> rows_scored show parse (frame_of cols) k (firstn (Z.to_nat p) f) sc.
Proof.
  intros W Ls NE Sc E Op Sv Sp It. destruct (write_ok k cols d f points W Ls NE Sc E Op) as (Ws & EW & ND & In1 & Pr).
  set (good := fun p sc => rows_scored show parse (frame_of cols) k (firstn (Z.to_nat p) f) sc).
  (* the first call *)
  assert (exists D1, forall D0 g0 x, nxt D (GNew f d points) = Ret (x, g0, D0) -> D0 = D1 /\ (x, g0) = read_next parse tmp D1 points) as (D1 & N1).
  { exists (put_scores show tmp D Ws). intros D0 g0 x. cbn. rewrite EW. cbn. intros X. injection X as X <-. split; [reflexivity|symmetry; exact X]. }
  assert (forall p, In p points -> written points (List.length f) p -> fine (put_scores show tmp D Ws) good p) as Fi.
  { intros p _ Wp. apply In1 in Wp. apply in_map_iff in Wp. destruct Wp as ([p' exact] & <- & I). cbn [fst].
    destruct (Pr p' exact I) as [L P]. destruct (read_back exact Sv) as (scores & R & F2). exists (score_text show exact), scores.
    split; [apply (put_scores_in Ws ND); exact I|]. split; [exact R|]. exists exact. split; [exact L|]. split; [exact F2|exact P]. }
  inversion It as [D' g' D0 g1 D2 p scores items' last' Nx O It' |D' g' D0 g1 last' Nx NY]; subst.
  - cbn in Nx. rewrite EW in Nx. cbn in Nx. injection Nx as X <-. 
    apply (read_iterates others points good (written points (List.length f)) Sp points (put_scores show tmp D Ws) (GRead points)).
    + auto.
    + exact Fi.
    + intros D3 g3 x Y. cbn in Y. injection Y as Y <-. split; [symmetry; exact Y|]. intros ? _. reflexivity.
    + eapply IterItem; [cbn; rewrite X; reflexivity|exact O|exact It'].
  - cbn in Nx. rewrite EW in Nx. cbn in Nx. injection Nx as X <-.
    apply (read_iterates others points good (written points (List.length f)) Sp points (put_scores show tmp D Ws) (GRead points)).
    + auto.
    + exact Fi.
    + intros D3 g3 x Y. cbn in Y. injection Y as Y <-. split; [symmetry; exact Y|]. intros ? _. reflexivity.
    + eapply IterEnd; [cbn; rewrite X; reflexivity|exact NY].
Qed.
Lemma forall2_items {A} (P : Z -> A -> Prop) (items : list (Z * A)) : (forall p sc, In (p, sc) items -> P p sc) ->
  Forall2 (fun p it => fst it = p /\ P p (snd it)) (map fst items) items.
Proof.
  induction items as [|[p sc] items IH]; intros H; constructor; [split; [reflexivity|apply H; left; reflexivity]|]. apply IH. intros q s I. apply H. right. exact I.
Qed.
Lemma increasing_iterate k cols d (f : forest N) points D :
  well_typed k cols -> lossless k (frame_of cols) -> cols <> [] -> Forall (scorable (frame_of cols)) f -> py_add_all beg cols None = py_ret d ->
  StronglySorted Z.lt points -> (forall p, In p points -> (1 <= p <= zlen f)%Z /\ can_open (score_name tmp p) = true) -> (forall x, exists y, survives show parse x y) ->
  (exists items, iterates nxt eq D (GNew f d points) items Stops) /\
  forall (others : disk -> disk -> Prop) items last, (forall D D', others D D' -> spares (score_name tmp) points D D') -> iterates nxt others D (GNew f d points) items last ->
    last = Stops /\ Forall2 (fun p it => fst it = p /\ rows_scored show parse (frame_of cols) k (firstn (Z.to_nat p) f) (snd it)) points items.
Proof.
  intros W Ls NE Sc E SS Rg Sv. assert (forall p, written points (List.length f) p <-> In p points) as Wr.
  { apply written_increasing; [exact SS|]. intros p I. apply (Rg p I). }
  assert (forall p, written points (List.length f) p -> can_open (score_name tmp p) = true) as Op by (intros p Wp; apply Rg, Wr, Wp). split.
  - destruct (write_ok k cols d f points W Ls NE Sc E Op) as (Ws & EW & ND & In1 & Pr).
    assert (forall p, In p points -> exists text scores, put_scores show tmp D Ws (score_name tmp p) = Some text /\ parse_all parse (score_file_lines text) = Some scores) as H.
    { intros p I. apply Wr, In1 in I. apply in_map_iff in I. destruct I as ([p' exact] & <- & I). cbn [fst]. destruct (read_back exact Sv) as (scores & R & _).
      exists (score_text show exact), scores. split; [apply (put_scores_in Ws ND); exact I|exact R]. }
    destruct (read_exists points _ (GRead points) H eq_refl) as [items I]. exists items.
    inversion I as [D' g' D0 g1 D2 p scores items' last' Nx O It'|D' g' D0 g1 last' Nx NY]; subst.
    + eapply IterItem; [cbn; rewrite EW; cbn; exact Nx|reflexivity|exact It'].
    + eapply IterEnd; [cbn; rewrite EW; cbn; exact Nx|exact NY].
  - intros others items last Sp It. destruct (checkpoints_iterate k cols d f points others D items last W Ls NE Sc E Op Sv Sp It) as [(rest & Ep & L) G].
    destruct L as [[-> ->]|(p & rest' & -> & Nw & _)].
    + split; [reflexivity|]. rewrite app_nil_r in Ep. rewrite Ep at 1.
      apply (forall2_items (fun p sc => rows_scored show parse (frame_of cols) k (firstn (Z.to_nat p) f) sc)). intros p sc I. apply G; [exact I|]. apply Wr. rewrite Ep.
      apply in_map_iff. exists (p, sc). auto.
    + destruct Nw. apply Wr. rewrite Ep. apply in_or_app. right. left. reflexivity.
Qed.

(** ** Failures *)
Lemma missing_iterate k cols d (f : forest N) points D n t : well_typed k cols -> lossless k (frame_of cols) -> cols <> [] -> py_add_all beg cols None = py_ret d ->
  In t f -> EvalSpec.named n t -> frame_of cols n = None ->
  next beg order threads show parse can_open tmp D (GNew f d points) = Ret (Throws IosFailure, GEnd, D).
Proof.
  intros W Ls NE E It Nm Fn. destruct (dict_shows beg k cols W Ls) as (d' & E' & S). assert (d' = d) as -> by (unfold py_ret in *; congruence).
  destruct cols as [|[[n0' t0] vals] cols]; [congruence|]. set (fr := frame_of ((n0', t0, vals) :: cols)) in *.
  assert (fr n0' = Some (t0, vals)) as F by (unfold fr, frame_of, first_listed; cbn [find fst]; rewrite str_eqb_refl; reflexivity).
  pose proof S as [ND H]. destruct d as [m|].
  2:{ specialize (H n0'). rewrite F in H. destruct H as (_ & cc & C & _). discriminate. }
  unfold next, write_checkpoints, py_predict_and_output. pose proof (shows_rows beg _ _ _ _ _ S F) as R. cbn in R. rewrite R. cbn [bind].
  unfold evaluate_checkpoints. set (v := store_view order m k).
  destruct (load_features (v_get v) (v_order v (collect_features f))) as [[|e] cs] eqn:L.
  - exfalso. pose proof (load_features_ok (v_get v) (v_order v (collect_features f))) as [[Q _] _]. rewrite L in Q. cbn [fst] in Q.
    destruct (Q eq_refl n) as (c & G & _). { apply Order. apply collect_features_in. eauto. }
    specialize (H n). rewrite Fn in H. unfold v in G. cbn in G. unfold py_col in H. congruence.
  - pose proof (load_features_err (v_get v) (v_order v (collect_features f)) e) as Q. rewrite L in Q. destruct (Q eq_refl) as (_ & n' & _ & _ & _ & [[_ ->]|(c & G & C)]).
    + reflexivity.
    + exfalso. specialize (H n'). destruct (fr n') as [[ty vs]|]; [|unfold v in G; cbn in G; unfold py_col in H; congruence].
      destruct H as (_ & c' & G' & _ & C'). unfold v in G. cbn in G, G'. rewrite G in G'. injection G' as <-. destruct C' as [C' _]. congruence.
Qed.
Lemma bad_iterate D p points ws w : D (score_name tmp p) = Some (separated ws) -> Forall word ws -> In w ws -> parse w = None ->
  next beg order threads show parse can_open tmp D (GRead (p :: points)) = Ret (NoNumber p, GEnd, D).
Proof.
  intros E W Iw P. cbn [next read_next]. rewrite E, (lines_separated ws W). assert (X : parse_all parse ws = None); [|rewrite X; reflexivity].
  clear E W. induction ws as [|x ws IH]; [destruct Iw|]. cbn [parse_all]. destruct Iw as [<-|Iw]; [rewrite P; reflexivity|]. rewrite (IH Iw). destruct (parse x); reflexivity.
Qed.
Lemma finished_iterate D g x g' D' : next beg order threads show parse can_open tmp D g = Ret (x, g', D') -> (forall p l, x <> Yields p l) ->
  forall D2, next beg order threads show parse can_open tmp D2 g' = Ret (Stops, g', D2).
Proof.
  assert (R : forall D points, (forall p l, fst (read_next parse tmp D points) <> Yields p l) -> snd (read_next parse tmp D points) = GEnd).
  { intros D0 [|p points] H; cbn [read_next] in *; [reflexivity|]. destruct (D0 (score_name tmp p)); [|reflexivity].
    destruct (parse_all parse _) as [l|]; [|reflexivity]. destruct (H p l eq_refl). }
  intros E Y D2. assert (G : g' = GEnd); [|subst g'; reflexivity].
  destruct g as [f d points|points|]; cbn [next] in E.
  - destruct (write_checkpoints beg order threads can_open tmp f d points) as [[e|ws]| |]; [|cbn [bind] in E|discriminate E..].
    + injection E as <- <- <-. reflexivity.
    + specialize (R (put_scores show tmp D ws) points). destruct (read_next parse tmp (put_scores show tmp D ws) points) as [y g2]. injection E as <- <- <-. apply R, Y.
  - specialize (R D points). destruct (read_next parse tmp D points) as [y g2]. injection E as <- <- <-. apply R, Y.
  - injection E as <- <- <-. reflexivity.
Qed.
End Generator.
