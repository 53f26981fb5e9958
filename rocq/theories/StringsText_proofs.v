From Verif Require Import Base Base_proofs F32 Strings StringsSpec Strings_proofs.

Lemma blank_space c : blank c <-> is_space c = true.
Proof.
  unfold blank, is_space. cbn [In]. rewrite Bool.orb_true_iff, Bool.andb_true_iff, !Nat.leb_le, Nat.eqb_eq. lia.
Qed.
Lemma blank_space_not c : ~ blank c <-> is_space c = false.
Proof. rewrite blank_space. destruct (is_space c); intuition congruence. Qed.

Lemma drop_while_app f pre l : (forall c, In c pre -> f c = true) -> drop_while f (pre ++ l) = drop_while f l.
Proof.
  induction pre as [|a pre IH]; cbn; intros H; auto. rewrite (H a) by auto. apply IH. auto.
Qed.
Lemma drop_while_all f l : (forall c, In c l -> f c = true) -> drop_while f l = [].
Proof. intros H. rewrite <- (app_nil_r l), drop_while_app by exact H. reflexivity. Qed.

Lemma trim_trimmed s : trimmed s (trim s).
Proof.
  destruct (trim_spec s) as (pre & post & E & H1 & H2 & H3 & H4). exists pre, post. split; auto.
  rewrite forallb_forall in H1, H2. repeat split; intros.
  - apply blank_space. auto.
  - apply blank_space. auto.
  - apply blank_space_not. eauto.
  - apply blank_space_not. eauto.
Qed.

Lemma trimmed_trim s n : trimmed s n -> n = trim s.
Proof.
  intros (pre & post & -> & H1 & H2 & H3 & H4). unfold trim, ltrim, rtrim.
  rewrite drop_while_app by (intros; apply blank_space; auto).
  destruct n as [|c n].
  - cbn. rewrite (drop_while_all _ post) by (intros; apply blank_space; auto). reflexivity.
  - cbn [app drop_while]. rewrite (proj1 (blank_space_not c)) by eauto.
    change (c :: n ++ post) with ((c :: n) ++ post). rewrite rev_app_distr.
    rewrite drop_while_app by (intros x I; apply blank_space, H2, in_rev; auto).
    destruct (rev (c :: n)) as [|d r] eqn:E.
    + apply (f_equal (@rev ascii)) in E. rewrite rev_involutive in E. discriminate.
    + cbn [drop_while]. assert (E' : c :: n = rev r ++ [d]).
      { rewrite <- (rev_involutive (c :: n)), E. reflexivity. }
      rewrite (proj1 (blank_space_not d)) by eauto. cbn [rev]. exact E'.
Qed.
Lemma trimmed_iff s n : trimmed s n <-> trim s = n.
Proof. split; [intros H; symmetry; apply trimmed_trim; auto|intros <-; apply trim_trimmed]. Qed.

Lemma cut_nonempty c s : exists p ps, cut c s = p :: ps.
Proof.
  induction s as [|x s (p & ps & E)]; cbn; eauto. destruct (ascii_dec x c); eauto. rewrite E. eauto.
Qed.
Lemma join_cut c s : join (cut c s) [c] = s.
Proof.
  induction s as [|x s IH]; [reflexivity|]. cbn [cut].
  destruct (cut_nonempty c s) as (p & ps & E). rewrite E in *. destruct (ascii_dec x c) as [->|].
  - rewrite join_cons2, IH. reflexivity.
  - rewrite join_cons in *. cbn. f_equal. exact IH.
Qed.
Lemma cut_pieces c s : forall w, In w (cut c s) -> ~ In c w.
Proof.
  induction s as [|x s IH]; cbn; intros w I.
  - destruct I as [<-|[]]. auto.
  - destruct (ascii_dec x c) as [->|Ne].
    + destruct I as [<-|I]; [intros []|]. auto.
    + destruct (cut c s) as [|p ps]; [destruct I|]. destruct I as [<-|I].
      * intros [->|I]; [congruence|]. exact (IH p (or_introl eq_refl) I).
      * apply IH. right. exact I.
Qed.

Lemma split_cut c s : split s [c] = Ret (match s with [] => [] | _ => cut c s end).
Proof.
  destruct s as [|x s]; [reflexivity|]. rewrite <- (join_cut c (x :: s)) at 1. apply join_split.
  - apply cut_pieces.
  - intros E. pose proof (join_cut c (x :: s)) as J. rewrite E in J. discriminate.
Qed.

Lemma getlines_cut rest : forall cur, getlines cur rest =
  match cut newline rest with [] => [] | p :: ps => (rev cur ++ p) :: ps end.
Proof.
  induction rest as [|x rest IH]; intros cur; cbn [getlines cut].
  - rewrite app_nil_r. auto.
  - destruct (cut_nonempty newline rest) as (p & ps & E). change nl with newline. rewrite E in *.
    destruct (ascii_dec x newline).
    + rewrite IH. cbn. rewrite ?app_nil_r. reflexivity.
    + rewrite IH. cbn [rev]. rewrite <- app_assoc. reflexivity.
Qed.

Lemma drop_while_keep f l c : f c = false -> exists l', drop_while f (l ++ [c]) = l' ++ [c].
Proof.
  intros H. induction l as [|a l [l' IH]]; cbn.
  - rewrite H. exists []. auto.
  - destruct (f a); [eauto|]. exists (a :: l). auto.
Qed.

Lemma strip_eol_cons x t : strip_eol (x :: t) =
  match strip_eol t with [] => if is_eol x then [] else [x] | u => x :: u end.
Proof.
  unfold strip_eol. cbn [rev].
  destruct (drop_while_spec is_eol (rev t)) as (pre & E & Hp & Hn).
  destruct (drop_while is_eol (rev t)) as [|c l] eqn:D.
  - rewrite E. rewrite app_nil_r. rewrite drop_while_app by (apply forallb_forall; exact Hp).
    cbn. destruct (is_eol x); reflexivity.
  - assert (Hc : is_eol c = false) by (eapply Hn; reflexivity).
    rewrite E, <- app_assoc, drop_while_app by (apply forallb_forall; exact Hp).
    cbn [app drop_while]. rewrite Hc. change (c :: l ++ [x]) with ((c :: l) ++ [x]). rewrite rev_app_distr. cbn [rev app].
    destruct (rev l ++ [c]) eqn:R; [|reflexivity]. destruct (rev l); discriminate.
Qed.

Lemma strip_eol_chomp s : ~ In newline s -> strip_eol s = chomp s.
Proof.
  induction s as [|x s IH]; [reflexivity|]. intros H. rewrite strip_eol_cons, IH by (cbn in H; tauto). cbn [chomp].
  destruct (chomp s); [|reflexivity]. unfold is_eol. change cr with carriage_return. change nl with newline.
  destruct (ascii_dec x newline) as [->|]; [cbn in H; tauto|]. cbn [orb]. destruct (ascii_dec x carriage_return); reflexivity.
Qed.

Lemma file_lines_text_lines s : file_lines s = text_lines s.
Proof.
  unfold file_lines, text_lines. rewrite getlines_cut. destruct (cut newline s) as [|p ps] eqn:E; [reflexivity|].
  cbn [rev app]. apply map_ext_in. intros l I. apply strip_eol_chomp. apply (cut_pieces newline s). rewrite E. exact I.
Qed.

Lemma c_str_cut s : c_str s = hd [] (cut zero s).
Proof.
  induction s as [|x s IH]; [reflexivity|]. cbn. destruct (ascii_dec x zero); [reflexivity|].
  destruct (cut_nonempty zero s) as (p & ps & E). rewrite IH, E. reflexivity.
Qed.

Lemma string_cast_number strtof s : string_cast strtof s = number strtof s.
Proof.
  unfold string_cast, number. rewrite c_str_cut. destruct (strtof (hd [] (cut zero s))) as [v n]. cbn [fst snd].
  destruct s as [|x s].
  - rewrite Bool.andb_false_r. reflexivity.
  - cbn [List.length]. change (0 <? S (List.length s)) with true. rewrite Bool.andb_true_r. reflexivity.
Qed.
