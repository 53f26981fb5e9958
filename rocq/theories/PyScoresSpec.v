(** PyScoresSpec.v - vocabulary for iterating over predictions at checkpoints. *)
From Verif Require Import Base F32 Column StringsSpec Num Forest Python PythonSpec EvalSpec ValueSpec PyScores.

Section Spec.
Context {N : Num}.

(** A number survives being written and read: its text is one word, which is read as [y]. *)
Definition survives (show : N -> str) (parse : str -> option N) (x y : N) : Prop :=
  show x <> [] /\ (forall c, In c (show x) -> ~ blank c) /\ parse (show x) = Some y.

(** The scores of the [k] rows of a table under a forest, after being written and read *)
Definition rows_scored (show : N -> str) (parse : str -> option N) (fr : frame) (k : nat) (f : forest N) (scores : list N) : Prop :=
  exists exact, List.length exact = k /\ Forall2 (survives show parse) exact scores /\
    forall row s, row < k -> nth_error exact row = Some s <-> score_of fr f row s.

(** Iterating over a generator.  After each item the rest of the world may change the files, as [others] allows. *)
Inductive iterates (next : disk -> gen N -> res (item N * gen N * disk)) (others : disk -> disk -> Prop) :
    disk -> gen N -> list (Z * list N) -> item N -> Prop :=
| IterItem D g D1 g1 D2 p scores items last : next D g = Ret (Yields p scores, g1, D1) -> others D1 D2 ->
    iterates next others D2 g1 items last -> iterates next others D g ((p, scores) :: items) last
| IterEnd D g D1 g1 last : next D g = Ret (last, g1, D1) -> (forall p scores, last <> Yields p scores) ->
    iterates next others D g [] last.

(** The files for the points are left alone. *)
Definition spares (name : Z -> str) (points : list Z) (D D' : disk) : Prop := forall p, In p points -> D' (name p) = D (name p).
End Spec.
