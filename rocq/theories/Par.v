(** Par.v - programs over shared memory and their interleavings.
    Used for the tasks that the library hands to a ThreadPool (src/utils/threadpool.cc): the pool runs every task
    once, in any order and overlap (properties C20 and C21), so the model lets all tasks of a pool interleave
    freely at single reads and writes.  Definitions only. *)
From Verif Require Import Base.

Section Par.
Context {L V : Type}.

(** Memory: [None] is an address outside every object. *)
Definition mem := L -> option V.
Definition upd (dec : forall a b : L, {a = b} + {a <> b}) (m : mem) (l : L) (v : V) : mem :=
  fun x => if dec x l then Some v else m x.

Inductive prog (A : Type) : Type :=
| PRet (a : A)
| PUndef
| PFatal
| PRead (l : L) (k : V -> prog A)
| PWrite (l : L) (v : V) (p : prog A).
Arguments PRet {A} a.
Arguments PUndef {A}.
Arguments PFatal {A}.
Arguments PRead {A} l k.
Arguments PWrite {A} l v p.

Fixpoint pbind {A B} (p : prog A) (k : A -> prog B) : prog B :=
  match p with
  | PRet a => k a
  | PUndef => PUndef
  | PFatal => PFatal
  | PRead l f => PRead l (fun v => pbind (f v) k)
  | PWrite l v q => PWrite l v (pbind q k)
  end.

(** A computation without memory access. *)
Definition pres {A} (r : res A) : prog A :=
  match r with Ret a => PRet a | Undef => PUndef | Fatal => PFatal end.

Variable dec : forall a b : L, {a = b} + {a <> b}.

(** Running a program alone. *)
Fixpoint run {A} (p : prog A) (m : mem) : res (A * mem) :=
  match p with
  | PRet a => Ret (a, m)
  | PUndef => Undef
  | PFatal => Fatal
  | PRead l k => match m l with Some v => run (k v) m | None => Undef end
  | PWrite l v q => match m l with Some _ => run q (upd dec m l v) | None => Undef end
  end.

(** Programs run one after the other: one of the schedules. *)
Fixpoint run_tasks (ps : list (prog unit)) (m : mem) : res mem :=
  match ps with
  | [] => Ret m
  | p :: t => let! (_, m') := run p m in run_tasks t m'
  end.

(** One step of one program. *)
Inductive pstep {A} : prog A -> mem -> prog A -> mem -> Prop :=
| PStepRead l k m v : m l = Some v -> pstep (PRead l k) m (k v) m
| PStepWrite l v q m v0 : m l = Some v0 -> pstep (PWrite l v q) m q (upd dec m l v).

(** A program that has failed, or is about to access memory outside every object. *)
Definition pfail {A} (p : prog A) (m : mem) : Prop :=
  match p with
  | PUndef | PFatal => True
  | PRead l _ | PWrite l _ _ => m l = None
  | PRet _ => False
  end.

(** Several programs interleaved. *)
Inductive istep : list (prog unit) * mem -> list (prog unit) * mem -> Prop :=
| IStep ps m i p p' m' : nth_error ps i = Some p -> pstep p m p' m' -> istep (ps, m) (set_nth i p' ps, m').
Inductive ireach : list (prog unit) * mem -> list (prog unit) * mem -> Prop :=
| IRefl s : ireach s s
| ITrans s1 s2 s3 : ireach s1 s2 -> istep s2 s3 -> ireach s1 s3.

Definition all_done (ps : list (prog unit)) : Prop := forall p, In p ps -> p = PRet tt.
End Par.
Arguments PRet {L V A} a.
Arguments PUndef {L V A}.
Arguments PFatal {L V A}.
Arguments PRead {L V A} l k.
Arguments PWrite {L V A} l v p.
Arguments mem : clear implicits.
Arguments prog : clear implicits.

Notation "'do!' x ':=' r 'in' k" := (pbind r (fun x => k))
  (at level 200, x pattern, r at level 100, k at level 200, right associativity).
