(** Base.v - outcomes, statuses and byte strings shared by the whole model.
    No proofs about the modelled program in this file. *)
From Coq Require Export String Ascii.
From Coq Require Export ZArith Lia Bool Arith List Permutation Sorted.
From Coq Require Export ZifyBool ZifyNat.
Export ListNotations.
Open Scope nat_scope.
Open Scope list_scope.

(** Error codes used by the library (src/base/base.h re-exports protobuf's
    [google::protobuf::util::Status] and its [error] enum).  Only the codes that occur in the code. *)
Inductive code :=
| INVALID_ARGUMENT | OUT_OF_RANGE | NOT_FOUND | FAILED_PRECONDITION | ALREADY_EXISTS | INTERNAL | ABORTED.

(** A [Status]: success or an error code.  Simplification: message text is dropped. *)
Inductive status := SOk | SErr (c : code).

Definition is_ok (s : status) : bool := match s with SOk => true | SErr _ => false end.

(** Outcome of running a piece of C++:
    [Ret a]  normal return with value [a];
    [Undef]  undefined behaviour (out of bounds, null dereference, division by zero, use after free);
    [Fatal]  deliberate process abort (CHECK / LOG(FATAL)). *)
Inductive res (A : Type) : Type :=
| Ret (a : A)
| Undef
| Fatal.
Arguments Ret {A} a.
Arguments Undef {A}.
Arguments Fatal {A}.

Definition bind {A B} (r : res A) (k : A -> res B) : res B :=
  match r with Ret a => k a | Undef => Undef | Fatal => Fatal end.

Notation "'let!' x ':=' r 'in' k" := (bind r (fun x => k))
  (at level 200, x pattern, r at level 100, k at level 200, right associativity).

(** Loop with outcome. *)
Fixpoint fold_res {A B} (f : A -> B -> res A) (l : list B) (a : A) : res A :=
  match l with
  | [] => Ret a
  | x :: t => let! a' := f a x in fold_res f t a'
  end.

(** Vector element read and write; out of bounds is undefined behaviour. *)
Definition vget {A} (l : list A) (i : nat) : res A :=
  match nth_error l i with Some a => Ret a | None => Undef end.

Fixpoint set_nth {A} (i : nat) (a : A) (l : list A) : list A :=
  match l, i with
  | [], _ => []
  | _ :: t, O => a :: t
  | x :: t, S i' => x :: set_nth i' a t
  end.

Definition vset {A} (l : list A) (i : nat) (a : A) : res (list A) :=
  if i <? List.length l then Ret (set_nth i a l) else Undef.

(** Byte strings (std::string). *)
Definition str := list ascii.
Definition str_eq_dec : forall a b : str, {a = b} + {a <> b} := list_eq_dec ascii_dec.
Definition str_eqb (a b : str) : bool := if str_eq_dec a b then true else false.
(** Literals. *)
Definition lit (s : string) : str := list_ascii_of_string s.

(** First binding of a key in an association list (std::map / std::unordered_map find). *)
Fixpoint assoc {B} (k : str) (m : list (str * B)) : option B :=
  match m with
  | [] => None
  | (k', b) :: t => if str_eqb k k' then Some b else assoc k t
  end.

Definition zlen {A} (l : list A) : Z := Z.of_nat (List.length l).
