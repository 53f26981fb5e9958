(** StringsSpec.v - vocabulary for text: cutting, blanks, lines, numbers.  Independent of the model. *)
From Verif Require Import Base F32.

Definition newline : ascii := ascii_of_nat 10.
Definition carriage_return : ascii := ascii_of_nat 13.
Definition tabulator : ascii := ascii_of_nat 9.

(** Tab, newline, vertical tab, form feed, carriage return, blank. *)
Definition blank (c : ascii) : Prop := In (nat_of_ascii c) [9; 10; 11; 12; 13; 32].

(** The pieces between the occurrences of a character; n occurrences give n + 1 pieces. *)
Fixpoint cut (c : ascii) (s : str) : list str :=
  match s with
  | [] => [[]]
  | x :: t =>
      if ascii_dec x c then [] :: cut c t
      else match cut c t with [] => [] | p :: ps => (x :: p) :: ps end
  end.

(** A text without the carriage returns at its end. *)
Fixpoint chomp (s : str) : str :=
  match s with
  | [] => []
  | x :: t =>
      match chomp t with
      | [] => if ascii_dec x carriage_return then [] else [x]
      | u => x :: u
      end
  end.

(** The lines of a text, line ends removed. *)
Definition text_lines (s : str) : list str := map chomp (cut newline s).

(** [n] is [x] without blanks around it. *)
Definition trimmed (x n : str) : Prop :=
  exists pre post, x = pre ++ n ++ post /\
    (forall c, In c pre -> blank c) /\ (forall c, In c post -> blank c) /\
    (forall c t, n = c :: t -> ~ blank c) /\ (forall c t, n = t ++ [c] -> ~ blank c).

(** The number a text stands for: what the C library reads if it reads everything before the first NUL; an empty
    text is no number. *)
Definition number (strtof : str -> f32 * nat) (s : str) : option f32 :=
  let seen := hd [] (cut zero s) in
  match s with
  | [] => None
  | _ => if snd (strtof seen) =? List.length seen then Some (fst (strtof seen)) else None
  end.
