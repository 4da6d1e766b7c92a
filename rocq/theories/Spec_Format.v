(** Specification vocabulary for printed text. *)
From Coq Require Import Bool Ascii String ZArith List.
Import ListNotations.
Open Scope string_scope.

(** Parentheses are balanced, starting from nesting depth [d], and every blank
    lies inside some pair of parentheses. *)
Fixpoint closed_from (d : nat) (s : string) : bool :=
  match s with
  | EmptyString => Nat.eqb d 0
  | String c s' =>
      if Ascii.eqb c "(" then closed_from (S d) s'
      else if Ascii.eqb c ")" then
        match d with O => false | S d' => closed_from d' s' end
      else if Ascii.eqb c " " && Nat.eqb d 0 then false
      else closed_from d s'
  end.

(** The text of a single expectation such as [mock.foo(1, 2)]: it begins with a
    name, its parentheses are balanced and it has no blank outside of them. *)
Definition single_text (s : string) : bool :=
  match s with
  | EmptyString => false
  | String c _ => negb (Ascii.eqb c "(") && closed_from 0 s
  end.

(** A name: non-empty, no blank, no parenthesis. *)
Fixpoint no_blank (s : string) : bool :=
  match s with
  | EmptyString => true
  | String c s' =>
      negb (Ascii.eqb c "(") && negb (Ascii.eqb c ")") && negb (Ascii.eqb c " ") && no_blank s'
  end.

Definition is_name (s : string) : bool :=
  match s with EmptyString => false | _ => no_blank s end.

(** The lines of a text. *)
Fixpoint lines_from (cur : string) (s : string) : list string :=
  match s with
  | EmptyString => [cur]
  | String c s' =>
      if Ascii.eqb c (ascii_of_nat 10) then cur :: lines_from EmptyString s'
      else lines_from (cur ++ String c EmptyString) s'
  end.
Definition lines (s : string) : list string := lines_from EmptyString s.

(** A text of one line. *)
Fixpoint one_line (s : string) : bool :=
  match s with
  | EmptyString => true
  | String c s' => negb (Ascii.eqb c (ascii_of_nat 10)) && one_line s'
  end.
