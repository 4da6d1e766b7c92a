(** Model of sequence expressions whose parts are objects with lifetimes:
    include/fakeit/Sequence.hpp:48-143.  A ConcatenatedSequence and a RepeatedSequence hold
    references to their parts (50-51, 90), which are variables or temporaries of the program.

    Objects are cells, numbered in the order of their creation; a cell whose lifetime has ended is
    [None], and reading it is undefined.  [A]: what a method expression stands for.

    Simplifications: cells are not reused; the copy that operator+ and operator* make when they
    return their result (129-143, elided since C++17) is left out, it holds the same references. *)
From Coq Require Import ZArith List.
From Verif Require Import Base.
Import ListNotations.
Open Scope nat_scope.

Section SeqVars.
Context {A : Type}.

(** The object of a sequence: a MethodMockingContext (MethodMockingContext.hpp:173-206), a
    ConcatenatedSequence (Sequence.hpp:48-52) or a RepeatedSequence (88-91). *)
Inductive node : Type :=
| NMethod (a : A)
| NConcat (s1 s2 : nat)
| NRepeat (s : nat) (times : Z).

(** A variable: the cell it names, and whether that cell dies with it (not so for a reference
    to an object that belongs to another variable).  Code of the user; models no lines of /repo. *)
Record qvar : Type := mkVar { v_cell : nat; v_owns : bool }.

(** The cells, the variables, and the patterns that verifications have looked for.  Code of the user; the patterns:
    SequenceVerificationExpectation.hpp:44. *)
Record qstate : Type := mkQ { q_cells : list (option node); q_vars : list qvar; q_seen : list (list (list A)) }.

(** An expression as the program writes it. *)
Inductive qexp : Type :=
| QVar (x : nat)                       (** a variable *)
| QMethod (a : A)                      (** Method(mock, foo), Method(mock, foo).Using(1), … *)
| QPlus (e1 e2 : qexp)                 (** e1 + e2 *)
| QTimes (e : qexp) (times : Z).       (** e * n or n * e *)

(** Reading through the references of Sequence.hpp:50-51, 90; undefined if the object is gone. *)
Definition alive (cells : list (option node)) (c : nat) : outcome node :=
  match nth_error cells c with Some (Some d) => Def d | _ => UB end.

(** Evaluating an expression: the cell of its object and the cells with the temporaries it made;
    [None]: operator* threw std::invalid_argument (134-135, 140-141).
    Method(…) makes a MethodMockingContext and yields a reference to it (api_macros.hpp:31-32,
    MethodMockingContext.hpp:295-298, 355-358); operator+: 129-131; operator*: 133-143. *)
Fixpoint qeval (e : qexp) (vars : list qvar) (cells : list (option node))
  : outcome (option (nat * list (option node))) :=
  match e with
  | QVar x =>
      let! v := of_option (nth_error vars x) in
      Def (Some (v_cell v, cells))
  | QMethod a => Def (Some (length cells, cells ++ [Some (NMethod a)]))
  | QPlus e1 e2 =>
      let! r1 := qeval e1 vars cells in
      match r1 with
      | None => Def None
      | Some (c1, cells1) =>
          let! r2 := qeval e2 vars cells1 in
          match r2 with
          | None => Def None
          | Some (c2, cells2) => Def (Some (length cells2, cells2 ++ [Some (NConcat c1 c2)]))
          end
      end
  | QTimes e1 n =>
      let! r1 := qeval e1 vars cells in
      match r1 with
      | None => Def None
      | Some (c1, cells1) =>
          if (n <=? 0)%Z then Def None
          else Def (Some (length cells1, cells1 ++ [Some (NRepeat c1 n)]))
      end
  end.

(** getExpectedSequence: MethodMockingContext.hpp:202-206, Sequence.hpp:75-78, 115-118.  [fuel]
    bounds the depth. *)
Fixpoint qread (fuel : nat) (cells : list (option node)) (c : nat) : outcome (list A) :=
  match fuel with
  | 0 => NoFuel
  | S fuel' =>
      let! d := alive cells c in
      match d with
      | NMethod a => Def [a]
      | NConcat c1 c2 =>
          let! l1 := qread fuel' cells c1 in
          let! l2 := qread fuel' cells c2 in
          Def (l1 ++ l2)
      | NRepeat c1 n =>
          let! l1 := qread fuel' cells c1 in
          Def (concat (repeat l1 (Z.to_nat n)))
      end
  end.

(** A chain of references goes to ever older cells, so this depth is enough.  Sequence.hpp:75-78, 115-118. *)
Definition qread_all (cells : list (option node)) (c : nat) : outcome (list A) :=
  qread (S (length cells)) cells c.

(** The end of the full-expression: the cells made since there were [n] die.  A rule of the language; models no
    lines of /repo. *)
Definition qend (n : nat) (cells : list (option node)) : list (option node) :=
  firstn n cells ++ repeat None (length cells - n).

Inductive qstmt : Type :=
| QAuto (e : qexp)             (** auto s = e; *)
| QRef (e : qexp)              (** const auto &s = e; *)
| QEnd (x : nat)               (** the end of the scope of a variable *)
| QVerify (es : list qexp).    (** Verify(e1, …, en); *)

(** The arguments of Verify, one after the other.  VerifyFunctor.hpp:33-35. *)
Fixpoint qeval_all (es : list qexp) (vars : list qvar) (cells : list (option node))
  : outcome (option (list nat * list (option node))) :=
  match es with
  | [] => Def (Some ([], cells))
  | e :: es' =>
      let! r := qeval e vars cells in
      match r with
      | None => Def None
      | Some (c, cells1) =>
          let! rs := qeval_all es' vars cells1 in
          match rs with
          | None => Def None
          | Some (cs, cells2) => Def (Some (c :: cs, cells2))
          end
      end
  end.

(** getExpectedSequence of each, Sequence.hpp:75-78, 115-118, called at MatchAnalysis.hpp:50. *)
Fixpoint qread_each (cells : list (option node)) (cs : list nat) : outcome (list (list A)) :=
  match cs with
  | [] => Def []
  | c :: cs' =>
      let! l := qread_all cells c in
      let! ls := qread_each cells cs' in
      Def (l :: ls)
  end.

(** One statement; [None]: the exception of operator* leaves the program.
    auto: the variable is a copy of the object (a copy of a concatenation refers to the same
    parts).  const auto &: a temporary made by operator+ or operator* lives on with the reference;
    the object of Method(…) does not, because setMethodDetails returns a reference
    (MethodMockingContext.hpp:295-298).
    Verify: VerifyFunctor.hpp:32-44; the object of the verification is the last temporary of the
    statement and the first to die, so the pattern is read (SequenceVerificationExpectation.hpp:14-19,
    67-88, MatchAnalysis.hpp:83-92) while all parts are there. *)
Definition qrun1 (x : qstmt) (s : qstate) : outcome (option qstate) :=
  let n := length (q_cells s) in
  match x with
  | QAuto e =>
      let! r := qeval e (q_vars s) (q_cells s) in
      match r with
      | None => Def None
      | Some (c, cells) =>
          let! d := alive cells c in
          Def (Some (mkQ (qend n cells ++ [Some d]) (q_vars s ++ [mkVar (length cells) true]) (q_seen s)))
      end
  | QRef e =>
      let! r := qeval e (q_vars s) (q_cells s) in
      match r with
      | None => Def None
      | Some (c, cells) =>
          match e with
          | QVar _ | QMethod _ => Def (Some (mkQ (qend n cells) (q_vars s ++ [mkVar c false]) (q_seen s)))
          | _ =>
              let! d := alive cells c in
              Def (Some (mkQ (upd (qend n cells) c (Some d)) (q_vars s ++ [mkVar c true]) (q_seen s)))
          end
      end
  | QEnd x =>
      let! v := of_option (nth_error (q_vars s) x) in
      Def (Some (mkQ (if v_owns v then upd (q_cells s) (v_cell v) None else q_cells s) (q_vars s) (q_seen s)))
  | QVerify es =>
      let! r := qeval_all es (q_vars s) (q_cells s) in
      match r with
      | None => Def None
      | Some (cs, cells) =>
          let! ls := qread_each cells cs in
          Def (Some (mkQ (qend n cells) (q_vars s) (q_seen s ++ [ls])))
      end
  end.

(** One after the other; code of the user. *)
Fixpoint qrun (l : list qstmt) (s : qstate) : outcome (option qstate) :=
  match l with
  | [] => Def (Some s)
  | x :: l' =>
      let! r := qrun1 x s in
      match r with
      | None => Def None
      | Some s' => qrun l' s'
      end
  end.

(** Models no lines of /repo. *)
Definition qstart : qstate := mkQ [] [] [].

End SeqVars.
Arguments node A : clear implicits.
Arguments qexp A : clear implicits.
Arguments qstmt A : clear implicits.
Arguments qstate A : clear implicits.
