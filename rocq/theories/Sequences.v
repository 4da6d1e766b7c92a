(** Model of include/fakeit/Sequence.hpp. *)
From Coq Require Import List ZArith Lia.
From Verif Require Import Base CInt.
Import ListNotations.
Open Scope Z_scope.

(** Sequence.hpp:20-127: the class hierarchy Sequence.
    [SLeaf a]      : a single method expectation (MethodMockingContext, a Sequence
                     of size 1, MethodMockingContext.hpp:181-204);
    [SConcat l r]  : ConcatenatedSequence (48-86);
    [SRepeat s n]  : RepeatedSequence (88-127), [n] is the const int [times].
    Simplification: the C++ objects refer to their parts by reference; lifetime
    of the parts (temporaries of the full expression) is not modelled here. *)
Inductive sequence (A : Type) : Type :=
| SLeaf (a : A)
| SConcat (l r : sequence A)
| SRepeat (s : sequence A) (times : Z).
Arguments SLeaf {A} a.
Arguments SConcat {A} l r.
Arguments SRepeat {A} s times.

Section Seq.
Context {A : Type}.

(** [n] copies of [l] in a row: the effect of a loop appending [l] [n] times.  Sequence.hpp:115-118. *)
Fixpoint copies (n : nat) (l : list A) : list A :=
  match n with O => [] | S n' => l ++ copies n' l end.

(** getExpectedSequence: MethodMockingContext.hpp:202-204 (leaf),
    Sequence.hpp:75-78 (concatenation), 115-118 (repetition; the loop
    [for (int i = 0; i < times; i++)] runs [times] times, not at all if
    [times <= 0]). *)
Fixpoint getExpectedSequence (s : sequence A) : list A :=
  match s with
  | SLeaf a => [a]
  | SConcat l r => getExpectedSequence l ++ getExpectedSequence r
  | SRepeat s' n => copies (Z.to_nat n) (getExpectedSequence s')
  end.

(** size(): MethodMockingContext.hpp:191 (1), Sequence.hpp:63-65
    (unsigned addition), 103-105 (unsigned multiplication; [times] converted to
    unsigned). *)
Fixpoint seq_size (s : sequence A) : Z :=
  match s with
  | SLeaf _ => 1
  | SConcat l r => to_uint32 (seq_size l + seq_size r)
  | SRepeat s' n => to_uint32 (seq_size s' * to_uint32 n)
  end.

(** operator+ : Sequence.hpp:129-131. *)
Definition seq_plus (l r : sequence A) : sequence A := SConcat l r.

(** operator* : Sequence.hpp:133-137 and 139-143.  [None] is the exception
    std::invalid_argument. *)
Definition seq_times (s : sequence A) (times : Z) : option (sequence A) :=
  if times <=? 0 then None else Some (SRepeat s times).

(** getInvolvedMocks: MethodMockingContext.hpp:198-200 (leaf: its mock),
    Sequence.hpp:80-83, 111-113 (the repeated sequence contributes once). *)
Fixpoint getInvolvedMocks {B : Type} (mock_of : A -> B) (s : sequence A) : list B :=
  match s with
  | SLeaf a => [mock_of a]
  | SConcat l r => getInvolvedMocks mock_of l ++ getInvolvedMocks mock_of r
  | SRepeat s' _ => getInvolvedMocks mock_of s'
  end.

(** Sequences that can be built with the API: every repetition went through
    operator* , i.e. its factor is a positive int.  Sequence.hpp:133-143. *)
Fixpoint seq_built (s : sequence A) : Prop :=
  match s with
  | SLeaf _ => True
  | SConcat l r => seq_built l /\ seq_built r
  | SRepeat s' n => seq_built s' /\ 0 < n <= int_max
  end.

End Seq.
