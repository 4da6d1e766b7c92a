(** * Parameters that can and cannot be copied: which methods can be stubbed and spied

    Spy passes copies of the recorded arguments to the original method, SpyWithoutVerify forwards them
    (MockImpl.hpp:183-213).  The function that passes copies is there only if all parameter types pass a test,
    smart_is_copy_constructible (type_utils.hpp:95-102): std::is_copy_constructible, looked up for the elements of
    std::vector.  Spy has a static_assert otherwise (SpyFunctor.hpp:22-33).  getOriginalMethodCopyArgs is virtual
    (MethodMockingContext.hpp:57), so it is compiled for every method that is stubbed, spied or not.

    The model decides whether that code compiles, for types made from copyable and other types by the containers of the
    standard library, by classes with implicit copy constructors and by templates that say truly whether they can be
    copied (std::pair, std::tuple, std::array, std::optional).  The rules are those of the C++ standard (trusted):
    std::is_copy_constructible looks at declarations only, and the copy constructors of containers are declared whatever
    the elements are.  Simplified: nothing else keeps a test from compiling (C95, C96 and C105 are about that); types
    that cannot be moved either do not occur. *)
From Coq Require Import Bool Arith Lia List.
From Verif Require Import Base.
Import ListNotations.

(** Types; the language, with whose types type_utils.hpp:95-102 is instantiated. *)
Inductive cty :=
| Copyable                       (* int, std::string, ... *)
| MoveOnly                       (* std::unique_ptr<T>, ... *)
| Vector (t : cty)               (* std::vector<T> *)
| Container (t : cty)            (* std::list, std::deque, std::set, the values of std::map, ... *)
| Class (members : list cty).    (* a class with an implicit copy constructor; std::pair, std::tuple, std::array, std::optional *)

(** How a parameter is passed; the language, with whose types SpyFunctor.hpp:22 is instantiated. *)
Inductive parameter := ByValue (t : cty) | ByReference (t : cty) | ByRvalue (t : cty).

(** std::is_copy_constructible: the copy constructor is declared and not deleted.  The copy constructor of a class is deleted
    if that of a member is.  The standard, for type_utils.hpp:102. *)
Fixpoint is_copy_constructible (t : cty) : bool :=
  match t with
  | Copyable => true
  | MoveOnly => false
  | Vector _ | Container _ => true
  | Class l => forallb is_copy_constructible l
  end.

(** smart_test: type_utils.hpp:95-102. *)
Fixpoint smart_test (t : cty) : bool :=
  match t with
  | Vector e => smart_test e
  | _ => is_copy_constructible t
  end.

(** smart_is_copy_constructible<T> of a type in the list of parameters: of a reference it asks whether the reference can be
    bound to an lvalue; type_utils.hpp:98-102. *)
Definition smart_is_copy_constructible (p : parameter) : bool :=
  match p with
  | ByValue t => smart_test t
  | ByReference _ => true
  | ByRvalue _ => false
  end.

(** Whether the code that copies an object compiles: the bodies of all copy constructors it needs.  The language, for
    MockImpl.hpp:190. *)
Fixpoint copying_compiles (t : cty) : bool :=
  match t with
  | Copyable => true
  | MoveOnly => false
  | Vector e | Container e => copying_compiles e
  | Class l => forallb copying_compiles l
  end.

(** What compiling a part of a test can give: it compiles, a static_assert (SpyFunctor.hpp:32) says why not, or an error in
    the library (MockImpl.hpp:190). *)
Inductive compiled := Compiles | SaysWhy | Error.

(** The two overloads of getOriginalMethodCopyArgsInternal, MockImpl.hpp:183-199: the one that copies takes part only if
    all_true (type_utils.hpp:19-22) of the tests, and is better then, int to int against int to long; the other aborts. *)
Inductive variant := CopiesArguments | Aborts.
(** MockImpl.hpp:183-204. *)
Definition copy_variant (ps : list parameter) : variant :=
  if forallb smart_is_copy_constructible ps then CopiesArguments else Aborts.

(** (instance->*mPtr)(args...): MockImpl.hpp:190. *)
Definition passes_copies (p : parameter) : bool :=
  match p with ByValue t => copying_compiles t | ByReference _ => true | ByRvalue _ => false end.

(** getOriginalMethodCopyArgs, MockImpl.hpp:202-204, is virtual and so compiled with every Method(mock, f). *)
Definition mention (ps : list parameter) : compiled :=
  match copy_variant ps with
  | CopiesArguments => if forallb passes_copies ps then Compiles else Error
  | Aborts => Compiles
  end.

(** When, Fake, assignment, Verify: nothing else that depends on copies; MockImpl.hpp:183-213. *)
Definition stub (ps : list parameter) : compiled := mention ps.

(** Spy: SpyFunctor.hpp:22-33, with the same choice between int and long. *)
Definition spy (ps : list parameter) : compiled :=
  match mention ps with
  | Compiles => if forallb smart_is_copy_constructible ps then Compiles else SaysWhy
  | e => e
  end.

(** What a spied call does first: MockImpl.hpp:183-199. *)
Inductive spied := OriginalGetsCopies | ProgramAborts.
(** MockImpl.hpp:202-204. *)
Definition spied_call (ps : list parameter) : spied :=
  match copy_variant ps with CopiesArguments => OriginalGetsCopies | Aborts => ProgramAborts end.

(** SpyWithoutVerify: SpyWithoutVerifyFunctor.hpp:12-18, MockImpl.hpp:206-213; std::forward needs no copy. *)
Definition spy_without_verify (ps : list parameter) : compiled := mention ps.
