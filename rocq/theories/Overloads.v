(** * Which method do Method, OverloadedMethod, ... mean, when the name is overloaded

    The macros of api_macros.hpp:7-50 take the address of the overload set of a name,
    [&C::f], and leave the choice to the rules of C++ for such addresses:

    - Method (31-32) hands it to the eight templates Mock::stub (Mock.hpp:75-137), which
      differ in the qualifiers of the pointer they take.  For each of them the compiler
      tries every member of the set; if exactly one fits, the template is a candidate
      with that member ([temp.deduct.call]); otherwise it is none, because nothing can
      be deduced.  One candidate: the call means its member.  Two or more: ambiguous.
    - The six other macros hand it first to a function of Prototype (Prototype.hpp:8-46)
      with one definite parameter type, which chooses the member of exactly this type
      ([over.over]), and then to Mock::stub.

    Simplifications: no member function templates in the set; types are numbers; noexcept
    is not part of the type for these choices; base classes do not matter (the condition
    is_base_of<T, C> holds for every member of C); the compilers are taken at the word of the
    standard. *)
From Coq Require Import Bool List Arith.
Import ListNotations.
Open Scope nat_scope.

(** The qualifiers of a method.  Mock.hpp:75-137, Prototype.hpp:14-19. *)
Inductive refq := NoRef | LRef | RRef.
(** Mock.hpp:75-137, Prototype.hpp:14-19. *)
Record qual := mkQual { q_const : bool; q_volatile : bool; q_ref : refq }.

(** Models no lines of /repo. *)
Definition refq_eqb (a b : refq) : bool :=
  match a, b with NoRef, NoRef | LRef, LRef | RRef, RRef => true | _, _ => false end.
(** Models no lines of /repo. *)
Definition qual_eqb (a b : qual) : bool :=
  Bool.eqb (q_const a) (q_const b) && Bool.eqb (q_volatile a) (q_volatile b) && refq_eqb (q_ref a) (q_ref b).

(** A method of the overload set: result type, parameter types, qualifiers, and its entry in
    the virtual table if it is virtual.  What &MOCK_TYPE(mock)::method of api_macros.hpp:32 names. *)
Record overload := mkOver { o_ret : nat; o_pars : list nat; o_qual : qual; o_entry : option nat }.

(** The eight templates Mock::stub: const 75-81, volatile 83-89, const volatile 91-97, none
    99-105, & 107-113, const& 115-121, && 123-129, const&& 131-137. *)
Definition stub_templates : list qual :=
  [mkQual true false NoRef; mkQual false true NoRef; mkQual true true NoRef; mkQual false false NoRef;
   mkQual false false LRef; mkQual true false LRef; mkQual false false RRef; mkQual true false RRef].

(** What an expression means to the compiler.  Rules of the language, for api_macros.hpp:31-50. *)
Inductive meaning := Means (o : overload) | NoMatch | Ambiguous.

(** Trial deduction of one template.  A rule of the language, for Mock.hpp:76-78 and the other seven (84-134). *)
Definition deduces (s : list overload) (q : qual) : option overload :=
  match filter (fun o => qual_eqb (o_qual o) q) s with [o] => Some o | _ => None end.

(** Mock.hpp:75-137. *)
Fixpoint candidates (s : list overload) (qs : list qual) : list overload :=
  match qs with
  | [] => []
  | q :: r => match deduces s q with Some o => o :: candidates s r | None => candidates s r end
  end.

(** mock.stub<id>(&C::f)  api_macros.hpp:32 with Mock.hpp:75-137. *)
Definition stub_of (s : list overload) : meaning :=
  match candidates s stub_templates with
  | [o] => Means o
  | [] => NoMatch
  | _ => Ambiguous
  end.

(** Method(mock, f), api_macros.hpp:31-32 *)
Definition method_macro (s : list overload) : meaning := stub_of s.

(** The six macros with a prototype (api_macros.hpp:34-50) and the parameter types of
    Prototype::MemberType::get, getConst, getRef, getConstRef, getRValRef, getConstRValRef
    (Prototype.hpp:14-44). *)
Inductive pmacro :=
| OverloadedMethod | ConstOverloadedMethod | RefOverloadedMethod
| ConstRefOverloadedMethod | RValRefOverloadedMethod | ConstRValRefOverloadedMethod.

(** api_macros.hpp:10-26, Prototype.hpp:14-43. *)
Definition get_qual (m : pmacro) : qual :=
  match m with
  | OverloadedMethod => mkQual false false NoRef
  | ConstOverloadedMethod => mkQual true false NoRef
  | RefOverloadedMethod => mkQual false false LRef
  | ConstRefOverloadedMethod => mkQual true false LRef
  | RValRefOverloadedMethod => mkQual false false RRef
  | ConstRValRefOverloadedMethod => mkQual true false RRef
  end.

(** Models no lines of /repo. *)
Fixpoint pars_eqb (a b : list nat) : bool :=
  match a, b with
  | [], [] => true
  | x :: a, y :: b => Nat.eqb x y && pars_eqb a b
  | _, _ => false
  end.

(** R (C::* )(Args...) with its qualifiers, Prototype.hpp:14-19. *)
Definition has_type (ret : nat) (pars : list nat) (q : qual) (o : overload) : bool :=
  Nat.eqb (o_ret o) ret && pars_eqb (o_pars o) pars && qual_eqb (o_qual o) q.

(** XxxOverloadedMethod(mock, f, ret(pars))  api_macros.hpp:34-50, Prototype.hpp:21-43. *)
Definition prototype_macro (m : pmacro) (ret : nat) (pars : list nat) (s : list overload) : meaning :=
  match filter (has_type ret pars (get_qual m)) s with
  | [o] => stub_of [o]
  | [] => NoMatch
  | _ => Ambiguous
  end.

(** What the statement then does at run time first: VTUtils::getOffset (VTUtils.hpp:30-35) calls the
    method on an object of another class to learn its entry. A virtual method leads to that
    object's own table; any other method runs there with a foreign object. *)
Inductive located := Entry (k : nat) | ForeignCall.
(** VTUtils.hpp:30-35. *)
Definition get_offset (o : overload) : located :=
  match o_entry o with Some k => Entry k | None => ForeignCall end.
