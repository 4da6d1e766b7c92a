(** Model of the objects that Eq(x), Gt(x), StrEq(s), ApproxEq(x, m) and so on return (matcher
    creators): argument_matchers.hpp:28-55 (ComparisonMatcherCreatorBase), 439-481
    (ApproxEqCreator), 487-603 (the functions), and of what Using(...) and operator() do with
    them: MatchersCollector.hpp:50-75.

    A creator holds references to its operands ([ExpectedTRef _expectedRef], 32; [T&&] is an
    lvalue reference for an lvalue operand and an rvalue reference otherwise, 499-533).  The
    matcher with its own copy of the operands is made when the creator is used (createMatcher).

    Variables and temporaries are cells; a cell whose lifetime has ended is [None], and reading
    it is undefined. *)
From Coq Require Import Ascii String ZArith List.
From Verif Require Import Base Values ArgMatchers.
Import ListNotations.
Open Scope nat_scope.

(** Which function made the creator.  argument_matchers.hpp:487-603. *)
Inductive ckind : Type := KAny | KCmp (r : rel) | KStr (r : rel) | KApprox.

(** A reference to an operand: the cell, and whether it is an rvalue reference.  _expectedRef:
    argument_matchers.hpp:32, 450-451. *)
Record oref : Type := mkRef { or_cell : nat; or_rvalue : bool }.
(** argument_matchers.hpp:28-37, 59-77, 439-457. *)
Record creator : Type := mkCreator { cr_kind : ckind; cr_refs : list oref }.

(** The program's cells, the creators kept in variables, and the matchers made so far.  The program around
    argument_matchers.hpp:487-603 and MatchersCollector.hpp:50-82. *)
Record cstate : Type := mkCS { cs_cells : list (option expected); cs_named : list creator; cs_made : list amatcher }.

(** Replacing a cell. Models no lines of /repo. *)
Fixpoint put (l : list (option expected)) (a : nat) (c : option expected) : list (option expected) :=
  match l, a with
  | [], _ => []
  | _ :: l', 0 => c :: l'
  | x :: l', S a' => x :: put l' a' c
  end.

Section Left.
(** What a std::string holds after it was moved from: not specified by the standard. *)
Variable left : string -> string.

(** What an object holds after [_expected{std::forward<ExpectedTRef>(expected)}] (43-45,
    466-469) if the reference is an rvalue reference: a std::string is moved from, a number
    or a pointer or an array (51-53) is copied. *)
Definition leave (e : expected) : expected :=
  match e with
  | XVal (VStr s) => XVal (VStr (left s))
  | _ => e
  end.

(** Copying or moving the operands into the matcher.  argument_matchers.hpp:43-45, 52-54, 105, 465-468, 479. *)
Fixpoint take (refs : list oref) (cells : list (option expected)) : outcome (list expected * list (option expected)) :=
  match refs with
  | [] => Def ([], cells)
  | r :: refs' =>
      match nth_error cells (or_cell r) with
      | Some (Some e) =>
          let cells' := if or_rvalue r then put cells (or_cell r) (Some (leave e)) else cells in
          let! p := take refs' cells' in
          Def (e :: fst p, snd p)
      | _ => UB
      end
  end.

(** The matcher of a kind with given operands; operands of the wrong number or type do not
    compile.  createMatcher: argument_matchers.hpp:63-76, 91-106 and the other five, 271-286 and the other five,
    459-480. *)
Definition build (k : ckind) (es : list expected) : outcome amatcher :=
  match k, es with
  | KAny, [] => Def AAny
  | KCmp r, [e] => Def (ACmp r e)
  | KStr r, [XVal (VStr s)] => Def (AStr r s)
  | KApprox, [XVal e; XVal m] => Def (AApprox e m)
  | _, _ => UB
  end.

(** createMatcher: 63-76, 91-106 and so on. *)
Definition create (c : creator) (s : cstate) : outcome cstate :=
  let! p := take (cr_refs c) (cs_cells s) in
  let! m := build (cr_kind c) (fst p) in
  Def (mkCS (snd p) (cs_named s) (cs_made s ++ [m])).

(** An operand as the program writes it: a variable, std::move of one, or a temporary.  The parameters T&& of
    argument_matchers.hpp:499-603. *)
Inductive coperand : Type :=
| OpVar (a : nat)
| OpMove (a : nat)
| OpTemp (e : expected).

(** Binding the references to the operands (36-38); temporaries get cells of their own. *)
Fixpoint bind_refs (ops : list coperand) (cells : list (option expected)) : list oref * list (option expected) :=
  match ops with
  | [] => ([], cells)
  | o :: ops' =>
      let (r, cells') := match o with
                         | OpVar a => (mkRef a false, cells)
                         | OpMove a => (mkRef a true, cells)
                         | OpTemp e => (mkRef (length cells) true, cells ++ [Some e])
                         end in
      let (rs, cells'') := bind_refs ops' cells' in (r :: rs, cells'')
  end.

(** The end of the full-expression: the cells made since there were [n] die.  A rule of the language, for the
    operands of argument_matchers.hpp:499-603. *)
Definition end_temporaries (n : nat) (cells : list (option expected)) : list (option expected) :=
  firstn n cells ++ repeat None (length cells - n).

(** What a program does with creators: argument_matchers.hpp:487-603 makes them, MatchersCollector.hpp:50-82 uses
    them. *)
Inductive cstep : Type :=
| CVar (e : expected)                          (** T x = e; *)
| CSet (a : nat) (e : expected)                (** x = e; *)
| CEnd (a : nat)                               (** the end of the scope of x *)
| CName (k : ckind) (ops : list coperand)      (** auto c = Gt(x); *)
| CUse (c : nat)                               (** Using(c) *)
| CInline (k : ckind) (ops : list coperand).   (** Using(Gt(x)) *)

(** argument_matchers.hpp:487-603, MatchersCollector.hpp:57, 65, 73. *)
Definition cstep_run (x : cstep) (s : cstate) : outcome cstate :=
  let n := length (cs_cells s) in
  match x with
  | CVar e => Def (mkCS (cs_cells s ++ [Some e]) (cs_named s) (cs_made s))
  | CSet a e =>
      match nth_error (cs_cells s) a with
      | Some (Some _) => Def (mkCS (put (cs_cells s) a (Some e)) (cs_named s) (cs_made s))
      | _ => UB
      end
  | CEnd a => Def (mkCS (put (cs_cells s) a None) (cs_named s) (cs_made s))
  | CName k ops =>
      let (rs, cells) := bind_refs ops (cs_cells s) in
      Def (mkCS (end_temporaries n cells) (cs_named s ++ [mkCreator k rs]) (cs_made s))
  | CUse c =>
      match nth_error (cs_named s) c with
      | Some cr => create cr s
      | None => UB
      end
  | CInline k ops =>
      let (rs, cells) := bind_refs ops (cs_cells s) in
      let! s' := create (mkCreator k rs) (mkCS cells (cs_named s) (cs_made s)) in
      Def (mkCS (end_temporaries n (cs_cells s')) (cs_named s') (cs_made s'))
  end.

(** Several statements, one after the other: code of the user.  The lines are those of each step, MatchersCollector.hpp:50-82,
    argument_matchers.hpp:487-603. *)
Fixpoint crun (l : list cstep) (s : cstate) : outcome cstate :=
  match l with
  | [] => Def s
  | x :: l' => let! s' := cstep_run x s in crun l' s'
  end.
End Left.
