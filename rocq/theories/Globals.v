(** Objects with static storage duration: the variables of the library's headers, of the user's
    files, and the ones that are made at first use; initialisation before main and destruction
    at the end of the program.  Several source files, in any order the linker may choose. *)
From Coq Require Import Bool Arith Lia List.
Import ListNotations.
Open Scope nat_scope.

(** The objects.
    [KInst]: the instance behind getInstance() (config/standalone/StandaloneFakeit.hpp:106-109 and
    the same function of the other configurations); all mocks and verifications report to it.
    [KUnknown]: UnknownMethod::instance() (DomainObjects.hpp:52-59), it holds a std::string.
    [KDefault t]: the value of DefaultValue<T>::value() (DefaultValue.hpp:55-61, 143-149).
    [KLocal n]: a static mock inside a function.  [KVar f i]: variable number i of file f. *)
Inductive key : Type :=
| KInst
| KUnknown
| KDefault (t : nat)
| KLocal (n : nat)
| KVar (f i : nat).

(** Equality of objects. Models no lines of /repo. *)
Definition key_eqb (a b : key) : bool :=
  match a, b with
  | KInst, KInst | KUnknown, KUnknown => true
  | KDefault t, KDefault u => Nat.eqb t u
  | KLocal n, KLocal m => Nat.eqb n m
  | KVar f i, KVar g j => Nat.eqb f g && Nat.eqb i j
  | _, _ => false
  end.

(** What code of a file does.  Exceptions (of unexpected calls and failing verifications) are
    taken to be caught where they arise.
    [LMake c]: makes and destroys a mock of class c.
    [LUnexpected c]: makes one and calls a stubbed method that no stubbing accepts.
    [LUnmocked c]: makes one and calls a method that was never mentioned.
    [LVerify b]: a verification by Verify, VerifyNoOtherInvocations, Using or Unverified; b: it
    fails.
    [LDefault t]: calls a method with result type t that was given to Fake (or Return()).
    [LStatic n c]: passes the definition of the static mock n of class c in a function and calls
    a method no stubbing accepts.
    [LVar f i]: uses variable i of file f; if it is a mock, calls a method no stubbing accepts.
    [LIn g l]: calls a function that is defined in file g.  What these use: Mock.hpp:43-47,
    RecordedMethodBody.hpp:126-150, MockImpl.hpp:273-282, VerifyFunctor.hpp:32-43, Action.hpp:78-89. *)
Inductive code : Type :=
| LMake (c : nat)
| LUnexpected (c : nat)
| LUnmocked (c : nat)
| LVerify (fails : bool)
| LDefault (t : nat)
| LStatic (n c : nat)
| LVar (f i : nat)
| LIn (g : nat) (l : list code).

(** A variable of the user: what its initialiser and its destructor run; the class, if it is a
    mock.  Code of the user; models no lines of /repo. *)
Record gvar : Type := mkVar { v_init : list code; v_fini : list code; v_mock : option nat }.

(** A file: whether it includes fakeit.hpp in front of its variables, and these.  Including the header brings
    config/*/fakeit_instance.hpp:5 and api_functors.hpp:14-21 into the file. *)
Record gfile : Type := mkFile { gf_includes : bool; gf_vars : list gvar }.

(** A program.  [p_files]: in the order in which the linker has them initialised.
    [p_trivial t]: result type t needs no destructor.
    [p_kept f c]: the file whose copy of the constructor of Mock<c> runs when file f makes such a
    mock.  (Mock.hpp:43-47 is a template; the linker keeps one of the copies, unless the
    compiler inlines its own; the variable Fakeit in it is the one of the file of the copy.) *)
Record gprog : Type := mkProg {
  p_files : list gfile; p_trivial : nat -> bool; p_kept : nat -> nat -> nat; p_main : list code }.

(** [g_ready]: the files whose variables Fakeit, Using, Verify, VerifyNoOtherInvocations and
    Unverified have been initialised.  [g_stack]: the objects that are alive, youngest first.
    [g_closing]: the object whose destructor is running.  [g_dead]: those that were destroyed,
    the last one first.  The variables: config/*/fakeit_instance.hpp:5, api_functors.hpp:14-17. *)
Record gstate : Type := mkG {
  g_ready : list nat; g_stack : list key; g_closing : list key; g_dead : list key }.

(** [GOwn]: the user's code uses a variable of the user outside its lifetime.
    [GUB]: the library uses a reference that is not initialised or an object that is destroyed.  Undefined:
    references of fakeit_instance.hpp:5, api_functors.hpp:14-17; objects of StandaloneFakeit.hpp:106-109,
    DomainObjects.hpp:52-59. *)
Inductive gout : Type :=
| GOk (s : gstate)
| GOwn
| GUB
| GFuel.

(** One after the other. Models no lines of /repo. *)
Definition gbind (x : gout) (f : gstate -> gout) : gout :=
  match x with GOk s => f s | GOwn => GOwn | GUB => GUB | GFuel => GFuel end.

(** Models no lines of /repo. *)
Definition has (l : list key) (k : key) : bool := existsb (key_eqb k) l.

(** A static variable of a function is passed: made at the first time; afterwards it is there,
    or it has been destroyed.  StandaloneFakeit.hpp:107, DomainObjects.hpp:55. *)
Definition pass_static (k : key) (s : gstate) : gout :=
  if has (g_dead s) k then GUB
  else if has (g_stack s) k then GOk s
  else GOk (mkG (g_ready s) (k :: g_stack s) (g_closing s) (g_dead s)).

(** The variables of the headers in file f hold references (fakeit_instance.hpp:5 in each
    configuration, api_functors.hpp:14-17): reading one before it is initialised is undefined. *)
Definition need_ready (f : nat) (s : gstate) : gout :=
  if existsb (Nat.eqb f) (g_ready s) then GOk s else GUB.

(** FakeitContext::handle (FakeitContext.hpp:24-43): virtual calls on the instance. *)
Definition report (s : gstate) : gout :=
  if has (g_stack s) KInst then GOk s else GUB.

(** Variable i of file f, and the class of the mock it is, if it is one.  Code of the user; models no lines of
    /repo. *)
Definition var_in (p : gprog) (f i : nat) : option gvar :=
  match nth_error (p_files p) f with Some x => nth_error (gf_vars x) i | None => None end.
(** Code of the user; models no lines of /repo. *)
Definition mock_in (p : gprog) (f i : nat) : option nat :=
  match var_in p f i with Some v => v_mock v | None => None end.

(** Code of file f. *)
Fixpoint grun (p : gprog) (f : nat) (x : code) (s : gstate) {struct x} : gout :=
  match x with
  | LMake c => need_ready (p_kept p f c) s                                   (* Mock.hpp:43-44 *)
  | LUnexpected c => gbind (need_ready (p_kept p f c) s) report              (* RecordedMethodBody.hpp:126-150 *)
  | LUnmocked c =>                                                           (* MockImpl.hpp:273-282 *)
      gbind (need_ready (p_kept p f c) s) (fun s => gbind (pass_static KUnknown s) report)
  | LVerify fails =>                                    (* VerifyFunctor.hpp:32-43 and the like *)
      gbind (need_ready f s) (fun s => if fails then report s else GOk s)
  | LDefault t =>                                                            (* Action.hpp:82-84 *)
      if p_trivial p t then GOk s else pass_static (KDefault t) s
  | LStatic n c =>
      if has (g_dead s) (KLocal n) then GOwn
      else gbind (if has (g_stack s) (KLocal n) then GOk s
                  else gbind (need_ready (p_kept p f c) s)
                         (fun s => GOk (mkG (g_ready s) (KLocal n :: g_stack s) (g_closing s) (g_dead s)))) report
  | LVar g i =>
      if has (g_stack s) (KVar g i) || has (g_closing s) (KVar g i)
      then match mock_in p g i with Some _ => report s | None => GOk s end
      else GOwn
  | LIn g l =>
      (fix all (l : list code) (s : gstate) : gout :=
         match l with [] => GOk s | y :: r => gbind (grun p g y s) (all r) end) l s
  end.

(** One after the other; for the lines see [grun], e.g. Mock.hpp:43-44. *)
Fixpoint grun_all (p : gprog) (f : nat) (l : list code) (s : gstate) : gout :=
  match l with [] => GOk s | y :: r => gbind (grun p f y s) (grun_all p f r) end.

(** The initialisation of variable i of file f: its initialiser, the constructor of the mock if
    it is one; then it is alive, and its destructor will run in its turn.  Mock.hpp:43-47. *)
Definition init_var (p : gprog) (f i : nat) (v : gvar) (s : gstate) : gout :=
  gbind (grun_all p f (v_init v) s) (fun s =>
  gbind (match v_mock v with Some c => need_ready (p_kept p f c) s | None => GOk s end) (fun s =>
  GOk (mkG (g_ready s) (KVar f i :: g_stack s) (g_closing s) (g_dead s)))).

(** In the order of their definitions, a rule of the language; Mock.hpp:43-47 for those that are mocks. *)
Fixpoint init_vars (p : gprog) (f i : nat) (l : list gvar) (s : gstate) : gout :=
  match l with [] => GOk s | v :: r => gbind (init_var p f i v s) (init_vars p f (S i) r) end.

(** The variables of the headers in file f: fakeit_instance.hpp:5 calls getInstance(), the rest
    takes what that returns (api_functors.hpp:14-17).  (The nunit configuration makes KUnknown
    here as well, config/nunit/fakeit_instance.hpp:18; all others do not.) *)
Definition init_headers (f : nat) (s : gstate) : gout :=
  gbind (pass_static KInst s) (fun s => GOk (mkG (f :: g_ready s) (g_stack s) (g_closing s) (g_dead s))).

(** config/*/fakeit_instance.hpp:5, api_functors.hpp:14-17, then the variables of the user. *)
Definition init_file (p : gprog) (f : nat) (x : gfile) (s : gstate) : gout :=
  gbind (if gf_includes x then init_headers f s else GOk s) (init_vars p f 0 (gf_vars x)).

(** In the order that the linker has chosen; the definitions are static ones, one per file (fakeit_instance.hpp:5,
    api_functors.hpp:14-21). *)
Fixpoint init_files (p : gprog) (f : nat) (l : list gfile) (s : gstate) : gout :=
  match l with [] => GOk s | x :: r => gbind (init_file p f x s) (init_files p (S f) r) end.

(** What the destructor of an object runs.  Those of the library (MockImpl.hpp:40-42, StandaloneFakeit.hpp:101)
    report nothing. *)
Definition fini_of (p : gprog) (k : key) : list code :=
  match k with
  | KVar f i => match var_in p f i with Some v => v_fini v | None => [] end
  | _ => []
  end.

(** Models no lines of /repo. *)
Definition file_of (k : key) : nat := match k with KVar f _ => f | _ => 0 end.

(** The end of the program: objects are destroyed in the reverse order of their construction
    (those that a destructor brings about come next).  A rule of the language, for the objects of
    StandaloneFakeit.hpp:107, DomainObjects.hpp:55 and those of the user. *)
Fixpoint at_exit (p : gprog) (fuel : nat) (s : gstate) : gout :=
  match fuel with
  | O => match g_stack s with [] => GOk s | _ => GFuel end
  | S n =>
      match g_stack s with
      | [] => GOk s
      | k :: r =>
          gbind (grun_all p (file_of k) (fini_of p k) (mkG (g_ready s) r [k] (g_dead s))) (fun s =>
          at_exit p n (mkG (g_ready s) (g_stack s) [] (k :: g_dead s)))
      end
  end.

(** [p_main] runs in file 0 (its functions may be anywhere). *)
Definition before_main (p : gprog) : gout := init_files p 0 (p_files p) (mkG [] [] [] []).
(** Models no lines of /repo: a whole program up to the end of main. *)
Definition until_exit (p : gprog) : gout := gbind (before_main p) (grun_all p 0 (p_main p)).
(** Models no lines of /repo: a whole program. *)
Definition whole (p : gprog) (fuel : nat) : gout := gbind (until_exit p) (at_exit p fuel).
