(** Vocabulary for stubbing chains in whole programs: which answer of the chain a call
    gets.  No function of the library is modelled here. *)
From Coq Require Import Bool ZArith Lia List.
From Verif Require Import Base CInt Values ArgMatchers InvMatchers Spec_Conditions ActionSeq Spec_Actions
  Proxy Events ReturnSet Syntax World Spec_World Spec_View.
Import ListNotations.
Open Scope nat_scope.

(** One thing a program did: the mock and the method it was about (if any), the
    operation, and its result. *)
Record deed : Type := mkDeed { dd_about : option (nat * nat); dd_op : op; dd_result : val + exn }.

Section V.
Variable E : env.

(** What the test does with its own objects: the memory afterwards and the result. *)
Inductive memory_step (mm : mem) : op -> mem -> val -> Prop :=
| MsRead : forall a v, load mm a = Def v -> memory_step mm (ORead a) mm v
| MsWrite : forall a v mm', store mm a v = Def mm' -> memory_step mm (OWrite a v) mm' VVoid
| MsNew : forall v, memory_step mm (OAlloc v) (mm ++ [Some v]) (VInt (Z.of_nat (length mm)))
| MsFree : forall a v, load mm a = Def v -> memory_step mm (OFreeMem a) (upd mm a None) VVoid.

(** The calls and stubbing statements [ds], about any methods of any mocks, and uses of the
    test's own objects, one after the other, with their results. *)
Inductive story : sworld -> list deed -> sworld -> Prop :=
| StNil : forall s, story s [] s
| StCons : forall s m e o s1 r fd ds s2, plain_step E s m e o s1 r fd -> story s1 ds s2 ->
    story s (mkDeed (Some (m, e)) o r :: ds) s2
| StMem : forall s o mm v ds s2, memory_step (s_mem s) o mm v -> story (sset_mem s mm) ds s2 ->
    story s (mkDeed None o (inl v) :: ds) s2.

(** Those about method [e] of mock [m]. *)
Definition concerning (m e : nat) (ds : list deed) : list deed :=
  filter (fun d => match dd_about d with Some (m', e') => Nat.eqb m' m && Nat.eqb e' e | None => false end) ds.

(** A call whose arguments the condition [im] accepts, whatever is in memory. *)
Definition accepted_call (im : option imatcher) (o : op) : Prop :=
  exists obj slot args, o = OCall obj slot args /\ forall mm, satisfied mm (cond_of im) args.

(** [f], run for the call [o] of a method with return type [r], has the result [x],
    whatever is in memory. *)
Definition says (r : rett) (f : callable) (o : op) (x : val + exn) : Prop :=
  exists obj slot args, o = OCall obj slot args /\
    forall mm, exists mm' args', plain_callable E mm r f args = Some (mm', args', x).

(** The complaint about the call [o] of the method with number [no]. *)
Definition complains (s : sworld) (no : nat) (o : op) (x : val + exn) : Prop :=
  exists obj slot args, o = OCall obj slot args /\
    x = inr (complaint E s (EvUnexpected Unmatched (Some (Z.of_nat (S no))) args)).

End V.
