(** * Verifications inside conditions and actions

    A predicate given to Matching(...), and a function given to Do(...), may contain Verify and VerifyNoOtherInvocations statements
    about the mock whose call is being decided: RecordedMethodBody.hpp:71-82, 126-150, invocation_matchers.hpp:119-143,
    MatchAnalysis.hpp:16-92, SequenceVerificationExpectation.hpp:67-104,
    VerifyNoOtherInvocationsVerificationProgress.hpp:59-80.

    Simplified: one method of one mock; verifications are of one condition, Verify(Method(mock, f).Matching(c)) with a quantity,
    converted to bool (C33; a failed one that is not converted to bool throws, which is the program [Say Raise] for the answer
    false); a predicate decides by the arguments and by the answers of its verifications; conditions that call, stub, clear or
    reset are in Predicates.v. *)
From Coq Require Import Bool Arith Lia List.
From Verif Require Import Base Asked.
Import ListNotations.

Section Within.
(** [A]: the arguments of a call; [P]: predicates. *)
Context {A P : Type}.

(** The code of a predicate or of an action.  [Say]: it returns true or false (an action: anything but Raise stands for returning), or throws;
    [Check]: if (Verify(Method(mock, f).Matching(c))…), where [need] says which numbers of matches are enough, and what follows
    depends on the answer; [Others]: if (VerifyNoOtherInvocations(mock)).  Code of the user, called at
    invocation_matchers.hpp:138-140 and Action.hpp:43-46. *)
Inductive prog : Type :=
| Say (x : reply)
| Check (c : nat * P) (need : nat -> bool) (k : bool -> prog)
| Others (k : bool -> prog).

(** A recorded call: its arguments, the condition object that accepted it, whether it is verified.
    ActualInvocation.hpp:36-55, Invocation.hpp:38-40, 52-58. *)
Record rcall := mkN { n_args : A; n_by : nat; n_seen : bool }.

(** What a verification saw: how many calls, which of them matched (their places), and its answer.  Models no lines of
    /repo. *)
Record look := mkLook { l_calls : nat; l_matched : list nat; l_ok : bool }.

(** _actualInvocations, RecordedMethodBody.hpp:63, and the list of what was seen. *)
Record st := mkW { calls : list rcall; looks : list look }.

Variable body : P -> A -> prog.
Variable act : nat -> A -> prog.

(** markAsVerified: SequenceVerificationExpectation.hpp:100-104, for the calls at the given places. *)
Definition mark (l : list nat) (s : st) : st :=
  mkW (map (fun ir => if existsb (Nat.eqb (fst ir)) l then mkN (n_args (snd ir)) (n_by (snd ir)) true else snd ir)
           (combine (seq 0 (length (calls s))) (calls s))) (looks s).

(** The list of what was seen grows.  Models no lines of /repo. *)
Definition note (x : look) (s : st) : st := mkW (calls s) (looks s ++ [x]).

(** matches: invocation_matchers.hpp:127-131. *)
Definition matches (ask : st -> P -> A -> outcome (st * reply)) (s : st) (c : nat * P) (r : rcall) : outcome (st * reply) :=
  if n_by r =? fst c then Def (s, Yes) else ask s (snd c) (n_args r).

(** countMatches and findNextMatch for one condition: MatchAnalysis.hpp:29-92.  The calls are those collected at the beginning
    (22-27).  The places of the matches; None: an exception. *)
Fixpoint scan (ask : st -> P -> A -> outcome (st * reply)) (c : nat * P) (todo : list rcall) (i : nat) (s : st)
  : outcome (st * option (list nat)) :=
  match todo with
  | [] => Def (s, Some [])
  | r :: rest =>
      let! (s1, x) := matches ask s c r in
      match x with
      | Raise => Def (s1, None)
      | Yes => let! (s2, o) := scan ask c rest (S i) s1 in Def (s2, match o with Some l => Some (i :: l) | None => None end)
      | No => scan ask c rest (S i) s1
      end
  end.

(** Running the code of the user: VerifyExpectation, SequenceVerificationExpectation.hpp:67-86, and
    VerifyNoOtherInvocationsVerificationProgress.hpp:59-80. *)
Fixpoint exec (ask : st -> P -> A -> outcome (st * reply)) (s : st) (p : prog) : outcome (st * reply) :=
  match p with
  | Say x => Def (s, x)
  | Check c need k =>
      let! (s1, o) := scan ask c (calls s) 0 s in
      match o with
      | None => Def (s1, Raise)
      | Some l =>
          let b := need (length l) in
          exec ask (note (mkLook (length (calls s)) l b) (if b then mark l s1 else s1)) (k b)
      end
  | Others k =>
      let b := forallb n_seen (calls s) in
      exec ask (note (mkLook (length (calls s)) [] b) s) (k b)
  end.

(** matches of the arguments, invocation_matchers.hpp:138-140; [d] bounds how deep conditions may be asked inside conditions,
    beyond it is NoFuel. *)
Fixpoint ask (d : nat) (s : st) (p : P) (a : A) : outcome (st * reply) :=
  match d with
  | 0 => NoFuel
  | S d => exec (ask d) s (body p a)
  end.

(** How a call ends.  RecordedMethodBody.hpp:126-150. *)
Inductive ending := Returned (id : nat) | ActionThrew (id : nat) | Unexpected | ConditionThrew.

(** getInvocationHandlerForActualArgs: RecordedMethodBody.hpp:71-82, newest first.  Inl: the stubbing that answers. *)
Fixpoint find (d : nat) (newest_first : list (nat * P)) (a : A) (s : st) : outcome (st * (nat + ending)) :=
  match newest_first with
  | [] => Def (s, inr Unexpected)
  | (id, p) :: older =>
      let! (s1, x) := ask d s p a in
      match x with
      | Yes => Def (s1, inl id)
      | No => find d older a s1
      | Raise => Def (s1, inr ConditionThrew)
      end
  end.

(** handleMethodInvocation: RecordedMethodBody.hpp:126-150; the stubbings oldest first.  The call is recorded (138) before
    the action runs. *)
Definition call (d : nat) (stubs : list (nat * P)) (a : A) (s : st) : outcome (st * ending) :=
  let! (s1, r) := find d (rev stubs) a s in
  match r with
  | inl id =>
      let! (s2, x) := exec (ask d) (mkW (calls s1 ++ [mkN a id false]) (looks s1)) (act id a) in
      Def (s2, match x with Raise => ActionThrew id | _ => Returned id end)
  | inr e => Def (s1, e)
  end.

End Within.
Arguments prog : clear implicits. Arguments rcall : clear implicits. Arguments st : clear implicits.
Arguments Say {P}. Arguments Check {P}. Arguments Others {P}.
Arguments mkN {A}. Arguments n_args {A}. Arguments n_by {A}. Arguments n_seen {A}.
Arguments mkW {A}. Arguments calls {A}. Arguments looks {A}.
