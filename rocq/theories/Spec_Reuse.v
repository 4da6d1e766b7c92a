(** What a test means if nothing ever has the place of anything else: expressions are numbered in the order in which they are made, and
    a number is never used again.  No memory and no addresses. *)
From Coq Require Import Bool Arith List.
From Verif Require Import Reuse.
Import ListNotations.

Section Spec.
Context {A P : Type}.
Variable accepts : P -> nat -> A -> bool.

(** An expression in a variable is not yet used for a stubbing, or it is, or its mock was reset since. *)
Inductive fate : Type := Free | Given | Gone.

Record mind := mkMind { answering : list (nat * P); history : list (A * nat); named : list (nat * (nat * P * fate));
                        number : nat; questions : nat }.

(** Who answers, after how many questions. *)
Fixpoint who (ss : list (nat * P)) (n : nat) (a : A) : option nat * nat :=
  match ss with
  | [] => (None, n)
  | (i, p) :: ss' => if accepts p n a then (Some i, S n) else who ss' (S n) a
  end.

(** How many calls expression [i] with condition [p] matches: those it answered, without a question, and those it accepts. *)
Fixpoint tally (i : nat) (p : P) (n : nat) (cs : list (A * nat)) : nat * nat :=
  match cs with
  | [] => (0, n)
  | (a, j) :: cs' =>
      if j =? i then let (k, n') := tally i p n cs' in (S k, n')
      else let (k, n') := tally i p (S n) cs' in ((if accepts p n a then S k else k), n')
  end.

Definition entry (ns : list (nat * (nat * P * fate))) (v : nat) : option (nat * P * fate) :=
  option_map snd (find (fun e => fst e =? v) ns).
Fixpoint set_given (ns : list (nat * (nat * P * fate))) (v : nat) : list (nat * (nat * P * fate)) :=
  match ns with
  | [] => []
  | (w, (x, f)) :: ns' => if w =? v then (w, (x, Given)) :: ns' else (w, (x, f)) :: set_given ns' v
  end.
Fixpoint without (ns : list (nat * (nat * P * fate))) (v : nat) : list (nat * (nat * P * fate)) :=
  match ns with
  | [] => []
  | (w, e) :: ns' => if w =? v then ns' else (w, e) :: without ns' v
  end.
Definition after_reset (e : nat * (nat * P * fate)) : nat * (nat * P * fate) :=
  match e with (v, (x, Given)) => (v, (x, Gone)) | _ => e end.

(** One statement; [None]: against the rules (a variable that there is not; an expression used for two stubbings, C54; an
    expression verified whose stubbing was reset, C102). *)
Definition meant (m : mind) (e : event A P) : option (mind * list sight) :=
  match e with
  | Stub p => Some (mkMind ((number m, p) :: answering m) (history m) (named m) (S (number m)) (questions m), [])
  | Call a =>
      match who (answering m) (questions m) a with
      | (Some i, n) => Some (mkMind (answering m) (history m ++ [(a, i)]) (named m) (number m) n, [AnsweredBy i])
      | (None, n) => Some (mkMind (answering m) (history m) (named m) (number m) n, [Unexpected])
      end
  | Check p =>
      let (k, n) := tally (number m) p (questions m) (history m) in
      Some (mkMind (answering m) (history m) (named m) (S (number m)) n, [Matched k])
  | Keep v p => Some (mkMind (answering m) (history m) ((v, (number m, p, Free)) :: named m) (S (number m)) (questions m), [])
  | StubKept v =>
      match entry (named m) v with
      | Some (i, p, Free) => Some (mkMind ((i, p) :: answering m) (history m) (set_given (named m) v) (number m) (questions m), [])
      | _ => None
      end
  | CheckKept v =>
      match entry (named m) v with
      | Some (i, p, Free) | Some (i, p, Given) =>
          let (k, n) := tally i p (questions m) (history m) in
          Some (mkMind (answering m) (history m) (named m) (number m) n, [Matched k])
      | _ => None
      end
  | Drop v =>
      match entry (named m) v with
      | Some _ => Some (mkMind (answering m) (history m) (without (named m) v) (number m) (questions m), [])
      | None => None
      end
  | Clear => Some (mkMind (answering m) [] (named m) (number m) (questions m), [])
  | Renew => Some (mkMind [] [] (map after_reset (named m)) (number m) (questions m), [])
  end.

Fixpoint all_meant (m : mind) (es : list (event A P)) : option (mind * list sight) :=
  match es with
  | [] => Some (m, [])
  | e :: es' =>
      match meant m e with
      | None => None
      | Some (m1, l1) => match all_meant m1 es' with None => None | Some (m2, l2) => Some (m2, l1 ++ l2) end
      end
  end.

Definition nothing : mind := mkMind [] [] [] 0 0.

(** A memory manager: what it hands out is not in use. *)
Definition honest (place : nat -> list nat -> nat) : Prop := forall n l, ~ In (place n l) l.
End Spec.
Arguments mind A P : clear implicits.
