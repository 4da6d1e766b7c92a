(** What function objects with a memory are meant to do: every link of a stubbing has an object of its own, made when the statement
    is executed, or uses the test's object if std::ref was written.  Independent of the model: no memory, no copies. *)
From Coq Require Import ZArith List.
From Verif Require Import FnState.
Import ListNotations.
Open Scope Z_scope.

Section Spec.
Context {Ob A R : Type}.
Variable beh : Ob -> A -> Ob * R.

(** Who answers: an object of the link, or the object [x] of the test. *)
Inductive who : Type :=
| Mine (o : Ob)
| Yours (x : nat).

(** The test's objects and what is left of the newest stubbing ([None] for a count: without limit; no stubbing: []). *)
Record mind := mkMind { objs : list Ob; left_ : list (who * option Z) }.

Definition replace (l : list Ob) (x : nat) (o : Ob) : list Ob := firstn x l ++ o :: skipn (S x) l.

Definition who_of (os : list Ob) (g : given) : option who :=
  match g with
  | Copied x => option_map Mine (nth_error os x)
  | Referred x => Some (Yours x)
  end.

Definition count_of (l : link) : option Z :=
  match l with Once _ => Some 1 | Times _ q => Some q | Always _ | Assign _ => None end.

Definition plan_of (os : list Ob) (ls : list link) : list (who * option Z) :=
  flat_map (fun l => match who_of os (link_given l) with Some w => [(w, count_of l)] | None => [] end) ls.

Definition less (w : who) (n : option Z) (rest : list (who * option Z)) : list (who * option Z) :=
  match n with
  | None => (w, None) :: rest
  | Some n => if n =? 1 then rest else (w, Some (n - 1)) :: rest
  end.

Definition answer (m : mind) (x : A) : mind * shows R :=
  match left_ m with
  | [] => (m, Nothing)
  | (Mine o, n) :: rest => let (o', r) := beh o x in (mkMind (objs m) (less (Mine o') n rest), Yields r)
  | (Yours v, n) :: rest =>
      match nth_error (objs m) v with
      | Some o => let (o', r) := beh o x in (mkMind (replace (objs m) v o') (less (Yours v) n rest), Yields r)
      | None => (m, Nothing)
      end
  end.

Definition meant_step (m : mind) (e : event A) : mind * list (shows R) :=
  match e with
  | Stub ls => (mkMind (objs m) (plan_of (objs m) ls), [])
  | Call x => let (m', r) := answer m x in (m', [r])
  | Own v x =>
      match nth_error (objs m) v with
      | Some o => let (o', r) := beh o x in (mkMind (replace (objs m) v o') (left_ m), [Yields r])
      | None => (m, [])
      end
  | ResetMock => (mkMind (objs m) [], [])
  end.

Fixpoint meant_steps (m : mind) (es : list (event A)) : mind * list (shows R) :=
  match es with
  | [] => (m, [])
  | e :: es' => let (m1, l1) := meant_step m e in let (m2, l2) := meant_steps m1 es' in (m2, l1 ++ l2)
  end.

(** What a function object yields on a row of calls, and its state afterwards. *)
Fixpoint row (o : Ob) (xs : list A) : list R * Ob :=
  match xs with
  | [] => ([], o)
  | x :: xs' => let (o', r) := beh o x in let (rs, o2) := row o' xs' in (r :: rs, o2)
  end.

(** Two objects of one kind, each with its own state: [true] is a call of the first. *)
Fixpoint two_rows (o1 o2 : Ob) (ms : list (bool * A)) : list R :=
  match ms with
  | [] => []
  | (true, x) :: ms' => let (o', r) := beh o1 x in r :: two_rows o' o2 ms'
  | (false, x) :: ms' => let (o', r) := beh o2 x in r :: two_rows o1 o' ms'
  end.

(** Calls of the mocked method and of the test's object [v], in some order. *)
Definition mixture (v : nat) (ms : list (bool * A)) : list (event A) :=
  map (fun m : bool * A => if fst m then Call (snd m) else Own v (snd m)) ms.

(** Only objects of the test are used, and quantities are positive ints. *)
Definition names (g : given) : nat := match g with Copied x | Referred x => x end.
Definition fair_link (n : nat) (l : link) : Prop :=
  (names (link_given l) < n)%nat /\ match l with Times _ q => 1 <= q <= 2147483647 | _ => True end.
Definition fair (n : nat) (e : event A) : Prop :=
  match e with Stub ls => Forall (fair_link n) ls | Own v _ => (v < n)%nat | _ => True end.

(** The links written since the last Reset. *)
Fixpoint since (k : nat) (es : list (event A)) : nat :=
  match es with
  | [] => k
  | Stub ls :: es' => since (k + length ls) es'
  | ResetMock :: es' => since 0 es'
  | _ :: es' => since k es'
  end.

(** How often a function is copied for each way of giving it. *)
Definition made (l : link) : nat := match l with Once _ | Always _ => 3 | Times _ _ => 2 | Assign _ => 5 end.
Definition all_made (es : list (event A)) : nat :=
  list_sum (flat_map (fun e => match e with Stub ls => map made ls | _ => [] end) es).

(** The test's own calls of its object [x], and whether std::ref(x) is ever written. *)
Definition own_calls (x : nat) (es : list (event A)) : list A :=
  flat_map (fun e => match e with Own v a => if Nat.eqb v x then [a] else [] | _ => [] end) es.
Definition refers (x : nat) (e : event A) : Prop :=
  match e with Stub ls => Exists (fun l => link_given l = Referred x) ls | _ => False end.
End Spec.
Arguments who Ob : clear implicits.
Arguments mind Ob : clear implicits.
