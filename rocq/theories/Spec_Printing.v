(** Reports about arguments that are printed by code of the user: what is said about them. *)
From Coq Require Import Ascii String ZArith List Arith Bool Sorted.
From Verif Require Import Base Sequences Format Printing.
Import ListNotations.
Open Scope list_scope.
Open Scope nat_scope.

Section Spec.
Context {V X : Type}.
Variable digits : nat -> Z -> string.
Variable answers : nat -> list V -> reply X.
(** What operator<< of a value does. *)
Variable say : V -> list (pract V X).

(** It does not clear the history, and calls methods only that answer. *)
Definition calm (a : pract V X) : Prop :=
  match a with
  | PrClear => False
  | PrCall m args _ => exists r, answers m args = r /\ match r with Returns _ | Raises _ => True | _ => False end
  | _ => True
  end.
Definition keeps (a : pract V X) : Prop := match a with PrClear => False | _ => True end.

(** What a value shows in a stream of its own, if nothing is thrown. *)
Fixpoint shown (flags : nat) (good : bool) (acts : list (pract V X)) : string :=
  (match acts with
   | [] => ""
   | a :: r =>
       let put t := if good then t else "" in
       match a with
       | PrText t => put t ++ shown flags good r
       | PrNumber z => put (digits flags z) ++ shown flags good r
       | PrFlags f => shown f good r
       | PrFail => shown flags false r
       | PrCall m args _ => put (match answers m args with Returns t => t | _ => "" end) ++ shown flags good r
       | PrClear | PrThrow _ => shown flags good r
       end
   end)%string.
Definition looks (v : V) : string := shown 0 true (say v).

(** What it throws, if anything, and the calls it makes. *)
Fixpoint throws (acts : list (pract V X)) : option X :=
  match acts with
  | [] => None
  | PrThrow x :: _ => Some x
  | PrCall m args false :: r => match answers m args with Raises x => Some x | _ => throws r end
  | _ :: r => throws r
  end.
Fixpoint made (acts : list (pract V X)) : list (nat * list V) :=
  match acts with
  | [] => []
  | PrThrow x :: _ => []
  | PrCall m args false :: r => (m, args) :: match answers m args with Raises x => [] | _ => made r end
  | PrCall m args true :: r => (m, args) :: made r
  | _ :: r => made r
  end.

(** The values that are printed when [vs] are to be, up to the first that throws, and what it throws. *)
Fixpoint until (vs : list V) : list V * option X :=
  match vs with
  | [] => ([], None)
  | v :: r => match throws (say v) with Some x => ([v], Some x) | None => (v :: fst (until r), snd (until r)) end
  end.

(** Calls with the ordinals from [n] on. *)
Fixpoint numbered (n : nat) (l : list (nat * list V)) : list (pcall V) :=
  match l with [] => [] | (m, a) :: r => mkPcall n m a false :: numbered (S n) r end.

(** The state after [vs] were printed: the calls made by them are recorded. *)
Definition after (vs : list V) (s : pstate V) : pstate V :=
  let l := flat_map (fun v => made (say v)) vs in
  mkPs (ps_calls s ++ numbered (ps_next s) l) (ps_cleared s) (ps_next s + length l) (ps_printed s ++ vs)
       (ps_heard s) (ps_failures s).

(** The values in a report, in the order of reading. *)
Fixpoint given {A} (l : list (option A)) : list A :=
  match l with [] => [] | Some v :: r => v :: given r | None :: r => given r end.
Definition operands (e : pexpr V) : list V := match ex_terms e with None => [] | Some l => given l end.
Fixpoint in_sequence (q : sequence (pexpr V)) : list V :=
  match q with
  | SLeaf e => operands e
  | SConcat l r => in_sequence l ++ in_sequence r
  | SRepeat q' _ => in_sequence q'
  end.
Definition in_pattern (p : list (sequence (pexpr V))) : list V := flat_map in_sequence p.
Definition in_list (l : list (pcall V)) : list V := flat_map pc_args (firstn 50 l).

(** The texts. *)
Variable name : nat -> string.
Definition call_text (m : nat) (args : list V) : string := (name m ++ "(" ++ join ", " (map looks args) ++ ")")%string.
Definition expr_text (e : pexpr V) : string :=
  (name (ex_method e) ++
   match ex_terms e with
   | None => "( Any arguments )"
   | Some l => "(" ++ join ", " (map (fun o => match o with None => "Any" | Some v => looks v end) l) ++ ")"
   end)%string.
Definition list_text (l : list (pcall V)) : list string := map (fun c => call_text (pc_method c) (pc_args c)) l.
End Spec.

(** How the history may change while something is printed: new calls, in the order of their ordinals, behind the
    old ones. *)
Definition grows {V} (s s' : pstate V) : Prop :=
  exists more, ps_calls s' = ps_calls s ++ more /\ ps_cleared s' = ps_cleared s /\ ps_next s <= ps_next s' /\
    Forall (fun c => ps_next s <= pc_ord c < ps_next s' /\ pc_verified c = false) more /\
    StronglySorted lt (map pc_ord more).

(** The same, with verifications that hold on the way: they mark calls. *)
Definition extends {V} (s s' : pstate V) : Prop :=
  exists old more, ps_calls s' = old ++ more /\ ps_cleared s' = ps_cleared s /\ ps_next s <= ps_next s' /\
    Forall2 (fun c d => pc_ord d = pc_ord c /\ pc_method d = pc_method c /\ pc_args d = pc_args c /\
                        (pc_verified c = true -> pc_verified d = true)) (ps_calls s) old /\
    Forall (fun c => ps_next s <= pc_ord c < ps_next s') more /\
    StronglySorted lt (map pc_ord more).
