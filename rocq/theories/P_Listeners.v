(** Property C80: listeners and adapters may use the library. *)
From Coq Require Import List Arith Lia.
From Verif Require Import Base Events Spec_Events EventsProofs Listeners Spec_Listeners ListenersProofs.
Import ListNotations.
Open Scope nat_scope.

(** Three listeners, 1 to 3, and the adapter 9; nothing was notified yet. *)
Definition ex_listeners : lstate nat nat := mkLs (mkFctx [1; 2; 3] None) 0 [].

(** C80: if listeners and adapter raise further events (say, by unexpected calls) without going in
    circles, and listeners handle what is thrown at them, delivery ends, and every listener and then
    the adapter hears of the event exactly once, in order; the events raised inside are heard of in
    between. *)
Theorem C80_nested : forall (E L X : Type) (reaction : list (L * E) -> L -> E -> list (act E L X)) (builtin : L)
    (rank : E -> nat) (s : lstate E L) (e : E) (fuel : nat),
  let ls := fc_listeners (ls_ctx s) in
  let a := getTestingFrameworkAdapter builtin (ls_ctx s) in
  (forall log l e, In l ls -> Forall (calls_down rank e) (reaction log l e)) ->
  (forall log e, Forall (calls_down_or_throws rank e) (reaction log a e)) ->
  rank e < fuel ->
  exists s' x more, deliver reaction builtin fuel s e = Def (s', x) /\ ls_ctx s' = ls_ctx s /\ ls_log s' = ls_log s ++ more /\
    of_rank rank e more = map (fun l => (l, e)) (ls ++ [a]) /\ Forall (fun p => rank (snd p) <= rank e) more.
Proof. intros E L X. exact listeners_raise. Qed.
(** Events are numbers; listener 2 raises the next lower one; the adapter throws. *)
Definition ex_raises (log : list (nat * nat)) (l e : nat) : list (act nat nat nat) :=
  match l, e with
  | 2, S e' => [AEvent e' true]
  | 9, _ => [AThrow e]
  | _, _ => []
  end.
Example C80_nested_case :
  (forall log l e, In l [1; 2; 3] -> Forall (calls_down (fun n => n) e) (ex_raises log l e)) /\
  (forall log e, Forall (calls_down_or_throws (fun n => n) e) (ex_raises log 9 e)) /\
  deliver ex_raises 9 2 ex_listeners 1 =
    Def (mkLs (mkFctx [1; 2; 3] None) 0 [(1, 1); (2, 1); (1, 0); (2, 0); (3, 0); (9, 0); (3, 1); (9, 1)], Some 1).
Proof.
  split; [|split; [|reflexivity]].
  - intros log l e [<-|[<-|[<-|[]]]]; cbn; auto. destruct e; constructor; auto. exists e. auto.
  - intros log e. constructor; [right; now exists e|constructor].
Qed.

(** C80: a listener may install or remove an adapter, which counts from this event on; an adapter
    may do anything, registering listeners included, which counts from the next event on. *)
Theorem C80_configure : forall (E L X : Type) (reaction : list (L * E) -> L -> E -> list (act E L X)) (builtin : L)
    (ops : L -> list (fc_op L)) (throws : option X) (e : E) (s : lstate E L) (fuel : nat),
  let ls := fc_listeners (ls_ctx s) in
  let c := fc_run (ls_ctx s) (concat (map ops ls)) in
  let a := getTestingFrameworkAdapter builtin c in
  (forall l log, In l ls -> reaction log l e = map AConf (ops l)) ->
  (forall l, In l ls -> ~ Exists changes_listeners (ops l)) ->
  (forall log, reaction log a e = map AConf (ops a) ++ match throws with Some x => [AThrow x] | None => [] end) ->
  exists n, deliver reaction builtin (S fuel) s e =
    Def (mkLs (fc_run c (ops a)) n (ls_log s ++ map (fun l => (l, e)) (ls ++ [a])), throws).
Proof. intros E L X. exact listeners_configure. Qed.
(** Listener 1 removes the adapter, listener 2 installs 8, which registers 4. *)
Definition ex_ops (l : nat) : list (fc_op nat) :=
  match l with 1 => [FResetAdapter] | 2 => [FSetAdapter 8] | 8 => [FAdd 4] | _ => [] end.
Example C80_configure_case :
  (forall l, In l [1; 2; 3] -> ~ Exists changes_listeners (ex_ops l)) /\
  deliver (X := nat) (fun _ l (_ : nat) => map AConf (ex_ops l)) 9 1 ex_listeners 5 =
    Def (mkLs (mkFctx [1; 2; 3; 4] (Some 8)) 1 [(1, 5); (2, 5); (3, 5); (8, 5)], None).
Proof.
  split; [|reflexivity].
  intros l [<-|[<-|[<-|[]]]]; cbn; intro H; repeat (inversion H; subst; clear H; rename H1 into H; try tauto).
Qed.

(** C80: an exception of a listener ends the delivery; later listeners and the adapter do not hear
    of the event.  Such a listener may register and clear listeners, which counts from the next event
    on. *)
Theorem C80_throws : forall (E L X : Type) (reaction : list (L * E) -> L -> E -> list (act E L X)) (builtin : L)
    (ops : L -> list (fc_op L)) (e : E) (s : lstate E L) (fuel : nat) (pre : list L) (l : L) (post : list L) (x : X),
  fc_listeners (ls_ctx s) = pre ++ l :: post ->
  (forall k log, In k pre -> reaction log k e = map AConf (ops k)) ->
  (forall k, In k pre -> ~ Exists changes_listeners (ops k)) ->
  (forall log, reaction log l e = map AConf (ops l) ++ [AThrow x]) ->
  exists n, deliver reaction builtin (S fuel) s e =
    Def (mkLs (fc_run (ls_ctx s) (concat (map ops (pre ++ [l])))) n (ls_log s ++ map (fun l => (l, e)) (pre ++ [l])), Some x).
Proof. intros E L X. exact listener_throws. Qed.
Example C80_throws_case :
  deliver (fun _ l (_ : nat) => if Nat.eqb l 2 then [AConf (FAdd 4); AThrow 77] else []) 9 1 ex_listeners 5 =
    Def (mkLs (mkFctx [1; 2; 3; 4] None) 1 [(1, 5); (2, 5)], Some 77).
Proof. reflexivity. Qed.

(** C80: so does the exception of an event that a listener raises without a try block (say, of an
    unexpected call it makes). *)
Theorem C80_uncaught : forall (E L X : Type) (reaction : list (L * E) -> L -> E -> list (act E L X)) (builtin : L)
    (e e' : E) (s s' : lstate E L) (fuel : nat) (pre : list L) (l : L) (post : list L) (rest : list (act E L X)) (x : X),
  fc_listeners (ls_ctx s) = pre ++ l :: post ->
  (forall k log, In k pre -> reaction log k e = []) ->
  (forall log, reaction log l e = AEvent e' false :: rest) ->
  deliver reaction builtin fuel (mkLs (ls_ctx s) (ls_changes s) (ls_log s ++ map (fun k => (k, e)) (pre ++ [l]))) e' = Def (s', Some x) ->
  deliver reaction builtin (S fuel) s e = Def (s', Some x).
Proof. intros E L X. exact listener_uncaught. Qed.
(** Listener 2 raises 0 when it hears of 5; the adapter throws. *)
Definition ex_lets (log : list (nat * nat)) (l e : nat) : list (act nat nat nat) :=
  match l, e with
  | 2, 5 => [AEvent 0 false; AThrow 1]
  | 9, _ => [AThrow 77]
  | _, _ => []
  end.
Example C80_uncaught_case :
  deliver ex_lets 9 1 (mkLs (mkFctx [1; 2; 3] None) 0 [(1, 5); (2, 5)]) 0 =
    Def (mkLs (mkFctx [1; 2; 3] None) 0 [(1, 5); (2, 5); (1, 0); (2, 0); (3, 0); (9, 0)], Some 77) /\
  deliver ex_lets 9 2 ex_listeners 5 =
    Def (mkLs (mkFctx [1; 2; 3] None) 0 [(1, 5); (2, 5); (1, 0); (2, 0); (3, 0); (9, 0)], Some 77).
Proof. split; reflexivity. Qed.

(** C80 fails for a listener that registers or clears listeners: the delivery that notifies it is
    undefined. *)
Theorem C80_register_refuted : forall (E L X : Type) (reaction : list (L * E) -> L -> E -> list (act E L X)) (builtin : L)
    (ops : L -> list (fc_op L)) (e : E) (s : lstate E L) (fuel : nat),
  (forall l log, In l (fc_listeners (ls_ctx s)) -> reaction log l e = map AConf (ops l)) ->
  (exists l, In l (fc_listeners (ls_ctx s)) /\ Exists changes_listeners (ops l)) ->
  deliver reaction builtin (S fuel) s e = UB.
Proof. intros E L X. exact listeners_registered. Qed.
(** Listener 3, the last one, removes all listeners after the first event it hears of. *)
Example C80_register_case :
  Exists changes_listeners ([FClear] : list (fc_op nat)) /\
  deliver (X := nat) (fun _ l (_ : nat) => map AConf (if Nat.eqb l 3 then [FClear] else [])) 9 1 ex_listeners 5 = UB /\
  deliver (X := nat) (fun _ l (_ : nat) => map AConf (if Nat.eqb l 9 then [FClear] else [])) 9 1 ex_listeners 5 =
    Def (mkLs (mkFctx [] None) 1 [(1, 5); (2, 5); (3, 5); (9, 5)], None).
Proof. split; [constructor; exact Logic.I|]. split; reflexivity. Qed.

(** C80 fails for a listener that, whatever it heard of before, does something that raises the
    event again: delivery never ends. *)
Theorem C80_circle_refuted : forall (E L X : Type) (reaction : list (L * E) -> L -> E -> list (act E L X)) (builtin : L)
    (e : E) (l : L) (caught : bool) (rest : list (act E L X)) (fuel : nat) (s : lstate E L) (post : list L),
  (forall log, reaction log l e = AEvent e caught :: rest) -> fc_listeners (ls_ctx s) = l :: post ->
  deliver reaction builtin fuel s e = NoFuel.
Proof. intros E L X. exact listener_forever. Qed.
Example C80_circle_case : deliver (X := nat) (fun _ l e => if Nat.eqb l 1 then [AEvent e true] else []) 9 100 ex_listeners 5 = NoFuel.
Proof. reflexivity. Qed.

Definition P_Listeners_theorems := (C80_nested, C80_configure, C80_throws, C80_uncaught, C80_register_refuted, C80_circle_refuted).
Print Assumptions P_Listeners_theorems.
