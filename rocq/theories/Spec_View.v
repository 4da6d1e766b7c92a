(** Vocabulary for properties of programs: what the world looks like after a program
    has run, in terms of the abstract machine of Spec_World.v, and what user code that
    does not use the library does.  No function of the library is modelled here. *)
From Coq Require Import Bool ZArith Lia List Permutation.
From Verif Require Import Base CInt Values ArgMatchers InvMatchers Spec_Conditions ActionSeq Sequences MatchAnalysis
  Proxy Events Expectation ReturnSet Syntax World Spec_World WorldRel.
Import ListNotations.
Open Scope nat_scope.

Section V.
Variable E : env.

(** The program [os], run by the modelled code from the start of the process in the
    memory [m], has the results [rs] and ends in a world that the abstract machine
    describes as [s].  ([R]: WorldRel.v.  Every program for which the abstract machine
    has answers leads somewhere: [answered_leads] in SpecFacts.v.) *)
Definition leads (fuel : nat) (m : mem) (os : list op) (s : sworld) (rs : list (val + exn)) : Prop :=
  exists w, exec_all E fuel os (init_world E m) = RVal w rs /\ R E w s.

(** Iterating over an unordered_set visits each element once, in some order. *)
Definition iterates : Prop := forall l, Permutation (e_iter E l) l.

(** Method [e] of mock [m], if it was mentioned. *)
Definition method_at (s : sworld) (m e : nat) : option method :=
  match live (s_mocks s) m with Some k => live (sk_meths k) e | None => None end.

Definition put_method (s : sworld) (m e : nat) (me : method) : sworld :=
  match live (s_mocks s) m with
  | Some k => sset_mocks s (upd (s_mocks s) m
                (Some (mkSmock (sk_class k) (sk_obj k) (sk_owner k) (sk_fill k) (upd (sk_meths k) e (Some me)))))
  | None => s
  end.

(** A call of entry [slot] of object [o] goes to method [me], entry [e] of mock [m]. *)
Definition reaches (s : sworld) (o slot m e : nat) (me : method) : Prop :=
  exists x k d, live (s_objs s) o = Some x /\ so_mock x = Some m /\ live (s_mocks s) m = Some k /\
    nth_error (e_classes E) (sk_class k) = Some d /\ slot < cl_size d /\
    entry_method d slot = e /\ live (sk_meths k) e = Some me /\ me_bypass me = false.

(** Fewer than 2^32 - 1 calls were made so far. *)
Definition room (s : sworld) : Prop := (s_started s + 1 < 4294967296)%Z.

Definition accepts (s : sworld) (args : list val) (st : stub) : Prop :=
  satisfied (s_mem s) (st_cond st) args.
Definition rejects (s : sworld) (args : list val) (st : stub) : Prop :=
  unsatisfied (s_mem s) (st_cond st) args.

(** [st] is the newest stubbing of [me] that accepts the arguments. *)
Definition newest (s : sworld) (me : method) (args : list val) (newer : list stub) (st : stub) (older : list stub) : Prop :=
  me_stubs me = newer ++ st :: older /\ Forall (rejects s args) newer /\ accepts s args st.

(** ** Actions that do not use the library *)

(** A lambda run on the parameters [args]: the parameters afterwards and the answer. *)
Fixpoint plain (p : prog) (args : list val) : option (list val * (val + exn)) :=
  match p with
  | PRet v => Some (args, inl v)
  | PThrow e => Some (args, inr e)
  | PArg i k => match nth_error args i with Some v => plain (k v) args | None => None end
  | PSetArg i v k => if Nat.ltb i (length args) then plain k (upd args i v) else None
  | PThis _ => None
  | PDo _ _ => None
  end.

(** It reads its parameters only. *)
Inductive assigns_nothing : prog -> Prop :=
| AnRet : forall v, assigns_nothing (PRet v)
| AnThrow : forall e, assigns_nothing (PThrow e)
| AnArg : forall i k, (forall v, assigns_nothing (k v)) -> assigns_nothing (PArg i k).

(** The default value of a return type. *)
Definition default_of (r : rett) : option (val + exn) :=
  match r with
  | RtVoid => Some (inl VVoid)
  | RtVal v => Some (inl v)
  | RtRef a => Some (inl (VRef a))
  | RtNone => Some (inr XDefault)
  | RtRefNone => None
  end.

Definition plain_callable (mm : mem) (r : rett) (f : callable) (args : list val)
  : option (mem * list val * (val + exn)) :=
  match f with
  | FProg p => match plain p args with Some (args', x) => Some (mm, args', x) | None => None end
  | FDefault => match default_of r with Some x => Some (mm, args, x) | None => None end
  | FSet v vals =>
      match assigner_positional mm v vals args with Def (mm', x) => Some (mm', positional_leaves (e_moved E) args, inl x) | _ => None end
  | FSetNamed v vals =>
      match assigner_placeholders mm v vals args with Def (mm', x) => Some (mm', placeholders_leave (e_moved E) 1 vals args, inl x) | _ => None end
  | FOrig _ _ _ _ => None
  end.

(** The memory and the parameters after the action, and the answer. *)
Definition plain_action (mm : mem) (r : rett) (a : action callable) (args : list val)
  : option (mem * list val * (val + exn)) :=
  match a with
  | ARepeat f n => if (1 <=? n)%Z then plain_callable mm r f args else None
  | AForever f | ADelegate f => plain_callable mm r f args
  | ADefault => match default_of r with Some x => Some (mm, args, x) | None => None end
  | ANoMore => None
  end.

(** The function an action runs. *)
Definition runs (a : action callable) (f : callable) : Prop :=
  (exists n, a = ARepeat f n) \/ a = AForever f \/ a = ADelegate f.

(** An object of class type, passed by value. *)
Definition is_object (v : val) : bool :=
  match v with VStr _ | VOpaque _ => true | _ => false end.

(** What is left of an action that was played once. *)
Definition left_of (a : action callable) : list (action callable) :=
  match a with
  | ARepeat f n => if (n =? 1)%Z then [] else [ARepeat f (n - 1)]
  | _ => [a]
  end.

(** The stubbing after its next action was played. *)
Definition played (st : stub) : stub :=
  match st_todo st with
  | a :: rest =>
      mkStub (st_no st) (st_cond st) (left_of a ++ rest)
             (match left_of a with [] => S (st_used st) | _ => st_used st end) (st_busy st)
  | [] => st
  end.

(** [st'] is [st] after it was played some number of times (not while an action of it
    is running). *)
Fixpoint times_played (n : nat) (st : stub) : stub :=
  match n with O => st | S n' => played (times_played n' st) end.
Definition advanced (st st' : stub) : Prop :=
  exists n, st' = times_played n st /\ (st_busy st = true -> n = 0).

(** [me'] is [me] later: the same method with newer stubbings in front. *)
Definition grown (me me' : method) : Prop :=
  me_no me' = me_no me /\ me_id me' = me_id me /\ me_ret me' = me_ret me /\ me_bypass me' = me_bypass me /\
  exists new old, me_stubs me' = new ++ old /\ Forall2 advanced (me_stubs me) old /\
    Forall (fun st => st_busy st = false) new.

(** A call of [me] with the arguments [args] was made. *)
Definition recorded_call (s : sworld) (me : method) (args : list val) : sworld :=
  sset_started (sset_calls s (s_calls s ++ [mkCall (me_no me) (me_ret me) args false])) (s_started s + 1)%Z.

(** The method with other stubbings, and with one more call in its history. *)
Definition with_stubs (me : method) (l : list stub) : method :=
  mkMethod (me_no me) (me_id me) (me_ret me) l (me_calls me) (me_bypass me).
Definition with_call (me : method) (i : nat) : method :=
  mkMethod (me_no me) (me_id me) (me_ret me) (me_stubs me) (me_calls me ++ [i]) (me_bypass me).

(** The world after a call that was answered. *)
Definition after_answer (s : sworld) (m e : nat) (me : method) (stubs : list stub) (mm : mem) (args : list val) : sworld :=
  sset_mem (put_method (recorded_call s me args) m e (with_call (with_stubs me stubs) (length (s_calls s)))) mm.

(** The arguments and the verified-status of the recorded calls of a method. *)
Definition history (s : sworld) (me : method) : list (option (list val * bool)) :=
  map (fun i => match nth_error (s_calls s) i with Some c => Some (ca_args c, ca_verified c) | None => None end) (me_calls me).

(** The adapter in force. *)
Definition adapter (s : sworld) : nat := getTestingFrameworkAdapter (e_builtin E) (s_fctx s).

(** Event [ev] is delivered to the listeners in order and then to the adapter. *)
Definition notified (s : sworld) (ev : event) : sworld :=
  sset_log s (s_log s ++ map (fun l => (l, ev)) (fc_listeners (s_fctx s) ++ [adapter s])).
Definition listeners_quiet (s : sworld) (ev : event) : Prop :=
  forall l, In l (fc_listeners (s_fctx s)) -> e_react E l ev = None.
(** What the call site sees: what the adapter throws, or the library's exception. *)
Definition complaint (s : sworld) (ev : event) : exn :=
  match e_react E (adapter s) ev with Some x => x | None => XUnexpected ev end.

(** *** Series of calls and stubbing statements, none of whose actions uses the library *)

(** A call of entry [slot] of object [o] is answered by a plain action. *)
Definition answered (s : sworld) (o slot : nat) (args : list val) (m e : nat) (me : method) (st : stub)
  (s' : sworld) (r : val + exn) : Prop :=
  reaches s o slot m e me /\ room s /\
  exists newer older a rest mm args',
    newest s me args newer st older /\ st_busy st = false /\ st_todo st = a :: rest /\
    plain_action (s_mem s) (me_ret me) a args = Some (mm, args', r) /\ r <> inr XNoMore /\
    s' = after_answer s m e me (newer ++ played st :: older) mm args'.

(** The call finds a stubbing all of whose actions were played. *)
Definition exhausted (s : sworld) (o slot : nat) (args : list val) (m e : nat) (me : method) (st : stub) : Prop :=
  reaches s o slot m e me /\ room s /\ st_busy st = false /\ st_todo st = [] /\
  exists newer older, newest s me args newer st older.

(** The call finds no stubbing. *)
Definition unmatched (s : sworld) (o slot : nat) (args : list val) (m e : nat) (me : method) : Prop :=
  reaches s o slot m e me /\ room s /\ Forall (rejects s args) (me_stubs me).

(** The complaint about a call of [me]. *)
Definition unexpected_call (me : method) (args : list val) : event :=
  EvUnexpected Unmatched (Some (Z.of_nat (S (me_no me)))) args.

(** ** Stubbing statements *)

(** The number the calls of a target are told apart by. *)
Definition target_id (t : target) : Z :=
  match t with TMethod _ _ counter => method_id counter | TDtor _ => dtor_id end.

(** Target [t] designates method [e] of the living mock [m], of return type [r]. *)
Definition designates (s : sworld) (t : target) (m e : nat) (r : rett) : Prop :=
  exists k d, target_mock t = m /\ live (s_mocks s) m = Some k /\ nth_error (e_classes E) (sk_class k) = Some d /\
    e < length (sk_meths k) /\
    match t with
    | TMethod _ slot _ => slot = e /\ slot < cl_size d /\ is_dtor d slot = false /\ r = cl_ret d slot
    | TDtor _ => cl_dtor d = Some e /\ r = RtVoid
    end.

(** After [t] was mentioned, its method is [me] and the world is [s']: nothing changes
    if it was mentioned before; otherwise it is a new method without stubbings, provided
    that no other method of the mock goes by its number. *)
Definition mentioned (s : sworld) (t : target) (m e : nat) (me : method) (s' : sworld) : Prop :=
  exists r, designates s t m e r /\
  ((method_at s m e = Some me /\ s' = s) \/
   (method_at s m e = None /\
    (exists k, live (s_mocks s) m = Some k /\ id_free k (target_id t) = true) /\
    (Z.of_nat (s_bound s) + 1 < 4294967296)%Z /\
    me = mkMethod (s_bound s) (target_id t) r [] [] false /\
    s' = put_method (sset_bound s (S (s_bound s))) m e me)).

(** One more method expression came and went. *)
Definition one_expression (s : sworld) : sworld := sset_ctxs s (s_ctxs s ++ [None]).

(** The condition of a method expression: everything is accepted if none is given. *)
Definition cond_of (im : option imatcher) : imatcher := match im with Some i => i | None => IMDefault end.

(** The stubbing that a statement creates. *)
Definition new_stub (s : sworld) (im : option imatcher) (todo : list (action callable)) : stub :=
  mkStub (length (s_ctxs s)) (cond_of im) todo 0 false.

(** The method with one more, newest stubbing. *)
Definition stubbed (s : sworld) (m e : nat) (me : method) (st : stub) : sworld :=
  put_method s m e (with_stubs me (st :: me_stubs me)).

(** One call or one stubbing statement about method [e] of mock [m]: the world
    afterwards, the result, and whether the call found a stubbing (then: the arguments
    that are recorded). *)
Inductive plain_step (s : sworld) (m e : nat) : op -> sworld -> val + exn -> option (list val) -> Prop :=
| PsAnswered : forall o slot args me st newer older a rest mm args' r,
    reaches s o slot m e me -> room s -> newest s me args newer st older ->
    st_busy st = false -> st_todo st = a :: rest ->
    plain_action (s_mem s) (me_ret me) a args = Some (mm, args', r) -> r <> inr XNoMore ->
    plain_step s m e (OCall o slot args) (after_answer s m e me (newer ++ played st :: older) mm args') r (Some args')
| PsExhausted : forall o slot args me st,
    exhausted s o slot args m e me st -> listeners_quiet s (unexpected_call me args) ->
    plain_step s m e (OCall o slot args)
      (notified (put_method (recorded_call s me args) m e (with_call me (length (s_calls s)))) (unexpected_call me args))
      (inr (complaint s (unexpected_call me args))) (Some args)
| PsUnmatched : forall o slot args me,
    unmatched s o slot args m e me -> listeners_quiet s (unexpected_call me args) ->
    plain_step s m e (OCall o slot args) (notified (recorded_call s me args) (unexpected_call me args))
      (inr (complaint s (unexpected_call me args))) None
| PsWhen : forall t im rs me s1, mentioned s t m e me s1 -> s_uncaught s = 0 ->
    plain_step s m e (OStmt [(t, im)] (SWhen rs None))
      (one_expression (stubbed s1 m e me (new_stub s im (map action_of rs)))) (inl VVoid) None
| PsFake : forall t im me s1, mentioned s t m e me s1 ->
    plain_step s m e (OStmt [(t, im)] SFake)
      (one_expression (stubbed s1 m e me (new_stub s im [ADefault]))) (inl VVoid) None
| PsAssign : forall t im g me s1, mentioned s t m e me s1 ->
    plain_step s m e (OStmt [(t, im)] (SAssign g))
      (one_expression (stubbed s1 m e me (new_stub s im [AForever g]))) (inl VVoid) None.

(** A series of them; [found]: the calls that found a stubbing, with their methods. *)
Inductive series : sworld -> list op -> sworld -> list (val + exn) -> list (nat * nat * list val) -> Prop :=
| SerNil : forall s, series s [] s [] []
| SerCons : forall s m e o s1 r fd os s2 rs found,
    plain_step s m e o s1 r fd -> series s1 os s2 rs found ->
    series s (o :: os) s2 (r :: rs) (match fd with Some a => [(m, e, a)] | None => [] end ++ found).

(** The arguments of the entries about method [e] of mock [m]. *)
Definition about (m e : nat) (found : list (nat * nat * list val)) : list (list val) :=
  map snd (filter (fun x => Nat.eqb (fst (fst x)) m && Nat.eqb (snd (fst x)) e) found).

(** The recorded calls of method [e] of mock [m]: arguments and verified-status. *)
Definition history_at (s : sworld) (m e : nat) : list (option (list val * bool)) :=
  match method_at s m e with Some me => history s me | None => [] end.

(** While the original of the spied method [me] runs: the call is recorded (with its
    arguments, or what is left of them if they were moved from), and calls of the
    method are not intercepted. *)
Definition intercepting (me : method) (on : bool) : method :=
  mkMethod (me_no me) (me_id me) (me_ret me) (me_stubs me) (me_calls me) (negb on).
Definition running_original (s : sworld) (m e : nat) (me : method) (fw : bool) (args : list val) : sworld :=
  put_method (recorded_call s me (if fw then map (moved_from (e_moved E)) args else args)) m e
    (intercepting (with_call me (length (s_calls s))) false).

(** Object [o] of a user's class with description [dx] is wrapped by mock [m]; [slot] is
    one of its methods. *)
Definition wrapped (s : sworld) (o slot m : nat) (dx : class_desc) : Prop :=
  exists x k d, live (s_objs s) o = Some x /\ so_mock x = Some m /\ live (s_mocks s) m = Some k /\
    sk_owner k = false /\ sk_obj k = o /\ nth_error (e_classes E) (sk_class k) = Some d /\ slot < cl_size d /\
    is_dtor d slot = false /\ nth_error (e_classes E) (so_class x) = Some dx /\ slot < cl_size dx.

(** The targets [ts] are mentioned one after the other; [ms]: their methods. *)
Inductive mentioned_all : sworld -> list target -> list (nat * nat) -> sworld -> Prop :=
| MaNil : forall s, mentioned_all s [] [] s
| MaCons : forall s t ts m e me s1 ms s2, mentioned s t m e me s1 -> mentioned_all s1 ts ms s2 ->
    mentioned_all s (t :: ts) ((m, e) :: ms) s2.

(** The program goes on with the operations [ops] to the world [s']; there, object [o]
    still has method [me] of mock [m], maybe with newer stubbings, which all reject the
    arguments. *)
Definition still_decides (fuel : nat) (s : sworld) (m e : nat) (me : method) (ops : list op) (rs : list (val + exn))
  (s' : sworld) (o slot : nat) (args : list val) : Prop :=
  sexec_all E fuel ops s = SOk s' rs /\ room s' /\
  exists me' new old, reaches s' o slot m e me' /\ me_no me' = me_no me /\
    me_stubs me' = new ++ old /\ length old = length (me_stubs me) /\ Forall (rejects s' args) new.

(** A method of an object the library made about which nothing was said. *)
Definition unmocked (s : sworld) (o slot m : nat) : Prop :=
  exists x k d, live (s_objs s) o = Some x /\ so_mock x = Some m /\ live (s_mocks s) m = Some k /\ sk_owner k = true /\
    nth_error (e_classes E) (sk_class k) = Some d /\ slot < cl_size d /\ is_dtor d slot = false /\
    method_at s m slot = None.

(** The stubbings after a counted action of [st] was played, whatever it did itself: [st]
    was played once more than before, the others keep their places. *)
Definition moved_on (newer : list stub) (st : stub) (older : list stub) (l : list stub) : Prop :=
  exists new a b, l = new ++ a ++ played st :: b /\ Forall2 advanced newer a /\ Forall2 advanced older b /\
    Forall (fun x => st_busy x = false) new.

(** The method's newest stubbing does [a]. *)
Definition installed (s : sworld) (m e : nat) (im : imatcher) (a : action callable) : Prop :=
  exists me st older, method_at s m e = Some me /\ me_stubs me = st :: older /\
    st_cond st = im /\ st_todo st = [a] /\ st_busy st = false.

(** The action of a spied method; [obj]: the object of a mock. *)
Definition spy_action (obj : nat -> nat) (fw : bool) (p : nat * nat) : action callable :=
  ADelegate (FOrig (fst p) (obj (fst p)) (snd p) fw).
Definition is_method (t : target) : Prop := match t with TMethod _ _ _ => True | TDtor _ => False end.

End V.
