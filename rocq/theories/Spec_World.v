(** What programs that use the library are meant to do: an abstract machine without
    virtual tables, heaps of matchers and action sequences, ordinals or proxies.

    A mock is a list of methods; a method is a list of stubbings, newest first, and
    the list of its calls; a stubbing is a condition and a list of actions still to
    be played.  The machine gives no answer ([SUnspec]) where nothing is promised.
    That covers everything that is undefined in C++ terms (dead objects, indices out
    of range, ...) and the following uses, which properties.jsonl and the refuted
    theorems list as traps:
    - a counted action with a quantity below 1;
    - a call that is answered by a counted action which is still running;
    - an action that ends with NoMoreRecordedActionException;
    - Reset or destruction of a mock while one of its counted actions or spied
      originals runs;
    - a method expression used again after it was used for a stubbing;
    - two methods of one mock that were given the same __COUNTER__ value; the
      destructor of a mock after Reset;
    - two mocks on one object;
    - classes with more than 1000 entries; 2^32 calls or more. *)
From Coq Require Import Bool ZArith Lia List.
From Verif Require Import Base CInt Values ArgMatchers InvMatchers ActionSeq Sequences MatchAnalysis
  Proxy Events Expectation ReturnSet Syntax World.
Import ListNotations.
Open Scope nat_scope.

(** ** State *)

(** A stubbing.  [st_no]: serial number of the method expression it came from;
    [st_todo]: the actions still to be played, the one that is running (if counted)
    still at the head, with its remaining count; [st_used]: how many actions are
    finished; [st_busy]: a counted action is running. *)
Record stub : Type := mkStub {
  st_no : nat;
  st_cond : imatcher;
  st_todo : list (action callable);
  st_used : nat;
  st_busy : bool
}.

(** A method of a mock that was mentioned in some method expression.  [me_no]: serial
    number; [me_id]: the number its calls are told apart by; [me_calls]: the history;
    [me_bypass]: a spied original is running. *)
Record method : Type := mkMethod {
  me_no : nat;
  me_id : Z;
  me_ret : rett;
  me_stubs : list stub;
  me_calls : list nat;
  me_bypass : bool
}.

(** [sk_fill]: the number that entries without stubbing show. *)
Record smock : Type := mkSmock {
  sk_class : nat;
  sk_obj : nat;
  sk_owner : bool;
  sk_fill : Z;
  sk_meths : list (option method)
}.

Record sobj : Type := mkSobj { so_class : nat; so_data : list val; so_mock : option nat }.

Record call : Type := mkCall {
  ca_method : nat;
  ca_ret : rett;
  ca_args : list val;
  ca_verified : bool
}.

(** A live method expression. *)
Record sctx : Type := mkSctx {
  sx_target : target;
  sx_cond : imatcher;
  sx_todo : list (action callable);
  sx_committed : bool
}.

Record sworld : Type := mkSworld {
  s_objs : list (option sobj);
  s_mocks : list (option smock);
  s_bound : nat;                    (* how many methods were bound so far *)
  s_ctxs : list (option sctx);
  s_exps : list (option expo);
  s_calls : list call;              (* in the order of their start *)
  s_started : Z;                    (* how many calls were started *)
  s_mem : mem;
  s_fctx : fctx nat;
  s_log : list (nat * event);
  s_uncaught : nat
}.

Definition sset_objs (s : sworld) x : sworld :=
  mkSworld x (s_mocks s) (s_bound s) (s_ctxs s) (s_exps s) (s_calls s) (s_started s) (s_mem s) (s_fctx s) (s_log s) (s_uncaught s).
Definition sset_mocks (s : sworld) x : sworld :=
  mkSworld (s_objs s) x (s_bound s) (s_ctxs s) (s_exps s) (s_calls s) (s_started s) (s_mem s) (s_fctx s) (s_log s) (s_uncaught s).
Definition sset_bound (s : sworld) x : sworld :=
  mkSworld (s_objs s) (s_mocks s) x (s_ctxs s) (s_exps s) (s_calls s) (s_started s) (s_mem s) (s_fctx s) (s_log s) (s_uncaught s).
Definition sset_ctxs (s : sworld) x : sworld :=
  mkSworld (s_objs s) (s_mocks s) (s_bound s) x (s_exps s) (s_calls s) (s_started s) (s_mem s) (s_fctx s) (s_log s) (s_uncaught s).
Definition sset_exps (s : sworld) x : sworld :=
  mkSworld (s_objs s) (s_mocks s) (s_bound s) (s_ctxs s) x (s_calls s) (s_started s) (s_mem s) (s_fctx s) (s_log s) (s_uncaught s).
Definition sset_calls (s : sworld) x : sworld :=
  mkSworld (s_objs s) (s_mocks s) (s_bound s) (s_ctxs s) (s_exps s) x (s_started s) (s_mem s) (s_fctx s) (s_log s) (s_uncaught s).
Definition sset_started (s : sworld) x : sworld :=
  mkSworld (s_objs s) (s_mocks s) (s_bound s) (s_ctxs s) (s_exps s) (s_calls s) x (s_mem s) (s_fctx s) (s_log s) (s_uncaught s).
Definition sset_mem (s : sworld) x : sworld :=
  mkSworld (s_objs s) (s_mocks s) (s_bound s) (s_ctxs s) (s_exps s) (s_calls s) (s_started s) x (s_fctx s) (s_log s) (s_uncaught s).
Definition sset_fctx (s : sworld) x : sworld :=
  mkSworld (s_objs s) (s_mocks s) (s_bound s) (s_ctxs s) (s_exps s) (s_calls s) (s_started s) (s_mem s) x (s_log s) (s_uncaught s).
Definition sset_log (s : sworld) x : sworld :=
  mkSworld (s_objs s) (s_mocks s) (s_bound s) (s_ctxs s) (s_exps s) (s_calls s) (s_started s) (s_mem s) (s_fctx s) x (s_uncaught s).
Definition sset_uncaught (s : sworld) x : sworld :=
  mkSworld (s_objs s) (s_mocks s) (s_bound s) (s_ctxs s) (s_exps s) (s_calls s) (s_started s) (s_mem s) (s_fctx s) (s_log s) x.

Definition sinit (m : mem) : sworld := mkSworld [] [] 0 [] [] [] 0 m fctx_new [] 0.

(** ** Computations *)
Inductive sres (A : Type) : Type :=
| SOk (s : sworld) (a : A)
| SExn (s : sworld) (e : exn)
| SUnspec.
Arguments SOk {A}.
Arguments SExn {A}.
Arguments SUnspec {A}.

Definition SM (A : Type) : Type := sworld -> sres A.

Definition sret {A} (a : A) : SM A := fun s => SOk s a.
Definition sthrow {A} (e : exn) : SM A := fun s => SExn s e.
Definition unspec {A} : SM A := fun _ => SUnspec.
Definition sbind {A B} (m : SM A) (k : A -> SM B) : SM B := fun s =>
  match m s with
  | SOk s' a => k a s'
  | SExn s' e => SExn s' e
  | SUnspec => SUnspec
  end.
Definition sattempt {A} (m : SM A) : SM (A + exn) := fun s =>
  match m s with
  | SOk s' a => SOk s' (inl a)
  | SExn s' e => SOk s' (inr e)
  | SUnspec => SUnspec
  end.
Definition srethrow {A} (r : A + exn) : SM A :=
  match r with inl a => sret a | inr e => sthrow e end.
Definition sgets {A} (f : sworld -> A) : SM A := fun s => SOk s (f s).
Definition smodify (f : sworld -> sworld) : SM unit := fun s => SOk (f s) tt.
Definition slift {A} (o : outcome A) : SM A := fun s =>
  match o with Def a => SOk s a | _ => SUnspec end.
Definition sopt {A} (o : option A) : SM A :=
  match o with Some a => sret a | None => unspec end.

Notation "'let?' x ':=' m 'in' k" := (sbind m (fun x => k))
  (at level 200, x pattern, m at level 100, k at level 200).

Definition sguarded {A} (m : SM A) (f : SM unit) : SM A :=
  let? r := sattempt m in
  let? _ := f in
  srethrow r.

(** The object number [i] of a list, if it is alive. *)
Definition live {A} (h : list (option A)) (i : nat) : option A :=
  match nth_error h i with Some x => x | None => None end.

Definition sget {A} (f : sworld -> list (option A)) (i : nat) : SM A :=
  let? h := sgets f in sopt (live h i).

Section Env.
Variable E : env.

Definition sclass (c : nat) : SM class_desc := sopt (nth_error (e_classes E) c).

Definition sput_mock (m : nat) (k : smock) : SM unit :=
  smodify (fun s => sset_mocks s (upd (s_mocks s) m (Some k))).
Definition sput_obj (o : nat) (x : sobj) : SM unit :=
  smodify (fun s => sset_objs s (upd (s_objs s) o (Some x))).
Definition sput_ctx (c : nat) (x : sctx) : SM unit :=
  smodify (fun s => sset_ctxs s (upd (s_ctxs s) c (Some x))).
Definition sput_exp (x : nat) (e : expo) : SM unit :=
  smodify (fun s => sset_exps s (upd (s_exps s) x (Some e))).
Definition snew_exp (e : expo) : SM nat :=
  let? h := sgets s_exps in
  let? _ := smodify (fun s => sset_exps s (s_exps s ++ [Some e])) in
  sret (length h).
Definition sfree_exp (x : nat) : SM unit :=
  let? _ := sget s_exps x in
  smodify (fun s => sset_exps s (upd (s_exps s) x None)).

Definition sget_call (i : nat) : SM call := let? l := sgets s_calls in sopt (nth_error l i).
Definition sput_args (i : nat) (c : call) (args : list val) : SM unit :=
  smodify (fun s => sset_calls s (upd (s_calls s) i (mkCall (ca_method c) (ca_ret c) args (ca_verified c)))).

(** Delivery of an event. *)
Definition sreport (e : event) : SM unit :=
  let? c := sgets s_fctx in
  let (done, x) := ctx_handle (e_react E) (e_builtin E) c e in
  let? _ := smodify (fun s => sset_log s (s_log s ++ map (fun l => (l, e)) done)) in
  match x with Some x' => sthrow x' | None => sret tt end.

(** The start of a call. *)
Definition sstart : SM unit :=
  let? n := sgets s_started in
  if (n + 1 <? 4294967296)%Z then smodify (fun s => sset_started s (n + 1)%Z) else unspec.

(** ** Mocks *)

Definition sfresh_data (d : class_desc) : list val := repeat (VInt 0) (cl_cells d).

(** The two entries of a destructor are one method. *)
Definition entry_method (d : class_desc) (slot : nat) : nat :=
  match cl_dtor d with Some k => if Nat.eqb slot (S k) then k else slot | None => slot end.
Definition is_dtor (d : class_desc) (slot : nat) : bool :=
  match cl_dtor d with Some k => Nat.eqb slot k || Nat.eqb slot (S k) | None => false end.

Definition class_fits (d : class_desc) : bool :=
  Nat.leb (cl_size d) 1000 &&
  match cl_dtor d with Some k => Nat.ltb (S k) (cl_size d) | None => true end.

Definition smock_new (c : nat) : SM nat :=
  let? d := sclass c in
  if class_fits d then
    let? os := sgets s_objs in
    let? ms := sgets s_mocks in
    let? _ := smodify (fun s => sset_objs s (s_objs s ++ [Some (mkSobj c (sfresh_data d) (Some (length ms)))])) in
    let? _ := smodify (fun s => sset_mocks s (s_mocks s ++ [Some (mkSmock c (length os) true int_max (repeat None (cl_size d)))])) in
    sret (length ms)
  else unspec.

(** The object may be of a derived class. *)
Definition smock_spy (c o : nat) : SM nat :=
  let? d := sclass c in
  let? x := sget s_objs o in
  let? dx := sclass (so_class x) in
  match so_mock x with
  | Some _ => unspec
  | None =>
      if class_fits d && Nat.leb (cl_size d) (cl_size dx) then
        let? ms := sgets s_mocks in
        let? _ := sput_obj o (mkSobj (so_class x) (so_data x) (Some (length ms))) in
        let? _ := smodify (fun s => sset_mocks s (s_mocks s ++ [Some (mkSmock c o false int_max (repeat None (cl_size d)))])) in
        sret (length ms)
      else unspec
  end.

(** No counted action and no spied original of the mock is running. *)
Definition quiet_method (x : option method) : bool :=
  match x with
  | Some me => negb (me_bypass me) && forallb (fun st => negb (st_busy st)) (me_stubs me)
  | None => true
  end.
Definition quiet (k : smock) : bool := forallb quiet_method (sk_meths k).

(** Data members of an object the library made are set to zero. *)
Definition szero (k : smock) : SM unit :=
  if sk_owner k then
    let? x := sget s_objs (sk_obj k) in
    sput_obj (sk_obj k) (mkSobj (so_class x) (map (fun _ => VInt 0) (so_data x)) (so_mock x))
  else sret tt.

Definition smock_reset (m : nat) : SM unit :=
  let? k := sget s_mocks m in
  if quiet k then
    let? _ := sput_mock m (mkSmock (sk_class k) (sk_obj k) (sk_owner k) 0 (map (fun _ => None) (sk_meths k))) in
    szero k
  else unspec.

Definition forget_calls (x : option method) : option method :=
  match x with
  | Some me => Some (mkMethod (me_no me) (me_id me) (me_ret me) (me_stubs me) [] (me_bypass me))
  | None => None
  end.

Definition smock_clear (m : nat) : SM unit :=
  let? k := sget s_mocks m in
  let? _ := sput_mock m (mkSmock (sk_class k) (sk_obj k) (sk_owner k) (sk_fill k) (map forget_calls (sk_meths k))) in
  szero k.

Definition smock_destroy (m : nat) : SM unit :=
  let? k := sget s_mocks m in
  let? x := sget s_objs (sk_obj k) in
  if quiet k then
    let? _ := smodify (fun s => sset_mocks s (upd (s_mocks s) m None)) in
    if sk_owner k then smodify (fun s => sset_objs s (upd (s_objs s) (sk_obj k) None))
    else sput_obj (sk_obj k) (mkSobj (so_class x) (so_data x) None)
  else unspec.

(** ** Method expressions *)

(** The method a target designates: mock, entry, number. *)
Definition starget (t : target) : SM (nat * nat * Z * rett) :=
  let? k := sget s_mocks (target_mock t) in
  let? d := sclass (sk_class k) in
  match t with
  | TMethod m slot counter =>
      if Nat.ltb slot (cl_size d) && negb (is_dtor d slot) then sret (m, slot, method_id counter, cl_ret d slot)
      else unspec
  | TDtor m =>
      match cl_dtor d with
      | Some slot => sret (m, slot, dtor_id, RtVoid)
      | None => sthrow XNoDtor
      end
  end.

(** No other method of the mock goes by this number. *)
Definition id_free (k : smock) (id : Z) : bool :=
  negb (Z.eqb id (sk_fill k)) &&
  forallb (fun x => match x with Some me => negb (Z.eqb id (me_id me)) | None => true end) (sk_meths k).

Definition sset_method (m slot : nat) (x : method) : SM unit :=
  let? k := sget s_mocks m in
  sput_mock m (mkSmock (sk_class k) (sk_obj k) (sk_owner k) (sk_fill k) (upd (sk_meths k) slot (Some x))).

(** Mentioning a method makes it a mocked one. *)
Definition smention (t : target) : SM (nat * nat) :=
  let? (m, slot, id, r) := starget t in
  let? k := sget s_mocks m in
  let? x := sopt (nth_error (sk_meths k) slot) in
  match x with
  | Some _ => sret (m, slot)
  | None =>
      let? n := sgets s_bound in
      if id_free k id && (Z.of_nat n + 1 <? 4294967296)%Z then
        let? _ := smodify (fun s => sset_bound s (S (s_bound s))) in
        let? _ := sset_method m slot (mkMethod n id r [] [] false) in
        sret (m, slot)
      else unspec
  end.

Definition sctx_free (c : nat) : SM unit :=
  let? _ := sget s_ctxs c in
  smodify (fun s => sset_ctxs s (upd (s_ctxs s) c None)).

Definition sctx_new (t : target) : SM nat :=
  let? _ := sget s_mocks (target_mock t) in
  let? h := sgets s_ctxs in
  let? _ := smodify (fun s => sset_ctxs s (s_ctxs s ++ [Some (mkSctx t IMDefault [] false)])) in
  let? r := sattempt (smention t) in
  match r with
  | inl _ => sret (length h)
  | inr e => let? _ := sctx_free (length h) in sthrow e
  end.

(** A method expression not yet used for a stubbing. *)
Definition sctx_unused (c : nat) : SM sctx :=
  let? x := sget s_ctxs c in
  if sx_committed x then unspec else sret x.

Definition sctx_cond (c : nat) (im : imatcher) : SM unit :=
  let? x := sctx_unused c in
  sput_ctx c (mkSctx (sx_target x) im (sx_todo x) false).

Definition sctx_append (c : nat) (a : action callable) : SM unit :=
  let? x := sctx_unused c in
  sput_ctx c (mkSctx (sx_target x) (sx_cond x) (sx_todo x ++ [a]) false).

(** The method of a mentioned entry. *)
Definition smethod (m slot : nat) : SM method :=
  let? k := sget s_mocks m in sopt (live (sk_meths k) slot).

(** The stubbing comes into force, before all others of the method. *)
Definition sctx_commit (c : nat) : SM unit :=
  let? x := sctx_unused c in
  let? (m, slot) := smention (sx_target x) in
  let? me := smethod m slot in
  let st := mkStub c (sx_cond x) (sx_todo x) 0 false in
  let? _ := sset_method m slot (mkMethod (me_no me) (me_id me) (me_ret me) (st :: me_stubs me) (me_calls me) (me_bypass me)) in
  sput_ctx c (mkSctx (sx_target x) (sx_cond x) (sx_todo x) true).

Fixpoint sappend_all (c : nat) (rs : list (recorded callable)) : SM unit :=
  match rs with
  | [] => sret tt
  | r :: rest => let? _ := sctx_append c (action_of r) in sappend_all c rest
  end.

Definition sdo_when (c : nat) (rs : list (recorded callable)) (interrupt : option (nat * exn)) : SM unit :=
  match interrupt with
  | Some (n, e) => let? _ := sappend_all c (firstn n rs) in sthrow e
  | None =>
      let? _ := sappend_all c rs in
      let? u := sgets s_uncaught in
      if Nat.eqb u 0 then sctx_commit c else sret tt
  end.

Definition sdo_fake (c : nat) : SM unit :=
  let? _ := sctx_append c ADefault in sctx_commit c.

Definition sdo_spy (c : nat) (forward : bool) : SM unit :=
  let? x := sctx_unused c in
  let? f := match sx_target x with
            | TMethod m slot _ => let? k := sget s_mocks m in sret (FOrig m (sk_obj k) slot forward)
            | TDtor _ => sret (FProg (PRet VVoid))
            end in
  let? _ := sctx_append c (ADelegate f) in
  sctx_commit c.

Definition sdo_assign (c : nat) (f : callable) : SM unit :=
  let? _ := sctx_append c (AForever f) in sctx_commit c.

(** ** Calls *)

Definition sdefault (r : rett) : SM val :=
  match r with
  | RtVoid => sret VVoid
  | RtVal v => sret v
  | RtRef a => sret (VRef a)
  | RtNone => sthrow XDefault
  | RtRefNone => unspec
  end.

Section Open.
Variable rec : op -> SM val.

(** User code.  [FrInv i]: an action answering call [i]. *)
Fixpoint srun_prog (fr : frame) (p : prog) : SM val :=
  match p with
  | PRet v => sret v
  | PThrow e => sthrow e
  | PArg i k =>
      match fr with
      | FrInv n =>
          let? x := sget_call n in
          match nth_error (ca_args x) i with Some v => srun_prog fr (k v) | None => unspec end
      | FrStack _ args =>
          match nth_error args i with Some v => srun_prog fr (k v) | None => unspec end
      end
  | PSetArg i v k =>
      match fr with
      | FrInv n =>
          let? x := sget_call n in
          if Nat.ltb i (length (ca_args x)) then
            let? _ := sput_args n x (upd (ca_args x) i v) in
            srun_prog fr k
          else unspec
      | FrStack this args =>
          if Nat.ltb i (length args) then srun_prog (FrStack this (upd args i v)) k else unspec
      end
  | PThis k => match fr with FrStack this _ => srun_prog fr (k this) | FrInv _ => unspec end
  | PDo o k =>
      let? r := sattempt (rec o) in
      srun_prog fr (k (match r with inl v => OVal v | inr e => OExn e end))
  end.

(** While the original of a spied method runs, calls of the method on the object go
    to the original. *)
Definition sset_bypass (m slot no : nat) (id : Z) (from : bool) : SM unit :=
  let? me := smethod m slot in
  if Nat.eqb (me_no me) no && Z.eqb (me_id me) id && Bool.eqb (me_bypass me) from then
    sset_method m slot (mkMethod (me_no me) (me_id me) (me_ret me) (me_stubs me) (me_calls me) (negb from))
  else unspec.

Definition srun_callable (f : callable) (i : nat) : SM val :=
  match f with
  | FProg p => srun_prog (FrInv i) p
  | FDefault => let? x := sget_call i in sdefault (ca_ret x)
  | FSet r vals =>
      let? x := sget_call i in
      let? _ := sput_args i x (positional_leaves (e_moved E) (ca_args x)) in
      let? mem := sgets s_mem in
      let? (mem', v) := slift (assigner_positional mem r vals (ca_args x)) in
      let? _ := smodify (fun s => sset_mem s mem') in
      sret v
  | FSetNamed r vals =>
      let? x := sget_call i in
      let? _ := sput_args i x (placeholders_leave (e_moved E) 1 vals (ca_args x)) in
      let? mem := sgets s_mem in
      let? (mem', v) := slift (assigner_placeholders mem r vals (ca_args x)) in
      let? _ := smodify (fun s => sset_mem s mem') in
      sret v
  | FOrig m o slot forward =>
      let? k := sget s_mocks m in
      let? d := sclass (sk_class k) in
      if is_dtor d slot then unspec
      else
        let? me := smethod m slot in
        let? _ := sset_bypass m slot (me_no me) (me_id me) false in
        sguarded
          (let? x := sget_call i in
           let? _ := if forward then sput_args i x (map (moved_from (e_moved E)) (ca_args x)) else sret tt in
           rec (OCall o slot (ca_args x)))
          (sset_bypass m slot (me_no me) (me_id me) true)
  end.

(** The newest stubbing whose condition accepts the arguments. *)
Fixpoint sfind (l : list stub) (args : list val) : SM (option stub) :=
  match l with
  | [] => sret None
  | st :: rest =>
      let? mem := sgets s_mem in
      let? b := slift (im_matches_args mem (st_cond st) args) in
      if b then sret (Some st) else sfind rest args
  end.

Definition sunexpected (t : unexpected_type) (m : option Z) (args : list val) : SM val :=
  let? _ := sreport (EvUnexpected t m args) in
  sthrow (XUnexpected (EvUnexpected t m args)).

Fixpoint replace_stub (l : list stub) (n : nat) (f : stub -> option stub) : option (list stub) :=
  match l with
  | [] => None
  | st :: rest =>
      if Nat.eqb (st_no st) n then match f st with Some st' => Some (st' :: rest) | None => None end
      else match replace_stub rest n f with Some rest' => Some (st :: rest') | None => None end
  end.

Definition schange_stub (m slot n : nat) (f : stub -> option stub) : SM unit :=
  let? me := smethod m slot in
  let? l := sopt (replace_stub (me_stubs me) n f) in
  sset_method m slot (mkMethod (me_no me) (me_id me) (me_ret me) l (me_calls me) (me_bypass me)).

(** A counted action begins: its count goes down. *)
Definition begin_action (st : stub) : option stub :=
  match st_todo st with
  | ARepeat f n :: rest => Some (mkStub (st_no st) (st_cond st) (ARepeat f (n - 1) :: rest) (st_used st) true)
  | _ => None
  end.

(** It ends: it is removed if its count is used up. *)
Definition end_action (used : nat) (st : stub) : option stub :=
  if st_busy st && Nat.eqb (st_used st) used then
    match st_todo st with
    | ARepeat f n :: rest =>
        if Z.eqb n 0 then Some (mkStub (st_no st) (st_cond st) rest (S (st_used st)) false)
        else Some (mkStub (st_no st) (st_cond st) (ARepeat f n :: rest) (st_used st) false)
    | _ => None
    end
  else None.

(** Playing the next action of stubbing [st] for call [i]. *)
Definition splay (m slot : nat) (st : stub) (i : nat) : SM val :=
  match st_todo st with
  | ARepeat f n :: _ =>
      if st_busy st || (n <? 1)%Z then unspec
      else
        let? _ := schange_stub m slot (st_no st) begin_action in
        sguarded (srun_callable f i) (schange_stub m slot (st_no st) (end_action (st_used st)))
  | AForever f :: _ => srun_callable f i
  | ADelegate f :: _ => srun_callable f i
  | ADefault :: _ => let? x := sget_call i in sdefault (ca_ret x)
  | _ => unspec
  end.

(** A call of a mocked method. *)
Definition sstubbed (m slot : nat) (args : list val) : SM val :=
  let? me := smethod m slot in
  let? _ := sstart in
  let? calls := sgets s_calls in
  let i := length calls in
  let? _ := smodify (fun s => sset_calls s (s_calls s ++ [mkCall (me_no me) (me_ret me) args false])) in
  let name := Some (Z.of_nat (S (me_no me))) in
  let? st := sfind (me_stubs me) args in
  match st with
  | None => sunexpected Unmatched name args
  | Some st =>
      let? _ := sset_method m slot
                  (mkMethod (me_no me) (me_id me) (me_ret me) (me_stubs me) (me_calls me ++ [i]) (me_bypass me)) in
      match st_todo st with
      | [] => if st_busy st then unspec else sunexpected Unmatched name args
      | _ =>
          let? r := sattempt (splay m slot st i) in
          match r with
          | inr XNoMore => unspec
          | _ => srethrow r
          end
      end
  end.

(** The body the class of the object has for the entry. *)
Definition sbody (c o slot : nat) (args : list val) : SM val :=
  let? d := sclass c in
  if Nat.ltb slot (cl_size d) then srun_prog (FrStack o args) (cl_body d slot) else unspec.

(** What a method does before anything is said about it. *)
Definition sinitial (k : smock) (d : class_desc) (x : sobj) (o slot : nat) (args : list val) : SM val :=
  if sk_owner k then
    if is_dtor d slot then sret VVoid
    else let? _ := sstart in sunexpected Unmocked None []
  else sbody (so_class x) o slot args.

Definition scall (o slot : nat) (args : list val) : SM val :=
  let? x := sget s_objs o in
  match so_mock x with
  | None => sbody (so_class x) o slot args
  | Some m =>
      let? k := sget s_mocks m in
      let? d := sclass (sk_class k) in
      if Nat.ltb slot (cl_size d) then
        match live (sk_meths k) (entry_method d slot) with
        | Some me =>
            if me_bypass me then sinitial k d x o slot args
            else sstubbed m (entry_method d slot) args
        | None => sinitial k d x o slot args
        end
      else unspec
  end.

(** ** Verification *)

Definition scond_accepts (s : sworld) (im : imatcher) (i : nat) : outcome bool :=
  match nth_error (s_calls s) i with
  | Some c => im_matches_args (s_mem s) im (ca_args c)
  | None => UB
  end.

(** The method an unused expression is about. *)
Definition smethod_of (s : sworld) (t : target) : outcome method :=
  match live (s_mocks s) (target_mock t) with
  | Some k =>
      let slot := match t with
                  | TMethod _ slot _ => Some slot
                  | TDtor _ => match nth_error (e_classes E) (sk_class k) with Some d => cl_dtor d | None => None end
                  end in
      match slot with
      | Some slot => of_option (live (sk_meths k) slot)
      | None => UB
      end
  | None => UB
  end.

Definition sunused (s : sworld) (c : nat) : outcome sctx :=
  match live (s_ctxs s) c with
  | Some x => if sx_committed x then UB else Def x
  | None => UB
  end.

(** Expression [c] accepts call [i]. *)
Definition sctx_matches (s : sworld) (c i : nat) : outcome bool :=
  let! x := sunused s c in
  let! me := smethod_of s (sx_target x) in
  let! v := of_option (nth_error (s_calls s) i) in
  if Nat.eqb (ca_method v) (me_no me) then scond_accepts s (sx_cond x) i else Def false.

Definition sverified (s : sworld) (i : nat) : bool :=
  match nth_error (s_calls s) i with Some c => ca_verified c | None => false end.

Fixpoint sfilter (f : nat -> outcome bool) (l : list nat) : outcome (list nat) :=
  match l with
  | [] => Def []
  | i :: rest =>
      let! b := f i in
      let! l' := sfilter f rest in
      Def (if b then i :: l' else l')
  end.

(** The calls a source stands for, as a set. *)
Fixpoint ssource (s : sworld) (x : source) : outcome (list nat) :=
  match x with
  | SMock m =>
      match live (s_mocks s) m with
      | Some k => Def (flat_map (fun y => match y with Some me => me_calls me | None => [] end) (sk_meths k))
      | None => UB
      end
  | SCtx c =>
      let! x := sunused s c in
      let! me := smethod_of s (sx_target x) in
      sfilter (scond_accepts s (sx_cond x)) (me_calls me)
  | SUnverified l =>
      let! l' := (fix all (l : list source) : outcome (list nat) :=
                    match l with
                    | [] => Def []
                    | y :: r => let! a := ssource s y in let! b := all r in Def (a ++ b)
                    end) l in
      Def (filter (fun i => negb (sverified s i)) l')
  end.

Fixpoint ssources (s : sworld) (l : list source) : outcome (list nat) :=
  match l with
  | [] => Def []
  | y :: r => let! a := ssource s y in let! b := ssources s r in Def (a ++ b)
  end.

(** The members of a set of calls in the order of the calls. *)
Definition in_call_order (s : sworld) (l : list nat) : list nat :=
  filter (fun i => existsb (Nat.eqb i) l) (seq 0 (length (s_calls s))).

Definition sscope (s : sworld) (unv : bool) (l : list source) : outcome (list nat) :=
  let! all := ssources s l in
  Def (in_call_order s (if unv then filter (fun i => negb (sverified s i)) all else all)).

Fixpoint sunused_all (s : sworld) (cs : list nat) : outcome unit :=
  match cs with
  | [] => Def tt
  | c :: r =>
      let! x := sunused s c in
      let! _ := smethod_of s (sx_target x) in
      sunused_all s r
  end.

Definition sanalyse (s : sworld) (unv : bool) (l : list source) (pattern : list (sequence nat))
  : outcome (list nat * Z * list nat) :=
  let! actual := sscope s unv l in
  let! _ := sunused_all s (pattern_ctxs pattern) in
  let! (count, matched) := countMatches (sctx_matches s) pattern actual in
  Def (actual, count, matched).

Fixpoint smark_all (is : list nat) : SM unit :=
  match is with
  | [] => sret tt
  | i :: rest =>
      let? c := sget_call i in
      let? _ := smodify (fun s => sset_calls s (upd (s_calls s) i (mkCall (ca_method c) (ca_ret c) (ca_args c) true))) in
      smark_all rest
  end.

Definition sreport_to (quiet : bool) (e : event) : SM unit :=
  if quiet then sthrow XFalse else sreport e.

Definition sverify (x : nat) (quiet : bool) : SM unit :=
  let? e := sget s_exps x in
  match e with
  | ESeq unv l pattern ex =>
      if ex_done ex then sret tt
      else
        let ex' := mkExp (ex_count ex) (ex_any ex) true in
        let? _ := sput_exp x (ESeq unv l pattern ex') in
        let? s := sgets (fun s => s) in
        let? (actual, count, matched) := slift (sanalyse s unv l pattern) in
        let? v := slift (decide ex' count) in
        match v with
        | VOk => smark_all matched
        | VFail t expected n => sreport_to quiet (EvSequence t pattern actual expected n)
        end
  | ENoOther l done =>
      if done then sret tt
      else
        let? _ := sput_exp x (ENoOther l true) in
        let? s := sgets (fun s => s) in
        let? all := slift (ssources s l) in
        let actual := in_call_order s all in
        match filter (fun i => negb (sverified s i)) actual with
        | [] => sret tt
        | nonv => sreport_to quiet (EvNoMore actual nonv)
        end
  end.

Definition sexp_bool (x : nat) : SM val :=
  let? r := sattempt (sverify x true) in
  match r with
  | inl _ => sret (VBool true)
  | inr XFalse => sret (VBool false)
  | inr e => sthrow e
  end.

Definition sexp_free (x : nat) : SM unit :=
  let? u := sgets s_uncaught in
  sguarded (if Nat.eqb u 0 then sverify x false else sret tt) (sfree_exp x).

Definition sexp_quant (x : nat) (q : quant) : SM unit :=
  let? e := sget s_exps x in
  match e with
  | ESeq unv l pattern ex =>
      let? r := slift (set_quant ex q) in
      match r with
      | Some ex' => sput_exp x (ESeq unv l pattern ex')
      | None => sthrow XInvalid
      end
  | ENoOther _ _ => unspec
  end.

(** The mocks of the expressions of a pattern. *)
Fixpoint sinvolved (cs : list nat) : SM (list source) :=
  match cs with
  | [] => sret []
  | c :: r =>
      let? x := sget s_ctxs c in
      let? l := sinvolved r in
      sret (SMock (target_mock (sx_target x)) :: l)
  end.

Definition sexp_new (sc : scope) (pattern : list (sequence nat)) : SM nat :=
  if forallb seq_valid pattern then
    match sc with
    | ScInvolved => let? l := sinvolved (pattern_ctxs pattern) in snew_exp (ESeq false l pattern Expectation.exp_new)
    | ScUnverified => let? l := sinvolved (pattern_ctxs pattern) in snew_exp (ESeq true l pattern Expectation.exp_new)
    | ScUsing l => snew_exp (ESeq false l pattern Expectation.exp_new)
    end
  else sthrow XInvalid.

(** ** Statements *)
Definition sctx_of (t : target) (im : option imatcher) : SM nat :=
  let? c := sctx_new t in
  match im with
  | Some im' => let? _ := sctx_cond c im' in sret c
  | None => sret c
  end.

Fixpoint sfree_ctxs (cs : list nat) : SM unit :=
  match cs with
  | [] => sret tt
  | c :: r => let? _ := sctx_free c in sfree_ctxs r
  end.

Fixpoint swith_ctxs (ts : list (target * option imatcher)) (done : list nat)
         (body : list nat -> SM val) : SM val :=
  match ts with
  | [] => sguarded (body (rev done)) (sfree_ctxs done)
  | (t, im) :: r =>
      let? x := sattempt (sctx_of t im) in
      match x with
      | inl c => swith_ctxs r (c :: done) body
      | inr e => let? _ := sfree_ctxs done in sthrow e
      end
  end.

Fixpoint srun_steps (x : nat) (steps : list vstep) (last : val) : SM val :=
  match steps with
  | [] => sret last
  | VsQuant q :: r => let? _ := sexp_quant x q in srun_steps x r last
  | VsBool :: r => let? b := sexp_bool x in srun_steps x r b
  end.

Definition sverify_stmt (mk : SM nat) (steps : list vstep) : SM val :=
  let? x := mk in
  let? r := sattempt (srun_steps x steps VVoid) in
  match r with
  | inl v => let? _ := sexp_free x in sret v
  | inr e => let? _ := sfree_exp x in sthrow e
  end.

Fixpoint seach (f : nat -> SM unit) (cs : list nat) : SM unit :=
  match cs with
  | [] => sret tt
  | c :: r => let? _ := f c in seach f r
  end.

Definition srun_stmt (st : stmt) (cs : list nat) : SM val :=
  match st with
  | SWhen rs interrupt =>
      match cs with [c] => let? _ := sdo_when c rs interrupt in sret VVoid | _ => unspec end
  | SFake => let? _ := seach sdo_fake cs in sret VVoid
  | SSpy forward => let? _ := seach (fun c => sdo_spy c forward) cs in sret VVoid
  | SAssign f =>
      match cs with [c] => let? _ := sdo_assign c f in sret VVoid | _ => unspec end
  | SVerify sc pattern steps =>
      match place_scope cs sc, place_all (place_seq cs) pattern with
      | Some sc', Some pattern' => sverify_stmt (sexp_new sc' pattern') steps
      | _, _ => unspec
      end
  | SNoOther l steps =>
      match place_all (place_source cs) l with
      | Some l' => sverify_stmt (snew_exp (ENoOther l' false)) steps
      | None => unspec
      end
  end.

(** ** Operations *)
Definition sunit {A} (m : SM A) : SM val := let? _ := m in sret VVoid.
Definition snat (m : SM nat) : SM val := let? n := m in sret (id_val n).

Definition sstep (o : op) : SM val :=
  match o with
  | OCall o slot args => scall o slot args
  | ONewObj c =>
      let? d := sclass c in
      let? h := sgets s_objs in
      let? _ := smodify (fun s => sset_objs s (s_objs s ++ [Some (mkSobj c (sfresh_data d) None)])) in
      sret (id_val (length h))
  | OFreeObj o =>
      let? x := sget s_objs o in
      match so_mock x with
      | None => sunit (smodify (fun s => sset_objs s (upd (s_objs s) o None)))
      | Some _ => unspec
      end
  (* the dynamic type: of a wrapped object, the class of the mock *)
  | OTypeid o =>
      let? x := sget s_objs o in
      match so_mock x with
      | None => sret (id_val (so_class x))
      | Some m => let? k := sget s_mocks m in sret (id_val (sk_class k))
      end
  | OGetMember o i => let? x := sget s_objs o in sopt (nth_error (so_data x) i)
  | OSetMember o i v =>
      let? x := sget s_objs o in
      if Nat.ltb i (length (so_data x)) then
        sunit (sput_obj o (mkSobj (so_class x) (upd (so_data x) i v) (so_mock x)))
      else unspec
  | ORead a => let? m := sgets s_mem in slift (load m a)
  | OWrite a v =>
      let? m := sgets s_mem in
      let? m' := slift (store m a v) in
      sunit (smodify (fun s => sset_mem s m'))
  | OAlloc v =>
      let? m := sgets s_mem in
      let? _ := smodify (fun s => sset_mem s (s_mem s ++ [Some v])) in
      sret (id_val (length m))
  | OFreeMem a =>
      let? m := sgets s_mem in
      let? _ := slift (load m a) in
      sunit (smodify (fun s => sset_mem s (upd (s_mem s) a None)))
  | OMock c => snat (smock_new c)
  | OSpyMock c o => snat (smock_spy c o)
  | OGet m => let? k := sget s_mocks m in sret (id_val (sk_obj k))
  | OMockDestroy m => sunit (smock_destroy m)
  | OReset m => sunit (smock_reset m)
  | OClear m => sunit (smock_clear m)
  | OCtx t => snat (sctx_new t)
  | OCond c im => sunit (sctx_cond c im)
  | OCtxFree c => sunit (sctx_free c)
  | OWhen c rs interrupt => sunit (sdo_when c rs interrupt)
  | OFake c => sunit (sdo_fake c)
  | OSpy c forward => sunit (sdo_spy c forward)
  | OAssign c f => sunit (sdo_assign c f)
  | OExp sc pattern => snat (sexp_new sc pattern)
  | ONoOther l => snat (snew_exp (ENoOther l false))
  | OQuant x q => sunit (sexp_quant x q)
  | OBool x => sexp_bool x
  | OExpFree x => sunit (sexp_free x)
  | OStmt ts st => swith_ctxs ts [] (srun_stmt st)
  | OListener l => sunit (smodify (fun s => sset_fctx s (addEventHandler (s_fctx s) l)))
  | OClearListeners => sunit (smodify (fun s => sset_fctx s (clearEventHandlers (s_fctx s))))
  | OAdapter (Some l) => sunit (smodify (fun s => sset_fctx s (setTestingFrameworkAdapter (s_fctx s) l)))
  | OAdapter None => sunit (smodify (fun s => sset_fctx s (resetTestingFrameworkAdapter (s_fctx s))))
  | OUnwinding o' =>
      let? _ := smodify (fun s => sset_uncaught s (S (s_uncaught s))) in
      let? _ := sattempt (rec o') in
      sunit (smodify (fun s => sset_uncaught s (pred (s_uncaught s))))
  end.

End Open.

Fixpoint sexec (fuel : nat) (o : op) : SM val :=
  match fuel with
  | O => unspec
  | S f => sstep (sexec f) o
  end.

Fixpoint sexec_all (fuel : nat) (os : list op) : SM (list (val + exn)) :=
  match os with
  | [] => sret []
  | o :: r =>
      let? x := sattempt (sexec fuel o) in
      let? xs := sexec_all fuel r in
      sret (x :: xs)
  end.

End Env.
