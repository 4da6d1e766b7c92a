(** * What an expression means in Method(mock, f)(...), Using, Matching, = and Return

    Method(mock, f)(x) takes arguments or a predicate, Method(mock, f) = x a function or a value, Return(x) a value or a
    value with a number of times: MethodMockingContext.hpp:280-338, StubbingProgress.hpp:50-84.  Which of them is meant is
    decided by overload resolution.  The model has the candidates as they are declared, how the expression converts to the
    parameter of each, and the choice between them, as the C++ standard has it (trusted): standard conversions are better
    than user-defined ones, user-defined ones by different functions are equally good, and among equally good ones a
    function is better than a template.

    Simplified: types are told apart only by how the expressions below convert to them; classes can be compared with what
    converts to them, except as said; classes are not callable themselves; results are copyable and no references; matchers
    (Any, Gt, ...) are left out (C37, C76); whether an argument is otherwise fit is a matter of C96 and C105. *)
From Coq Require Import Bool Arith Lia List.
From Verif Require Import Base.
Import ListNotations.

(** How good an implicit conversion is; the language, for MethodMockingContext.hpp:311-332. *)
Inductive conv := Exact | Standard | User.
(** The order of conversions; the language, for MethodMockingContext.hpp:311-332. *)
Definition rank (c : conv) : nat := match c with Exact => 0 | Standard => 1 | User => 2 end.

(** What converts to a class implicitly: nullptr, an int, an empty list, any function object (std::any, or a std::function
    of a fitting type); and whether == compares it with nullptr.  Code of the user, for MethodMockingContext.hpp:311. *)
Record class := mkClass { c_null : bool; c_int : bool; c_braces : bool; c_any : bool; c_eq_null : bool }.

(** Types of parameters and results: bool, other numbers, pointers to objects, classes; for MethodMockingContext.hpp:311, 326. *)
Inductive ty := TBool | TNumber | TPointer | TClass (c : class).

(** A parameter T, T const & ([p_ref] is false) or T & (true): const arglist & is T const &, T const &, T &, for
    MethodMockingContext.hpp:311. *)
Record param := mkParam { p_type : ty; p_ref : bool }.

(** Expressions as a test writes them; code of the user, for MethodMockingContext.hpp:301-332. *)
Inductive expr :=
| EOwn (lvalue : bool)                 (* of the type of the parameter or result *)
| EOther (standard : option bool)      (* anything else that is a value: converts by a standard conversion, a user-defined one, not *)
| ENull                                (* nullptr *)
| EZero                                (* the literal 0 *)
| EBraces                              (* {} *)
| EFunction                            (* a variable std::function of the type that the library asks for *)
| ELambda (fits captures : bool).      (* a lambda, not generic; [fits]: it can be called with the arguments of the method *)

(** To a parameter of a type, const & if not a reference: the language, for MethodMockingContext.hpp:311, 326. *)
Definition to_type (t : ty) (e : expr) : option conv :=
  match e with
  | EOwn _ => Some Exact
  | EOther (Some true) => Some Standard
  | EOther (Some false) => Some User
  | EOther None => None
  | ENull => match t with TPointer => Some Standard | TClass c => if c_null c || c_any c then Some User else None | _ => None end
  | EZero => match t with
             | TNumber => Some Exact | TBool | TPointer => Some Standard
             | TClass c => if c_null c || c_int c || c_any c then Some User else None
             end
  | EBraces => match t with TClass c => if c_braces c then Some User else None | _ => Some Exact end
  | EFunction => match t with TClass c => if c_any c then Some User else None | _ => None end
  | ELambda _ captures =>
      match t with
      | TBool => if captures then None else Some User   (* to a pointer to function, which is not null *)
      | TClass c => if c_any c then Some User else None
      | _ => None
      end
  end.

(** To const arglist & of one parameter: MethodMockingContext.hpp:311. *)
Definition to_param (p : param) (e : expr) : option conv :=
  if p_ref p then match e with EOwn true => Some Exact | _ => None end else to_type (p_type p) e.

(** To std::function<bool(arglist &...)> or std::function<R(arglist &...)>: MethodMockingContext.hpp:306, 316, 321. *)
Definition to_function (e : expr) : option conv :=
  match e with
  | ENull | EZero | EBraces => Some User
  | EFunction => Some Exact
  | ELambda fits _ => if fits then Some User else None
  | _ => None
  end.

(** To MockingContext, which has a constructor from a pointer: MethodMockingContext.hpp:285. *)
Definition to_context (e : expr) : option conv := match e with ENull | EZero => Some User | _ => None end.

(** A candidate: which, whether it is a template, and how the expression converts; the language, for
    MethodMockingContext.hpp:281-332. *)
Record candidate (T : Type) := mkCandidate { k_what : T; k_template : bool; k_conv : option conv }.
Arguments mkCandidate {T}. Arguments k_what {T}. Arguments k_template {T}. Arguments k_conv {T}.

(** The language, for MethodMockingContext.hpp:281-332. *)
Inductive choice (T : Type) := Chosen (x : T) | Ambiguous | NoMatch.
Arguments Chosen {T}. Arguments Ambiguous {T}. Arguments NoMatch {T}.

(** Better, of two that are viable: the language, for MethodMockingContext.hpp:281-332. *)
Definition better {T} (c d : candidate T) : bool :=
  match k_conv c, k_conv d with
  | Some x, Some y => (rank x <? rank y) || ((rank x =? rank y) && negb (k_template c) && k_template d)
  | Some _, None => true
  | None, _ => false
  end.

(** The others of each in a list: for MethodMockingContext.hpp:281-332. *)
Fixpoint with_others {T} (before l : list T) : list (T * list T) :=
  match l with [] => [] | x :: r => (x, before ++ r) :: with_others (before ++ [x]) r end.

(** Overload resolution: the language, for MethodMockingContext.hpp:281-332. *)
Definition resolve {T} (cs : list (candidate T)) : choice T :=
  let viable := filter (fun c => match k_conv c with Some _ => true | None => false end) cs in
  match find (fun x => forallb (better (fst x)) (snd x)) (with_others [] viable) with
  | Some (c, _) => Chosen (k_what c)
  | None => match viable with [] => NoMatch | _ => Ambiguous end
  end.

(** What a condition means: the arguments are compared, the predicate is asked, an empty std::function is asked, which throws
    std::bad_function_call (invocation_matchers.hpp:138-140), or it does not compile. *)
Inductive condition := CArguments | CPredicate | CEmpty | CError.

(** An expression given as a predicate: invocation_matchers.hpp:123-125. *)
Definition as_predicate (e : expr) : condition := match e with ENull | EZero | EBraces => CEmpty | _ => CPredicate end.

(** All of some arguments convert: MethodMockingContext.hpp:311. *)
Fixpoint all_convert (ps : list param) (es : list expr) : bool :=
  match ps, es with
  | [], [] => true
  | p :: ps, e :: es => match to_param p e with Some _ => all_convert ps es | None => false end
  | _, _ => false
  end.

(** Method(mock, f)(es...): MethodMockingContext.hpp:311-319, 371-379.  The call in :312 always means the template of :256,
    which is better than the conversion to a std::function. *)
Definition in_parentheses (ps : list param) (es : list expr) : condition :=
  match es with
  | [e] =>
      match resolve [mkCandidate true false (match ps with [p] => to_param p e | _ => None end);
                     mkCandidate false false (to_function e)] with
      | Chosen true => CArguments
      | Chosen false => as_predicate e
      | _ => CError
      end
  | _ => if all_convert ps es then CArguments else CError
  end.

(** Method(mock, f).Matching(e): MethodMockingContext.hpp:306-309, 366-369. *)
Definition in_matching (e : expr) : condition := match to_function e with Some _ => as_predicate e | None => CError end.

(** CollectMatchers of one argument, MatchersCollector.hpp:50-59: the type must be constructible from the expression, and == compile
    (argument_matchers.hpp:100-102).  The expression came through a forwarding reference: a literal 0 is an int then and {} has no type. *)
Definition collects (p : param) (e : expr) : bool :=
  match e with
  | EOwn _ => true
  | EOther c => match c with Some _ => true | None => false end
  | ENull => match p_type p with TPointer => true | TClass c => c_null c && c_eq_null c | _ => false end
  | EZero => match p_type p with TBool | TNumber => true | TPointer => false | TClass c => c_int c end
  | EBraces | EFunction | ELambda _ _ => false
  end.

(** MatchersCollector.hpp:77-82. *)
Fixpoint all_collect (ps : list param) (es : list expr) : bool :=
  match ps, es with
  | [], [] => true
  | p :: ps, e :: es => collects p e && all_collect ps es
  | _, _ => false
  end.

(** Method(mock, f).Using(es...): MethodMockingContext.hpp:301-304, 230-234, 253-263.  The template takes part if the numbers are equal,
    and is better then; otherwise one expression may convert to a predicate. *)
Definition in_using (ps : list param) (es : list expr) : condition :=
  if length es =? length ps then if all_collect ps es then CArguments else CError
  else match es with
       | [EZero] | [EBraces] => CError
       | [e] => in_matching e
       | _ => CError
       end.

(** What an assignment means: all calls return the value, run the function, or run an empty std::function, which throws
    std::bad_function_call (Action.hpp:66-68); or it does not compile. *)
Inductive assigned := AValue | AFunction | AEmpty | AError.

(** The three operator= of MockingContext, MethodMockingContext.hpp:281, 321, 326; without the last for void, 341, 381. *)
Inductive operator_eq := Deleted | OfFunction | OfValue.

(** Method(mock, f) = e: MethodMockingContext.hpp:281, 321-329, 341, 381-383. *)
Definition assign (r : option ty) (e : expr) : assigned :=
  match resolve [mkCandidate Deleted false (to_context e); mkCandidate OfFunction false (to_function e);
                 mkCandidate OfValue true (match r with Some t => to_type t e | None => None end)] with
  | Chosen OfFunction => match e with ENull | EZero | EBraces => AEmpty | _ => AFunction end
  | Chosen OfValue => AValue
  | Chosen Deleted => AError
  | _ => AError
  end.

(** What the k-th call of the method does: Action.hpp:66-68; [v] is the value that the expression has as a result, [f] what the
    function returns. *)
Inductive answer (V : Type) := Returned (v : V) | ThrewBadCall | WasUnexpected.
Arguments Returned {V}. Arguments ThrewBadCall {V}. Arguments WasUnexpected {V}.
(** MethodMockingContext.hpp:144-147, Action.hpp:57-77. *)
Definition assigned_call {V} (a : assigned) (v f : V) : option (answer V) :=
  match a with
  | AValue => Some (Returned v)
  | AFunction => Some (Returned f)
  | AEmpty => Some ThrewBadCall
  | AError => None
  end.

(** Return({n, x}): [whole]: the result can be made from {n, x}; [second]: from x.  StubbingProgress.hpp:50-54 is a template, 71-76 is none;
    Quantifier has a constructor from a number and a value, Quantifier.hpp:25-27. *)
Inductive returned := RValue | RTimes | RError.
(** StubbingProgress.hpp:50-54, 71-76. *)
Definition return_pair (whole second : bool) : returned :=
  let if_so (b : bool) := if b then Some User else None in
  match resolve [mkCandidate false true (if_so whole); mkCandidate true false (if_so second)] with
  | Chosen true => RTimes
  | Chosen false => RValue
  | _ => RError
  end.

(** AlwaysReturn({n, x}): StubbingProgress.hpp:86-90. *)
Definition always_return_pair (whole : bool) : returned := if whole then RValue else RError.

(** The k-th call after it, from 0: StubbingProgress.hpp:52-53, 72-75, Action.hpp:43-50; [w] is the value of {n, x}, [s] that of x.
    [always]: AlwaysReturn, StubbingProgress.hpp:88-90. *)
Definition returned_call {V} (r : returned) (always : bool) (n : nat) (w s : V) (k : nat) : option (answer V) :=
  match r with
  | RValue => Some (if always || (k <? 1) then Returned w else WasUnexpected)
  | RTimes => Some (if k <? n then Returned s else WasUnexpected)
  | RError => None
  end.
