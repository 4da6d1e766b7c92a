(** Model of the text of a report in a given state: DefaultEventFormatter.hpp applied to the
    events of the world model.  The formatter reads the arguments of the calls and the
    operands of the expressions when it is asked to, through references where they are
    references. *)
From Coq Require Import Ascii String ZArith List.
From Coq Require Import Floats.SpecFloat.
From Verif Require Import Base CInt Values ArgMatchers InvMatchers Sequences Expectation Format Syntax World.
Import ListNotations.
Open Scope string_scope.

Section Reports.
Variable E : env.
(** operator<< of doubles and addresses; nothing is assumed about them. *)
Variable show_dbl : spec_float -> string.
Variable show_ptr : option addr -> string.
(** MethodInfo::name of the method with the given id: "mock.method" as written in the
    expression that mentioned it last (RecordedMethodBody.hpp:166-169,
    api_macros.hpp:18-22). *)
Variable names : Z -> string.

(** ActualInvocation::format: ActualInvocation.hpp:57-62. *)
Definition inv_text (w : world) (i : nat) : outcome string :=
  let! v := heap_inv w i in
  fmt_invocation show_dbl show_ptr (w_mem w) (names (iv_method v)) (iv_args v).

(** Implementation::format: MethodMockingContext.hpp:107-111; getMethodName:
    MockImpl.hpp:164-166. *)
Definition ctx_text (w : world) (c : nat) : outcome string :=
  let! x := heap_ctx w c in
  let! b := bound_body E w (cx_target x) in
  let! bd := heap_body w b in
  let! im := heap_matcher w (cx_matcher x) in
  let! s := fmt_imatcher show_dbl show_ptr (w_mem w) im in
  Def (names (bd_id bd) ++ s).

(** The texts of a list, all of which are made.  The loops of DefaultEventFormatter.hpp:84-98, 111-126. *)
Fixpoint all_texts (f : nat -> outcome string) (l : list nat) : outcome (list string) :=
  match l with
  | [] => Def []
  | i :: l' => let! t := f i in let! ts := all_texts f l' in Def (t :: ts)
  end.

(** formatInvocationList looks at the first 50 only: DefaultEventFormatter.hpp:111-126.
    The others appear as empty texts, which it does not print. *)
Definition list_texts (w : world) (l : list nat) : outcome (list string) :=
  let! ts := all_texts (inv_text w) (firstn 50 l) in
  Def (ts ++ map (fun _ => "") (skipn 50 l))%list.

(** Models no lines of /repo. Used only where the text is known to be defined. *)
Definition text_or_empty (o : outcome string) : string := match o with Def s => s | _ => "" end.

(** format: DefaultEventFormatter.hpp:18-28 (UnknownMethod is called "unknown" and shown
    without arguments, DomainObjects.hpp:52-58, MockImpl.hpp:275), 37-61, 63-69.
    All expressions of the pattern are formatted. *)
Definition event_text (w : world) (ev : event) : outcome string :=
  match ev with
  | EvUnexpected t m args =>
      let! s := fmt_invocation show_dbl show_ptr (w_mem w) (match m with Some id => names id | None => "unknown" end) args in
      Def (fmt_unexpected_event (match t with Unmatched => true | Unmocked => false end) s)
  | EvSequence t pattern actual k n =>
      let! _ := all_texts (ctx_text w) (flat_map (getInvolvedMocks (fun c => c)) pattern) in
      let! ts := list_texts w actual in
      Def (fmt_sequence_event (fun c => text_or_empty (ctx_text w c)) pattern t k n ts)
  | EvNoMore _ unverified =>
      let! ts := list_texts w unverified in Def (fmt_nomore_event ts)
  end.
End Reports.
