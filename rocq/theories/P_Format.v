(** Properties of failure messages. *)
From Coq Require Import Bool Ascii String ZArith Lia List.
From Coq Require Import Floats.SpecFloat.
From Verif Require Import Base CInt Values ArgMatchers InvMatchers Sequences Spec_Match Expectation Format Spec_Format FormatProofs.
Import ListNotations.
Open Scope string_scope.

(** C50: two patterns whose single expectations print as single texts and that
    print the same expect the same calls (as texts), sequence by sequence. *)
Theorem C50_pattern_text : forall (A : Type) (leaf : A -> string),
  (forall a, single_text (leaf a) = true) ->
  forall p q : list (sequence A),
  formatExpectedPattern leaf p = formatExpectedPattern leaf q ->
  map (fun s => map leaf (spelled s)) p = map (fun s => map leaf (spelled s)) q.
Proof. exact pattern_text. Qed.
Print Assumptions C50_pattern_text.

(** C50: the text of a method expectation is a single text whenever the names are
    names and the operands are numbers, bools, wildcards or unprintable objects. *)
Theorem C50_method_text : forall (show_dbl : spec_float -> string) (show_ptr : option addr -> string)
    (m : mem) (mock meth : string) (im : imatcher),
  is_name mock = true -> is_name meth = true -> quiet_condition im = true ->
  exists t, fmt_context show_dbl show_ptr m mock meth im = Def t /\ single_text t = true.
Proof. exact context_single. Qed.
Print Assumptions C50_method_text.

Example C50_ex :
  fmt_context (fun _ => "") (fun _ => "") [] "mock" "foo" (IMArgs [ACmp REq (XVal (VInt 1)); AAny]) = Def "mock.foo(1, Any)" /\
  single_text "mock.foo(1, Any)" = true /\
  formatExpectedPattern (fun n => match n with O => "mock.foo(1, Any)" | _ => "mock.bar()" end)
    [SRepeat (SConcat (SLeaf 0%nat) (SLeaf 1%nat)) 2; SLeaf 1%nat]
  = "(mock.foo(1, Any) + mock.bar()) * 2 ... mock.bar()".
Proof. repeat split. Qed.

(** C50 without the restriction on operands is false: std::string operands are
    printed bare, so one expectation can print like a sum of two. *)
Theorem C50_text_operands_refuted : exists (leaf : nat -> string) (p q : list (sequence nat)),
  (forall n, exists im, fmt_context (fun _ => "") (fun _ => "") [] "m" "f" im = Def (leaf n)) /\
  formatExpectedPattern leaf p = formatExpectedPattern leaf q /\
  map (fun s => length (spelled s)) p <> map (fun s => length (spelled s)) q.
Proof. exact pattern_text_ambiguous. Qed.
Print Assumptions C50_text_operands_refuted.

(** C51: the lines of the report of a failed verification. *)
Theorem C51_report : forall (A : Type) (leaf : A -> string) (p : list (sequence A)) (t : vtype) (n k : Z)
    (texts : list string),
  texts <> [] -> (forall x, In x texts -> one_line x = true) ->
  one_line (formatExpectedPattern leaf p) = true ->
  lines (fmt_sequence_event leaf p t n k texts) =
  (["Verification error";
   "Expected pattern: " ++ formatExpectedPattern leaf p;
   "Expected matches: " ++ formatExpectedCount t n;
   "Actual matches  : " ++ show_Z k;
   "Actual sequence : total of " ++ show_Z (Z.of_nat (length texts)) ++ " actual invocations:"]%string
  ++ (if (length texts <=? 50)%nat then map (fun t => ("  " ++ t)%string) texts
      else map (fun t => ("  " ++ t)%string) (firstn 50 texts) ++ ["  ..."]))%list.
Proof. exact sequence_report. Qed.
Print Assumptions C51_report.

(** C51: the printed total determines the number. *)
Theorem C51_numbers : forall x y : Z, show_Z x = show_Z y -> x = y.
Proof. exact show_Z_inj. Qed.
Print Assumptions C51_numbers.

Example C51_ex : lines (fmt_sequence_event (fun _ : nat => "m.f()") [SLeaf 0%nat] VtExact 2 1 ["m.f()"; "m.g()"]) =
  ["Verification error"; "Expected pattern: m.f()"; "Expected matches: exactly 2"; "Actual matches  : 1";
   "Actual sequence : total of 2 actual invocations:"; "  m.f()"; "  m.g()"].
Proof. reflexivity. Qed.

Example C51_ex_long : length (lines (formatInvocationList (repeat "m.f()" 60))) = 51%nat.
Proof. reflexivity. Qed.
