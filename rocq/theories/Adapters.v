(** Model of the glue of the test frameworks, config/<framework>/<Framework>Fakeit.hpp, and
    of the choice of the formatter (include/fakeit/DefaultFakeit.hpp, FakeitContext.hpp). *)
From Coq Require Import Ascii String ZArith List.
From Verif Require Import Syntax Format Events.
Import ListNotations.
Open Scope string_scope.

(** The subdirectories of config/.  [Boost old]: [old] if BOOST_VERSION < 105900
    (BoostTestFakeit.hpp:45-64). *)
Inductive framework : Type :=
| Standalone | Boost (old : bool) | Catch | Cute | Doctest | GTest | Mettle | MsTest | NUnit | QTest | TpUnit.

Section Glue.
(** What the formatters look at besides the place. *)
Variable P : Type.

(** The three event classes: FakeitEvents.hpp.  Verification events carry the file and
    line of the statement. FakeitEvents.hpp:26-61 (file and line), 63-86, 88-126, 128-143. *)
Inductive fevent : Type :=
| FeUnexpected (p : P)
| FeSequence (file : string) (line : Z) (p : P)
| FeNoMore (file : string) (line : Z) (p : P).

(** EventFormatter.hpp:18-26: one function for the three overloads of format. *)
Definition formatter : Type := fevent -> string.

(** _customFormatter (DefaultFakeit.hpp:28; None is nullptr) beside the configuration of
    Events.v. *)
Record config : Type := mkConfig { cf_events : fctx nat; cf_custom : option formatter }.

(** DefaultFakeit(): 33-36. *)
Definition config_new : config := mkConfig fctx_new None.

(** setCustomEventFormatter 40-42, resetCustomEventFormatter 44-46; the other settings:
    Events.v. *)
Inductive setting : Type :=
| SetFormatter (f : formatter)
| ResetFormatter
| SetOther (o : fc_op nat).
(** DefaultFakeit.hpp:40-54, FakeitContext.hpp:60-66. *)
Definition set_step (c : config) (s : setting) : config :=
  match s with
  | SetFormatter f => mkConfig (cf_events c) (Some f)
  | ResetFormatter => mkConfig (cf_events c) None
  | SetOther o => mkConfig (fc_step (cf_events c) o) (cf_custom c)
  end.
(** One after the other: DefaultFakeit.hpp:40-54. *)
Definition set_all (c : config) (l : list setting) : config := fold_left set_step l c.

(** getEventFormatter 64-68 with accessEventFormatter (70-72 and the overriding ones of
    Catch 108-110, MsTest 73-75, QTest 56-58, TpUnit: each a DefaultEventFormatter,
    [std]); FakeitContext::format: FakeitContext.hpp:45-58. *)
Definition getEventFormatter (std : formatter) (c : config) : formatter :=
  match cf_custom c with Some f => f | None => std end.

(** The formatter an adapter was given: *this, i.e. FakeitContext::format, except for
    Catch, which gets its own DefaultEventFormatter (CatchFakeit.hpp:95). *)
Definition adapter_formatter (fw : framework) (std : formatter) (c : config) : formatter :=
  match fw with Catch => std | _ => getEventFormatter std c end.

(** What is thrown: fakeit::UnexpectedMethodCallException, a class derived from
    std::exception, std::string, a class of the framework. FakeitExceptions.hpp:27-55,
    config/standalone/StandaloneFakeit.hpp:46-56. *)
Inductive thrown : Type := TFakeit | TStd | TString | TOwn.

(** What an adapter does with an event: the text it hands on, the place it reports, what
    it throws ([None]: handle returns). StandaloneFakeit.hpp:74-92 and the other adapters listed at [handle]. *)
Record verdict : Type := mkVerdict {
  vd_text : string;
  vd_place : option (string * Z);
  vd_thrown : option thrown
}.

(** formatLineNumner of the standalone, TpUnit, Mettle and Catch adapters; [gnu]:
    __GNUG__ is defined. StandaloneFakeit.hpp:60-66, TpUnitFakeit.hpp:13-19, MettleFakeit.hpp:10-16,
    CatchFakeit.hpp:26-32. *)
Definition formatLineNumber (gnu : bool) (file : string) (line : Z) : string :=
  if gnu then file ++ ":" ++ show_Z line else file ++ "(" ++ show_Z line ++ ")".

(** The handle functions: StandaloneFakeit.hpp:74-92, BoostTestFakeit.hpp:24-37, 43-66,
    CatchFakeit.hpp:41-83, CuteFakeit.hpp:15-28, DoctestFakeit.hpp:20-48,
    GTestFakeit.hpp:15-28, MettleFakeit.hpp:24-38, MsTestFakeit.hpp:20-45,
    NUnitFakeit.hpp:14-31, QTestFakeit.hpp:16-32, TpUnitFakeit.hpp:40-53.
    The macros and functions of the frameworks are taken as documented: GTEST_FATAL_FAILURE_,
    QFAIL return from the function they stand in (with the place they stand at);
    GTEST_MESSAGE_AT_, DOCTEST_ADD_FAIL_CHECK_AT and boost's check_impl at level CHECK
    record a failure and go on; DOCTEST_ADD_FAIL_AT, report_assertion at level REQUIRE,
    Assert::Fail and Catch's handler throw the framework's own exception. *)
Definition handle (fw : framework) (gnu : bool) (fmt : formatter) (e : fevent) : verdict :=
  match fw, e with
  | Standalone, FeUnexpected _ => mkVerdict (fmt e) None (Some TFakeit)
  | Standalone, (FeSequence f l _ | FeNoMore f l _) =>
      mkVerdict (formatLineNumber gnu f l ++ ": " ++ fmt e) (Some (f, l)) (Some TStd)
  | Boost _, FeUnexpected _ => mkVerdict (fmt e) None (Some TString)
  | Boost old, (FeSequence f l _ | FeNoMore f l _) =>
      mkVerdict (fmt e) (Some (f, l)) (if old then None else Some TOwn)
  | Catch, FeUnexpected _ => mkVerdict (fmt e) (Some ("Unknown file", 0%Z)) (Some TOwn)
  | Catch, (FeSequence f l _ | FeNoMore f l _) =>
      mkVerdict (formatLineNumber gnu f l ++ ": " ++ fmt e) (Some (f, l)) (Some TOwn)
  | Cute, FeUnexpected _ => mkVerdict (fmt e) None (Some TString)
  | Cute, (FeSequence f l _ | FeNoMore f l _) => mkVerdict (fmt e) (Some (f, l)) (Some TOwn)
  | Doctest, FeUnexpected _ => mkVerdict (fmt e) (Some ("Unknown file", 0%Z)) (Some TOwn)
  | Doctest, (FeSequence f l _ | FeNoMore f l _) => mkVerdict (fmt e) (Some (f, l)) None
  | GTest, FeUnexpected _ => mkVerdict (fmt e) (Some ("GTestFakeit.hpp", 17%Z)) None
  | GTest, (FeSequence f l _ | FeNoMore f l _) => mkVerdict (fmt e) (Some (f, l)) None
  | Mettle, FeUnexpected _ => mkVerdict (fmt e) None (Some TOwn)
  | Mettle, (FeSequence f l _ | FeNoMore f l _) =>
      mkVerdict (formatLineNumber gnu f l ++ ": " ++ fmt e) None (Some TOwn)
  | MsTest, _ => mkVerdict (fmt e) None (Some TOwn)
  | NUnit, _ => mkVerdict (fmt e) None (Some TOwn)
  | QTest, FeUnexpected _ => mkVerdict (fmt e) (Some ("QTestFakeit.hpp", 19%Z)) None
  | QTest, FeSequence _ _ _ => mkVerdict (fmt e) (Some ("QTestFakeit.hpp", 25%Z)) None
  | QTest, FeNoMore _ _ _ => mkVerdict (fmt e) (Some ("QTestFakeit.hpp", 31%Z)) None
  | TpUnit, FeUnexpected _ => mkVerdict (fmt e) None (Some TStd)
  | TpUnit, (FeSequence f l _ | FeNoMore f l _) =>
      mkVerdict (formatLineNumber gnu f l ++ ": " ++ fmt e) None (Some TStd)
  end.

(** The built-in adapter at work under a configuration. DefaultFakeit.hpp:58-68, FakeitContext.hpp:32-43. *)
Definition built_in (fw : framework) (gnu : bool) (std : formatter) (c : config) (e : fevent) : verdict :=
  handle fw gnu (adapter_formatter fw std c) e.

(** How a call nobody expected ends for the caller: RecordedMethodBody.hpp:145-149 and
    MockImpl.hpp:277-281 (the adapter's exception, or the library's own with the text of
    FakeitContext::format): the kind of the exception and its text. *)
Definition unexpected_end (fw : framework) (gnu : bool) (std : formatter) (c : config) (p : P) : thrown * string :=
  let v := built_in fw gnu std c (FeUnexpected p) in
  match vd_thrown v with
  | Some t => (t, vd_text v)
  | None => (TFakeit, getEventFormatter std c (FeUnexpected p))
  end.
End Glue.
Arguments FeUnexpected {P}.
Arguments FeSequence {P}.
Arguments FeNoMore {P}.

(** ** The built-in adapter in the world model *)

(** The kind of exception the adapter throws on an event of the world (the place plays no
    role for it). As [handle] (StandaloneFakeit.hpp:74-92 and the others). *)
Definition fw_thrown (fw : framework) (e : event) : option thrown :=
  vd_thrown (handle unit fw true (fun _ => "")
    (match e with
     | EvUnexpected _ _ _ => FeUnexpected tt
     | EvSequence _ _ _ _ _ => FeSequence "" 0%Z tt
     | EvNoMore _ _ => FeNoMore "" 0%Z tt
     end)).

(** The same in the exceptions of Syntax.v: FakeitContext.hpp:32-43 and the adapters listed at [handle]. *)
Definition fw_react (fw : framework) (e : event) : option exn :=
  match fw_thrown fw e with
  | None => None
  | Some TFakeit => Some (XUnexpected e)
  | Some _ => Some (XVerification e)
  end.

(** Exceptions that [catch (std::exception &)] takes.  [user n]: the user's exception n is
    one; [own]: the framework's class is one.  UnexpectedMethodCallException
    (FakeitExceptions.hpp:27-57), NoMoreRecordedActionException
    (MethodInvocationHandler.hpp:15), DefaultValueInstatiationException
    (DefaultValue.hpp:16) and bool are not; std::invalid_argument and NoVirtualDtor
    (VTUtils.hpp:18) are. *)
Definition std_exn (fw : framework) (user : nat -> bool) (own : bool) (x : exn) : bool :=
  match x with
  | XUser n => user n
  | XVerification e =>
      match fw_thrown fw e with Some TStd => true | Some TOwn => own | _ => false end
  | XInvalid | XNoDtor => true
  | XUnexpected _ | XNoMore | XFalse | XDefault => false
  end.
