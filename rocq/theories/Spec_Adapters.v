(** Vocabulary for the glue of the test frameworks. *)
From Coq Require Import Bool Ascii String ZArith List.
From Verif Require Import Base Values Syntax World Format Events Adapters.
Import ListNotations.
Open Scope string_scope.

Section Texts.
Variable P : Type.

(** Settings of listeners and adapters. *)
Definition other_setting (s : setting P) : Prop := match s with SetOther _ _ => True | _ => False end.

(** A failed verification of the statement at the place. *)
Definition failure_at (e : fevent P) (file : string) (line : Z) : Prop :=
  exists p, e = FeSequence file line p \/ e = FeNoMore file line p.

(** How a place is written. *)
Definition place_text (gnu : bool) (file : string) (line : Z) : string :=
  file ++ (if gnu then ":" ++ show_Z line else "(" ++ show_Z line ++ ")").

(** [s] is the text [t] about the event, possibly after the place. *)
Definition reads (gnu : bool) (e : fevent P) (s t : string) : Prop :=
  s = t \/ exists file line, failure_at e file line /\ s = place_text gnu file line ++ ": " ++ t.

(** The frameworks whose adapters write the place of a failed verification at the start of the
    text, and those whose adapters give it to the framework apart. *)
Definition place_in_text (fw : framework) : bool :=
  match fw with Standalone | Catch | Mettle | TpUnit => true | _ => false end.
Definition place_apart (fw : framework) : bool :=
  match fw with Standalone | Boost _ | Catch | Cute | Doctest | GTest => true | _ => false end.

(** The report names the place in these ways. *)
Definition names_place (fw : framework) (gnu : bool) (v : verdict) (file : string) (line : Z) : Prop :=
  (place_in_text fw = true -> exists rest, vd_text v = place_text gnu file line ++ ": " ++ rest) /\
  (place_apart fw = true -> vd_place v = Some (file, line)) /\
  (place_in_text fw = true \/ place_apart fw = true).

(** The place given for an unexpected call: none, one that exists nowhere, or one in the
    adapter's own header. *)
Definition place_of_unexpected (fw : framework) : option (string * Z) :=
  match fw with
  | Catch | Doctest => Some ("Unknown file", 0%Z)
  | GTest => Some ("GTestFakeit.hpp", 17%Z)
  | QTest => Some ("QTestFakeit.hpp", 19%Z)
  | _ => None
  end.

(** The frameworks whose adapters name the place of a failed verification. *)
Definition tells_places (fw : framework) : bool :=
  match fw with MsTest | NUnit | QTest => false | _ => true end.
End Texts.

(** The built-in adapter of the environment is the one of the framework. *)
Definition has_adapter (E : env) (fw : framework) : Prop := forall e, e_react E (e_builtin E) e = fw_react fw e.

(** Listeners, and adapters of the user, that throw on an unexpected call throw something
    that [catch (std::exception &)] does not take. *)
Definition others_loud (E : env) (caught : exn -> bool) : Prop :=
  forall l t m args x, l <> e_builtin E -> e_react E l (EvUnexpected t m args) = Some x -> caught x = false.

(** Adapters that throw on failed verifications. *)
Definition stops_tests (fw : framework) : bool :=
  match fw with Boost true | Doctest | GTest | QTest => false | _ => true end.
