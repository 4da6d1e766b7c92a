(** Properties of the test framework adapters (config/) in force and of programs run under
    them.

    [built_in P fw gnu std c e]: what the adapter of the framework [fw] does with the event
    [e] under the settings [c]; [std]: the library's own formatter; [gnu]: compiled by GCC
    or Clang.  [decent caught trusted p] (Spec_Heard.v): the program [p] and all code in it
    handle an exception [x] only if [caught x], and let others pass after some clean-up. *)
From Coq Require Import Bool Ascii String ZArith Lia List.
From Verif Require Import Base CInt Values ArgMatchers InvMatchers ActionSeq Sequences Expectation Syntax World Format Events
  Adapters Spec_Adapters Spec_Heard WorldHeard AdaptersProofs WorldExamples.
Import ListNotations.
Open Scope string_scope.

(** ** C70: a formatter given with setCustomEventFormatter writes the texts until it is
    replaced or reset, for every framework but Catch: the report of each event, and the
    exception an unexpected call ends with. *)
Theorem C70_text : forall P fw gnu std l f l' e, fw <> Catch -> Forall (other_setting P) l' ->
  let c := set_all P (config_new P) (l ++ SetFormatter P f :: l') in
  reads P gnu e (vd_text (built_in P fw gnu std c e)) (f e) /\
  forall p, snd (unexpected_end P fw gnu std c p) = f (FeUnexpected p).
Proof. exact custom_text. Qed.

(** After resetCustomEventFormatter the texts are the library's own again. *)
Theorem C70_reset : forall P fw gnu std l l' e, Forall (other_setting P) l' ->
  let c := set_all P (config_new P) (l ++ ResetFormatter P :: l') in
  reads P gnu e (vd_text (built_in P fw gnu std c e)) (std e) /\
  forall p, snd (unexpected_end P fw gnu std c p) = std (FeUnexpected p).
Proof. exact standard_text. Qed.

Definition C70_plain : formatter unit := fun _ => "plain".
Definition C70_mine : formatter unit := fun e => match e with FeUnexpected _ => "mine" | _ => "failed" end.
Definition C70_settings : list (setting unit) :=
  [SetFormatter unit C70_plain; ResetFormatter unit; SetOther unit (FAdd 3)].
Example C70_case : GTest <> Catch /\ Forall (other_setting unit) [SetOther unit (FAdd 1); SetOther unit FResetAdapter] /\
  let c := set_all unit (config_new unit) (C70_settings ++ SetFormatter unit C70_mine :: [SetOther unit (FAdd 1); SetOther unit FResetAdapter]) in
  vd_text (built_in unit Standalone true C70_plain c (FeSequence "a.cpp" 12 tt)) = "a.cpp:12: failed" /\
  unexpected_end unit GTest true C70_plain c tt = (TFakeit, "mine").
Proof. split; [discriminate|]. split; [repeat constructor|]. split; reflexivity. Qed.

(** With Catch the formatter is ignored, whatever it is: if it says anything else than the
    library's own, the text of an unexpected call is not its text. *)
Theorem C70_catch_refuted : forall P gnu std l f p, f (FeUnexpected p) <> std (FeUnexpected p) ->
  vd_text (built_in P Catch gnu std (set_all P (config_new P) (l ++ [SetFormatter P f])) (FeUnexpected p)) <> f (FeUnexpected p).
Proof. exact catch_text. Qed.
Example C70_catch_case : C70_mine (FeUnexpected tt) <> C70_plain (FeUnexpected tt).
Proof. discriminate. Qed.

(** ** C71: code under test that catches std::exception does not hide an unexpected call.
    The built-in adapter is the one of [fw], other than TpUnit; the exceptions of Catch,
    Doctest, Mettle, MsTest and NUnit are assumed not to be std::exceptions; listeners
    throw no std::exception on unexpected calls.  All code, the methods of the classes
    included, handles only std::exceptions.  If such a test ends normally, or with a
    std::exception, no unexpected call was reported during it. *)
Theorem C71_heard : forall fw E user own fuel m p w,
  fw <> TpUnit -> (In fw [Catch; Doctest; Mettle; MsTest; NUnit] -> own = false) ->
  has_adapter E fw -> others_loud E (std_exn fw user own) ->
  (forall c d slot, nth_error (e_classes E) c = Some d -> decent (std_exn fw user own) (fun _ => true) (cl_body d slot)) ->
  decent (std_exn fw user own) (fun _ => true) p ->
  ((exists r, exec_prog E fuel p (init_world E m) = RVal w r) \/
   (exists x, std_exn fw user own x = true /\ exec_prog E fuel p (init_world E m) = RExn w x)) ->
  forall l t me args, ~ In (l, EvUnexpected t me args) (w_log w).
Proof. exact std_handlers_pass. Qed.

(** Which exceptions are std::exceptions: std::invalid_argument and NoVirtualDtor; not what an
    unexpected call, an exhausted stub or a default value that cannot be made end with. *)
Example C71_std : forall fw user own,
  std_exn fw user own XInvalid = true /\ std_exn fw user own XNoDtor = true /\
  (forall e, std_exn fw user own (XUnexpected e) = false) /\ std_exn fw user own XNoMore = false /\
  std_exn fw user own XDefault = false /\ std_exn fw user own XFalse = false.
Proof. repeat split. Qed.

Definition fw_env (fw : framework) : env := mkEnv [ex_class] (fun _ e => fw_react fw e) 0 (fun l => l) (fun v => v).

(** Code under test: calls foo(arg) of object 0 and takes a std::exception for an error
    value. *)
Definition C71_code (fw : framework) (arg : Z) : prog :=
  PDo (OCall 0 0 [VInt arg]) (fun r =>
    match r with
    | OVal v => PRet v
    | OExn x => if std_exn fw (fun _ => true) false x then PRet (VInt (-1)) else PThrow x
    end).
(** The test: foo(3) returns 5, foo(7) throws a std::exception. *)
Definition C71_test (fw : framework) (arg : Z) : prog :=
  PDo (OMock 0) (fun r => match r with OExn x => PThrow x | _ =>
  PDo (OStmt [(foo 0, Some (eq_int 3))] (SWhen [always 5] None)) (fun r => match r with OExn x => PThrow x | _ =>
  PDo (OStmt [(foo 0, Some (eq_int 7))] (SWhen [RecAlways (FProg (PThrow (XUser 1)))] None)) (fun r => match r with OExn x => PThrow x | _ =>
  C71_code fw arg end) end) end).
Lemma C71_decent : forall fw arg, decent (std_exn fw (fun _ => true) false) (fun _ => true) (C71_test fw arg).
Proof.
  intros fw arg. unfold C71_test, C71_code.
  repeat (apply DcDo;
    [first [ apply DoStmtWhen; intros r [<-|[]]; cbn; repeat constructor | apply DoOther; exact Logic.I ]
    |discriminate
    |intros ?; cbv beta iota
    |intros e He; cbv beta iota; first [apply DcThrow | rewrite He; apply DcRet]
    |intros e He; cbv beta iota; first [apply PsThrow | rewrite He; apply PsThrow]]).
  apply DcRet.
Qed.
Lemma C71_bodies : forall fw c d slot, nth_error (e_classes (fw_env fw)) c = Some d ->
  decent (std_exn fw (fun _ => true) false) (fun _ => true) (cl_body d slot).
Proof.
  intros fw [|[|c]] d slot H; inversion H; subst. destruct slot as [|[|slot]]; cbn; repeat constructor.
Qed.
Lemma C71_loud : forall fw, fw <> TpUnit -> others_loud (fw_env fw) (std_exn fw (fun _ => true) false).
Proof. intros fw N l t m args x _ H. destruct fw; try congruence; inversion H; subst; reflexivity. Qed.
(** For each framework but TpUnit: the hypotheses; foo(3) and foo(7) are served; foo(4) ends
    the test although the code handles std::exceptions. *)
Example C71_case : forall fw, fw <> TpUnit ->
  (In fw [Catch; Doctest; Mettle; MsTest; NUnit] -> false = false) /\
  has_adapter (fw_env fw) fw /\ others_loud (fw_env fw) (std_exn fw (fun _ => true) false) /\
  (forall c d slot, nth_error (e_classes (fw_env fw)) c = Some d -> decent (std_exn fw (fun _ => true) false) (fun _ => true) (cl_body d slot)) /\
  decent (std_exn fw (fun _ => true) false) (fun _ => true) (C71_test fw 3) /\
  (exists w, exec_prog (fw_env fw) 10 (C71_test fw 3) (init_world (fw_env fw) []) = RVal w (VInt 5)) /\
  (exists w, exec_prog (fw_env fw) 10 (C71_test fw 7) (init_world (fw_env fw) []) = RVal w (VInt (-1))) /\
  (exists w x l, exec_prog (fw_env fw) 10 (C71_test fw 4) (init_world (fw_env fw) []) = RExn w x /\
     std_exn fw (fun _ => true) false x = false /\ w_log w = [(l, EvUnexpected Unmatched (Some 1%Z) [VInt 4])]).
Proof.
  intros fw N. split; [reflexivity|]. split; [intro e; reflexivity|]. split; [now apply C71_loud|].
  split; [apply C71_bodies|]. split; [apply C71_decent|].
  destruct fw as [|[]| | | | | | | | | ]; try congruence;
    (split; [eexists; vm_compute; reflexivity|]; split; [eexists; vm_compute; reflexivity|];
     do 3 eexists; split; [vm_compute; reflexivity|]; split; vm_compute; reflexivity).
Qed.

(** With TpUnit it does: the same test with foo(4) ends normally, the unexpected call was
    reported to the adapter and its exception was taken for an ordinary error. *)
Theorem C71_tpunit_refuted :
  decent (std_exn TpUnit (fun _ => true) false) (fun _ => true) (C71_test TpUnit 4) /\
  exists w, exec_prog (fw_env TpUnit) 10 (C71_test TpUnit 4) (init_world (fw_env TpUnit) []) = RVal w (VInt (-1)) /\
  In (0, EvUnexpected Unmatched (Some 1%Z) [VInt 4]) (w_log w).
Proof. split; [apply C71_decent|]. eexists. split; [vm_compute; reflexivity|]. vm_compute. now left. Qed.

(** ** C72: the report of a failed verification names the file and line of the statement, for
    the standalone version, Boost, Catch, Cute, Doctest, GTest, Mettle and TpUnit. *)
Theorem C72_places : forall P fw gnu fmt e file line, tells_places fw = true -> failure_at P e file line ->
  names_place fw gnu (handle P fw gnu fmt e) file line.
Proof. exact places_told. Qed.
Example C72_case : tells_places Mettle = true /\ failure_at unit (FeNoMore "b.cpp" 7 tt) "b.cpp" 7 /\
  vd_text (handle unit Mettle false C70_mine (FeNoMore "b.cpp" 7 tt)) = "b.cpp(7): failed".
Proof. split; [reflexivity|]. split; [exists tt; now right|reflexivity]. Qed.

(** The report of an unexpected call never names a place of the test: Catch and Doctest are
    given a file that does not exist, GTest and QTest a line of the adapter, the others
    nothing. *)
Theorem C72_unexpected : forall P fw gnu fmt p, vd_place (handle P fw gnu fmt (FeUnexpected p)) = place_of_unexpected fw.
Proof. exact places_unexpected. Qed.
Example C72_unexpected_case : vd_text (handle unit GTest true C70_mine (FeUnexpected tt)) = "mine" /\
  place_of_unexpected GTest = Some ("GTestFakeit.hpp", 17%Z) /\ place_of_unexpected Standalone = None.
Proof. repeat split. Qed.

(** MsTest, NUnit and QTest report failures at any two places alike (with a formatter that
    does not look at the place, as the library's). *)
Theorem C72_no_place_refuted : forall P fw gnu fmt file line file' line' p, tells_places fw = false ->
  fmt (FeSequence file line p) = fmt (FeSequence file' line' p) ->
  fmt (FeNoMore file line p) = fmt (FeNoMore file' line' p) ->
  handle P fw gnu fmt (FeSequence file line p) = handle P fw gnu fmt (FeSequence file' line' p) /\
  handle P fw gnu fmt (FeNoMore file line p) = handle P fw gnu fmt (FeNoMore file' line' p).
Proof. exact places_kept_back. Qed.
(** QTest is given a line of the adapter instead, MsTest and NUnit nothing. *)
Theorem C72_wrong_place_refuted : forall P gnu fmt file line p,
  vd_place (handle P QTest gnu fmt (FeSequence file line p)) = Some ("QTestFakeit.hpp", 25%Z) /\
  vd_place (handle P QTest gnu fmt (FeNoMore file line p)) = Some ("QTestFakeit.hpp", 31%Z) /\
  vd_place (handle P MsTest gnu fmt (FeSequence file line p)) = None /\ vd_place (handle P NUnit gnu fmt (FeNoMore file line p)) = None.
Proof. repeat split. Qed.
Example C72_no_place_case : tells_places QTest = false /\
  C70_mine (FeSequence "a.cpp" 1 tt) = C70_mine (FeSequence "b.cpp" 2 tt) /\
  C70_mine (FeNoMore "a.cpp" 1 tt) = C70_mine (FeNoMore "b.cpp" 2 tt).
Proof. repeat split. Qed.

(** ** C73: a failed verification ends the test.  The built-in adapter is one that throws on
    failed verifications (all but those of GTest, QTest, Doctest and Boost before 1.59), and
    so does every adapter the program installs; no code handles these exceptions.  If such
    a test ends normally, no verification failed during it. *)
Theorem C73_stops : forall fw E caught trusted fuel m p w r,
  stops_tests fw = true -> has_adapter E fw -> trusted (e_builtin E) = true -> caught XNoMore = true ->
  (forall l e x, failed_checks e = true -> e_react E l e = Some x -> caught x = false) ->
  (forall a e, failed_checks e = true -> trusted a = true -> a <> e_builtin E -> e_react E a e <> None) ->
  (forall c d slot, nth_error (e_classes E) c = Some d -> decent caught trusted (cl_body d slot)) ->
  decent caught trusted p ->
  exec_prog E fuel p (init_world E m) = RVal w r ->
  forall l e, failed_checks e = true -> ~ In (l, e) (w_log w).
Proof. exact checks_stop. Qed.

(** Handlers for everything but failed verifications. *)
Definition C73_caught (x : exn) : bool := match x with XVerification _ => false | _ => true end.
(** The test: foo is stubbed and called once; Verify(Method(mock,foo)).Exactly(n); then foo is
    called again. *)
Definition C73_test (n : Z) : prog :=
  PDo (OMock 0) (fun r => match r with OExn x => PThrow x | _ =>
  PDo (OStmt [(foo 0, None)] (SWhen [always 5] None)) (fun r => match r with OExn x => PThrow x | _ =>
  PDo (OCall 0 0 [VInt 1]) (fun r => match r with OExn x => PThrow x | _ =>
  PDo (OStmt [(foo 0, None)] (SVerify ScInvolved [SLeaf 0%nat] [VsQuant (QExactly n)])) (fun r => match r with OExn x => PThrow x | _ =>
  PDo (OCall 0 0 [VInt 2]) (fun r => match r with OExn x => PThrow x | OVal v => PRet v end) end) end) end) end).
Lemma C73_decent : forall n, decent C73_caught (fun _ => true) (C73_test n).
Proof.
  intro n. unfold C73_test.
  repeat (apply DcDo;
    [first [ apply DoStmtWhen; intros r [<-|[]]; cbn; repeat constructor | apply DoStmtOther; discriminate | apply DoOther; exact Logic.I ]
    |discriminate|intros ?; cbv beta iota|intros e He; apply DcThrow|intros e He; apply PsThrow]).
  apply DcRet.
Qed.
Example C73_case :
  stops_tests Standalone = true /\ has_adapter (fw_env Standalone) Standalone /\ C73_caught XNoMore = true /\
  (forall l e x, failed_checks e = true -> e_react (fw_env Standalone) l e = Some x -> C73_caught x = false) /\
  (forall a e, failed_checks e = true -> true = true -> a <> e_builtin (fw_env Standalone) -> e_react (fw_env Standalone) a e <> None) /\
  (forall c d slot, nth_error (e_classes (fw_env Standalone)) c = Some d -> decent C73_caught (fun _ => true) (cl_body d slot)) /\
  decent C73_caught (fun _ => true) (C73_test 1) /\
  (exists w, exec_prog (fw_env Standalone) 10 (C73_test 1) (init_world (fw_env Standalone) []) = RVal w (VInt 5) /\
     length (w_invs w) = 2%nat) /\
  exists w e, exec_prog (fw_env Standalone) 10 (C73_test 2) (init_world (fw_env Standalone) []) = RExn w (XVerification e) /\
     length (w_invs w) = 1%nat.
Proof.
  split; [reflexivity|]. split; [intro; reflexivity|]. split; [reflexivity|].
  split; [intros l [] x F H; inversion H; subst; try reflexivity; discriminate|].
  split; [intros a [] F _ _; discriminate|].
  split; [intros [|[|c]] d slot H; inversion H; subst; destruct slot as [|[|slot]]; cbn; repeat constructor|].
  split; [apply C73_decent|].
  split; [eexists; split; vm_compute; reflexivity|]. do 2 eexists. split; vm_compute; reflexivity.
Qed.

(** With GTest, QTest, Doctest and an old Boost the test goes on: the verification failed and
    was reported, the call after it is made and the test ends normally. *)
Theorem C73_goes_on_refuted : forall fw, stops_tests fw = false ->
  decent C73_caught (fun _ => true) (C73_test 2) /\
  exists w e, exec_prog (fw_env fw) 10 (C73_test 2) (init_world (fw_env fw) []) = RVal w (VInt 5) /\
  failed_checks e = true /\ In (0, e) (w_log w) /\ length (w_invs w) = 2%nat.
Proof.
  intros fw S. split; [apply C73_decent|].
  destruct fw as [|[]| | | | | | | | | ]; try discriminate;
    (do 2 eexists; split; [vm_compute; reflexivity|];
     split; [|split; [vm_compute; left; reflexivity|vm_compute; reflexivity]]; reflexivity).
Qed.
Example C73_goes_on_case : stops_tests GTest = false /\ stops_tests (Boost true) = false /\ stops_tests (Boost false) = true.
Proof. repeat split. Qed.

Definition P_Adapters_theorems := (C70_text, C70_reset, C70_catch_refuted, C71_heard, C71_tpunit_refuted, C72_places,
  C72_no_place_refuted, C72_unexpected, C72_wrong_place_refuted, C73_stops, C73_goes_on_refuted).
Print Assumptions P_Adapters_theorems.
