# Formal model of FakeIt: design

Everything is in Rocq/Coq 8.16.1 under `rocq/theories`, on the standard library
and Flocq (for the meaning of doubles).  The C++ sources in `/repo` are the ground
truth; each definition of the model cites the file and lines it models and names
the simplifications it makes.

## 1. Files

**Pieces without shared state.**

| file | models |
|---|---|
| `Base.v` | the three outcomes of a computation: defined value, undefined behaviour, out of fuel; list update helpers |
| `CInt.v` | C++ `int`, `unsigned` and `long`: conversions, wrap, signed overflow as undefined behaviour |
| `Values.v` | arguments and results, memory cells, references, pointers, IEEE doubles (`Floats.SpecFloat`), C strings |
| `ArgMatchers.v` | `argument_matchers.hpp`, `MatchersCollector.hpp` |
| `InvMatchers.v` | `invocation_matchers.hpp`, `TupleDispatcher.hpp` |
| `ActionSeq.v` | `Action.hpp`, `ActionSequence.hpp`, `Quantifier.hpp`, recording functions of `StubbingProgress.hpp` |
| `SortInv.v` | `SortInvocations.hpp`, `ActualInvocationsSource.hpp`: set insertion, any iteration order of the unordered set |
| `Sequences.v` | `Sequence.hpp` |
| `MatchAnalysis.v` | `MatchAnalysis.hpp` with its machine integers and index accesses |
| `VTable.v` | `gcc/VirtualTable.hpp`, `mscpp/VirtualTable.hpp`, `VTUtils.hpp`, `VirtualOffestSelector.hpp` as raw arrays |
| `Proxy.v` | `InvocationHandlers` and the bookkeeping vectors of `DynamicProxy.hpp` |
| `SmartPtr.v` | `smart_ptr.hpp` |
| `ReturnSet.v` | `ParamWalker`, `ArgLocator`, `Assign` of `StubbingProgress.hpp` |
| `Format.v` | `Formatter.hpp`, `TuplePrinter.hpp`, `DefaultEventFormatter.hpp` |
| `Events.v` | `FakeitContext.hpp`, `DefaultFakeit.hpp` |
| `Capture.v` | what `Return`, `AlwaysReturn`, `n_Times(v)` and assignment keep of their operands |
| `DataMembers.v` | `Mock::Stub` of data members, `DynamicProxy`'s list of members |
| `MoveOnly.v` | `Return` for values that can only be moved (`StubbingProgress.hpp`) |
| `MockCopy.v` | the implicit copy of a mock: tables, cookies and vectors of `DynamicProxy` |
| `Race.v` | the memory accesses of calls, mentions, stubbings and verifications |
| `OutOfMemory.v` | stubbing statements and calls when allocations fail, for one method of one mock |
| `Interrupted.v` | verifications when allocations fail or predicates throw, for one method of one mock |
| `SourceFiles.v` | the numbers that the macros of `api_macros.hpp` give to method expressions, with `DynamicProxy.hpp` and `MethodProxyCreator.hpp`, in several source files |
| `Globals.v` | objects with static storage duration: `fakeit_instance.hpp`, `api_functors.hpp`, `DefaultValue.hpp`, `UnknownMethod`, and the user's variables |
| `CallConv.v` | calling conventions of the functions put into table entries: `MockImpl::unmocked`, `unmockedDtor`, `methodProxyX`, `methodProxyXStatic`, `VirtualTable::dtor` (gcc and MSVC) |
| `Rtti.v` | the structures for typeid and dynamic_cast: `mscpp/VirtualTable.hpp` 34-134, 264-273 |
| `AtOnce.v` | Fake, Spy and assignments when allocations fail: `FakeFunctor.hpp` 19-37, `SpyFunctor.hpp` 23-46, `MethodMockingContext.hpp` 94-101, 135-147 |
| `Printing.v` | Reports about values whose operator<< is code of the user: `Formatter.hpp` 72-79, `TuplePrinter.hpp`, `ActualInvocation.hpp` 57-62, `invocation_matchers.hpp` 43-53, `DefaultEventFormatter.hpp`, `FakeitContext.hpp` 24-58, `RecordedMethodBody.hpp` 126-150, `SequenceVerificationExpectation.hpp` 67-104, `VerifyNoOtherInvocationsVerificationProgress.hpp` 58-83, `CatchFakeit.hpp` 73-83 |
| `Kept.v` | Method expressions that are kept, Reset, the names in reports: `MockImpl.hpp` 47-76, 134-174, 217-225, 273-282, 314-338, `MethodMockingContext.hpp` 75-151, `RecordedMethodBody.hpp` 45-169, `DomainObjects.hpp` 25-50, `api_macros.hpp` 28-50, `DynamicProxy.hpp` 91-98, `SequenceVerificationExpectation.hpp` 67-125, `VerifyNoOtherInvocationsVerificationProgress.hpp` 59-81, `ActualInvocation.hpp` 57-62. One list of calls for all mocks; one expression per verification; method ids do not wrap |
| `Shown.v` | How an argument of each type is shown: `Formatter.hpp` 18-90, `type_utils.hpp` 24-27, 47-65, `TuplePrinter.hpp` 19-45, and the overload resolution of `os << val` by the rules of C++ 11 to 23 (trusted; enumerations with a fixed type as of CWG 1601). Without manipulators; a class has at most one conversion; arrays do not occur as arguments |
| `Thrown.v` | Throw and AlwaysThrow, what their lambdas hold: `StubbingProgress.hpp` 107-130, 258-281, `Action.hpp` 31-79, `ActionSequence.hpp` 40-54, 75-88. One method without conditions; positive quantities; copying does not throw |
| `Copied.v` | Which methods can be spied and stubbed, by whether their parameters can be copied: `type_utils.hpp` 19-22, 95-102, `SpyFunctor.hpp` 22-33, `MockImpl.hpp` 183-213, `SpyWithoutVerifyFunctor.hpp` 12-18. Types made of copyable and move-only ones by containers and classes |
| `Forms.v` | Which overload of operator(), Using, Matching, operator= and Return an expression means: `MethodMockingContext.hpp` 230-263, 281-383, `MatchersCollector.hpp` 50-82, `StubbingProgress.hpp` 50-90, `Quantifier.hpp` 23-30, `Action.hpp` 31-77. Types are told apart by how nullptr, 0, {}, numbers and lambdas convert to them |
| `Asked.v` | The questions a verification asks conditions that have a memory or throw: `MatchAnalysis.hpp` 16-92. Indices are natural numbers, the marks are left out |
| `Passing.v` | The objects made of the arguments of a call, moves and copies, constructors that throw: `MethodProxyCreator.hpp` 44-70, `RecordedMethodBody.hpp` 126-150, `ActualInvocation.hpp` 36-40, `type_utils.hpp` 37-45, `TupleDispatcher.hpp` 15-41, `MockImpl.hpp` 182-213. The stubbing is assumed to accept the call; left to right |
| `Compared.v` | Which operators and predicates run when a call is made, and when Using(Method(...)...) chooses calls: `RecordedMethodBody.hpp` 71-82, 126-157, `invocation_matchers.hpp` 25-85, 119-166, `TupleDispatcher.hpp` 43-58, `argument_matchers.hpp` 59-257, `MethodMockingContext.hpp` 113-121. One method |
| `Within.v` | Verifications inside conditions and actions: `RecordedMethodBody.hpp` 71-82, 126-150, `invocation_matchers.hpp` 119-143, `MatchAnalysis.hpp` 16-92 for one condition, `SequenceVerificationExpectation.hpp` 67-104, `VerifyNoOtherInvocationsVerificationProgress.hpp` 59-80. One method |
| `FnState.v` | Function objects with a state of their own given to Do, AlwaysDo, a quantity or an assignment: `StubbingProgress.hpp` 145-165, 242-309, `MethodMockingContext.hpp` 144-147, 249-251, 321-323, `Action.hpp` 31-76, `TupleDispatcher.hpp` 14-41, `Quantifier.hpp` 24-31, `ActionSequence.hpp` 36-54, 75-88. Stubbings without a condition |
| `Reuse.v` | The comparison of matcher addresses under a memory manager that uses places again: `invocation_matchers.hpp` 37-41, 127-131, `MethodMockingContext.hpp` 76-106, 136-139, `ActualInvocation.hpp` 36-55, `RecordedMethodBody.hpp` 35-57, 71-82, 110-120, 126-150, `DynamicProxy.hpp` 91-98. One method |
| `Making.v` | running out of memory while making a mock, in `clear`, in `stubDataMember`: `MockImpl.hpp`, `DynamicProxy.hpp`, `FakeObject.hpp`, `VirtualTable.hpp` (gcc and mscpp) |
| `Departing.v` | destructors of values kept by a mock, during `~MockImpl`, `reset`, `clear`: `MockImpl.hpp`, `DynamicProxy.hpp`, `RecordedMethodBody.hpp` |
| `Overloads.v` | the choice between overloads: `api_macros.hpp`, `Prototype.hpp`, the templates `Mock::stub` |
| `Adapters.v` | the event handlers of the eleven test framework configurations in `config/`, the custom formatter of `DefaultFakeit.hpp` |
| `Reports.v` | `DefaultEventFormatter.hpp` applied to the states of the world |
| `Convert.v` | comparisons in `argument_matchers.hpp` with operands of another arithmetic type than the parameter |
| `Creators.v` | the matcher creators of `argument_matchers.hpp`, which hold references, and their use by `MatchersCollector.hpp` |
| `SeqVars.v` | `Sequence.hpp` again, with sequences as objects that refer to their parts and have lifetimes |
| `Listeners.v` | `FakeitContext.hpp` again, with listeners and adapters that use the library |
| `Inherit.v` | `gcc/is_simple_inheritance_layout.hpp`, and the object and table of a mock for classes with bases |
| `Finally.v` | `mockutils/Finally.hpp` and the guard of spied calls (`DynamicProxy.hpp:176-187`, `MockImpl.hpp:187-212, 293-296`) |
| `Settings.v` | `FakeitContext.hpp:14-43` with FAKEIT_ASSERT_ON_UNEXPECTED_METHOD_INVOCATION |
| `Align.v` | storage of the object of a mock: `FakeObject.hpp`, `MockImpl.hpp:281-289` |
| `Predicates.v` | `RecordedMethodBody.hpp` and `MatchAnalysis.hpp` again, for one method, with conditions that use the library |
| `Ordinals.v` | the atomic counters under interleaving |
| `Expectation.v` | `SequenceVerificationExpectation.hpp`, `SequenceVerificationProgress.hpp` |

Each has a specification file (`Spec_*.v`) that does not mention the model's
helpers, and a proof file (`*Proofs.v`).

**The world.**  `Syntax.v` is the language of programs: operations of the API and
user code (`prog`, a tree of such operations and of reads and writes of
parameters).  Bodies of stubbings and of original methods are such programs, so
re-entrant calls, stubbing or resetting from inside an action and so on are all
quantified over.  `World.v` is the state (objects, virtual tables, mocks, recorded
bodies, action sequences, matchers, method expressions, verification objects and
invocations, on explicit heaps with liveness) and every operation as a function in
a state and exception monad; it calls the pieces above, so nothing is modelled
twice.  Nesting is bounded by fuel; running out is an outcome of its own, and
`exec_bound_irrelevant` (`WorldFuel.v`) says that the bound does not matter once it
suffices.  `WorldLogic.v` and `WorldVerify.v` prove invariants of the concrete
model; `WorldExamples.v` holds the counterexample programs.

**The abstract machine.**  `Spec_World.v` says what programs are meant to do,
without tables, heaps of matchers and action sequences, ordinals or proxies: a mock
is a list of methods, a method a list of stubbings and a list of calls.  It gives no
answer where nothing is promised; its header lists these uses.  `WorldRel.v` relates
the two, `WorldSimA.v` … `WorldSimF.v` and `WorldSim.v` prove that each operation of
the world follows the machine.  The result is stated as `World_follows_machine` and
`World_goes_on` in `P_Calls.v`: if the machine answers a program, the library has
the same results, the same deliveries and no undefined behaviour.

**Consequences for users.**  `Spec_View.v`, `Spec_Alike.v`, `Spec_Play.v`, `Spec_Heard.v`, `Spec_Leaks.v`, `Spec_Rules.v` and `Spec_Verification.v`
define the vocabulary of the statements (which stubbing accepts a call, in terms of `Spec_Conditions.v`; which
programs are alike, which exceptions a program handles, which invocations a scope designates).  `CaptureProofs.v`,
`SpecFacts.v`,
`SpecKept.v`, `SpecCalls.v`, `SpecLasting.v`, `SpecSpy.v`, `SpecArgs.v`,
`SpecAlike.v`, `SpecFrame.v`, `SpecMocks.v`, `SpecHistory.v`, `SpecPlay.v`,
`SpecVerify.v`, `SpecStatement.v` and `RulesMore.v` to `RulesLeaks.v` prove facts about the machine, `WorldHeard.v`, `WorldDtor.v` and `WorldType.v` facts about the world itself; the `P_*.v` files carry them over to
the world.

**Properties.**  `P_Match.v`, `P_Actions.v`, `P_Args.v`, `P_Layout.v`, `P_Format.v`,
`P_Misc.v`, `P_Verify.v`, `P_World.v`, `P_Calls.v`, `P_Mocks.v`, `P_Verification.v`,
`P_Play.v`, `P_Capture.v`, `P_Members.v`, `P_Copy.v`, `P_Race.v`, `P_Adapters.v`, `P_Reports.v`, `P_Convert.v`, `P_Creators.v`,
`P_SeqVars.v`, `P_Listeners.v`, `P_Predicates.v`, `P_Inherit.v`, `P_Dynamic.v`, `P_Platform.v`, `P_Leaks.v`, `P_Rules.v`, `P_OutOfMemory.v`, `P_Interrupted.v`, `P_SourceFiles.v`, `P_CallConv.v`, `P_Overloads.v`, `P_Departing.v`, `P_Making.v`, `P_Rtti.v`, `P_AtOnce.v`, `P_Printing.v`, `P_Kept.v`, `P_Shown.v`, `P_Thrown.v`, `P_Copied.v`, `P_Forms.v`, `P_Asked.v`, `P_Passing.v`, `P_Compared.v`, `P_Within.v`, `P_FnState.v`, `P_Reuse.v` contain theorem statements proved by `exact`, an `Example` beside each that meets its
hypotheses, and `Print Assumptions`.

## 2. Undefined behaviour

Undefined behaviour is an outcome of its own: out-of-bounds access, use or second
release of a dead object, null dereference, signed overflow, `front()` of an empty
vector.  A theorem that claims a result claims in particular the absence of undefined
behaviour, under the hypotheses it states.

## 3. Conventions

* A property that is false of the faithful model is proved as `…_refuted`, with a
  concrete witness, next to what does hold.
* Theorems about whole programs are stated on the concrete world: they start from a
  state that follows the machine (every state reached from process start by a program
  the machine answers) and speak about results, deliveries and recorded invocations.
* `e_iter`, the iteration order of unordered sets, is an arbitrary permutation in
  every theorem.

## 4. Per property

"Machine" is the abstract machine of `Spec_World.v`.

| id | property | status | modelled in | how it is proved | theorems | limits |
|---|---|---|---|---|---|---|
| C01 | Newest matching stubbing answers a call | proved | World (`handleMethodInvocation`, `find_handler`), Syntax | Refinement of the world to the abstract machine (`WorldSim*.v`), then a lemma that the machine answers a call with the newest stubbing whose condition accepts (`SpecCalls.v`). Stated on results and logs of whole programs. | `C01_newest` `C01_newest_reentrant` | Whole programs; actions that use the library themselves: counted ones. |
| C02 | Actions of a stubbing are played back in order, each the stated number of times | proved | ActionSeq, World | Representation relation between the vector/counter objects and the expanded answer list, preserved by each call. `C02_program` says the same of whole programs (`Spec_Play.v`, `SpecPlay.v`): calls of other methods and stubbings of other methods may come in between. | `C02_playback` `C02_program` | Plays back any list of appended actions in order, each as often as its quantity says; C02_program: in whole programs, with other calls and stubbings in between. |
| C03 | An exhausted stubbing makes the call unexpected and never falls back to an older stubbing | proved | ActionSeq, World | `C03_exhausted`: the sentinel stays last. `C03_no_fallback`: whole programs, any number of further calls, through the abstract machine. | `C03_exhausted` `C03_no_fallback` `C02_program` | Any number of further calls, in whole programs; listeners that throw: C56_unsupported. |
| C04 | Always-actions absorb all later matching calls | proved | ActionSeq, World | The Always action is a fixed point of a call, for any number of calls; whole programs by `C02_program`. | `C04_always` `C02_program` | C02_program: in whole programs. |
| C05 | A quantity of zero (or below) answers no call | refuted | ActionSeq | Refuted by a witness: the counter of a Repeat passes zero. | `C05_zero_quantity_refuted` | Refuted: an action appended with quantity 0 (or less) repeats forever. |
| C06 | An action that throws is consumed like one that returns | proved | World | Abstract machine: the state after a throwing action is the one after a returning action. | `C06_throwing` `C01_newest_reentrant` | Exceptions other than the library's own NoMoreRecordedActionException. |
| C07 | A call without an accepting stubbing changes nothing but the notification log | proved | World | Abstract machine: only the delivery log and the ordinal counter change. | `C07_unmatched` | Listeners that return; otherwise C56_unsupported. |
| C08 | The history is exactly the calls that found a stubbing, in call order | proved | World | `C08_history`: induction over series of calls and stubbing statements. `C08_any_program`: invariant of the machine (`SpecHistory.v`), every program. | `C08_history` `C08_any_program` | C08_history: exactly which calls, for series of calls and stubbing statements whose actions do not use the library. C08_any_program: order and belonging, for every program. |
| C09 | Invocations are globally ordered by call time across mocks | proved | World | Monotonicity invariant of the concrete model over every operation, nested ones included (`WorldLogic.v`), hypothesis: below 2^32 calls. | `C09_call_order` `C09_wrap_refuted` | All programs of the world model, below 2^32 calls. Beyond that the order breaks, and a later call counts as made earlier. |
| C10 | Concurrent invocations get distinct ordinals | proved | Ordinals | Induction over interleavings; the wrap at 2^32 is refuted by a witness. | `C10_ordinals` `C10_wrap_refuted` | Below 2^32 increments; beyond that the order breaks. |
| C11 | Calls and stubbings on one method do not affect the others | proved | World | Frame lemmas of the machine (`SpecKept.v`). | `C11_others_untouched` |  |
| C12 | Reset returns a mock to its initial behaviour | proved | World | Machine: Reset empties the method table; the answers afterwards are computed from the class (`SpecMocks.v`). | `C12_reset` `C12_at_rest` `C12_unmocked` `C12_destructor` `C12_original` `C13_reset_as_new` |  |
| C13 | A mock that was Reset can be stubbed again like a new one, destructor included | proved | World, Proxy | Bisimulation between a reset mock and a new one (`Spec_Alike.v`, `SpecAlike.v`): every later program has the same results. Refuted for the destructor (offsets reset to 0, the destructor id). | `C13_reset_as_new` `C13_new_as_reset` `C13_made_new` `C13_made_spying` `C45_dispatch` `C13_destructor_after_reset_refuted` `C13_destructor_world_refuted` | Refuted for the destructor: undefined when it is stubbed after Reset and called. For methods proved: every later program has the results it has with a new mock. |
| C14 | ClearInvocationHistory keeps all stubbing | proved | World | Bisimulation up to histories. | `C14_clear` `C14_same_answers` | Data members of library-created objects must be zero (C15). |
| C15 | ClearInvocationHistory changes nothing but the history | refuted | World | Refuted by a program whose data members are zeroed. | `C15_clear_refuted` | Refuted: the data members are zeroed. |
| C16 | A stubbing statement interrupted by an exception commits nothing | refuted | World | Machine: an interrupted statement leaves the stubbings alone. Refuted for an unmentioned method of a wrapped object. | `C16_interrupted` `C16_interrupted_first` `C16_interrupted_spy_refuted` | Refuted: for a method of a wrapped object that was never mentioned, the statement removes the original. In all other cases proved: no stubbing is added. |
| C17 | Fake makes methods return default values forever | proved | ActionSeq, World | Machine: the default action stays (`SpecLasting.v`), any later program. | `C17_fake` | Lists of methods; any later program. |
| C18 | The default value returned for a faked method does not depend on earlier use | refuted | World (`default_value`) | Refuted by a program: a reference default is uninitialised or shared. | `C18_default_reference_refuted` `C18_null_refuted` | Refuted: methods returning references share one object, or have none to refer to. Methods returning values: C17_fake. |
| C19 | A spied call runs the original once and leaves the spy in place | proved | World (`with_original`) | Machine: the spied call runs the original of the class with the entry restored afterwards (`SpecSpy.v`). | `C19_spy` `C19_call` `C19_self_call` | Originals that do not reset or destroy their mock (C59). |
| C20 | Destroying the mock restores the spied object; other objects are never affected | proved | World, VTable | Machine: table pointer and class table are what they were (`SpecMocks.v`). | `C20_restored` `C20_plain_object` `C20_class_stays` | One mock per object; for two see C57. |
| C21 | Assigning a function to a method answers every call with it | proved | World | Machine: the assigned action stays (`SpecLasting.v`). | `C21_assign` | Any later program. |
| C22 | A verified single-method pattern counts the matching invocations | proved | MatchAnalysis, World | Pieces against the occurrence specification; whole statements through `verify_program` (`SpecVerify.v`, `SpecStatement.v`). | `C22_verify` `C22_all_counted` `C22_single_count` `C22_default_verdict` `C22_exact_verdict` | Whole statements in whole programs, any condition, source list and chain of quantifiers; and the pieces. |
| C23 | a + b + c matches exactly contiguous runs | proved | MatchAnalysis | The analysis against the independent definition of a contiguous run (`Spec_Match.v`). | `C23_contiguous` `C23_in_order` |  |
| C24 | The reported match count is the maximum number of disjoint matches | proved | MatchAnalysis, World | Greedy selection is maximal: exchange argument over all selections of disjoint occurrences. | `C24_max_count` `C31_verify` |  |
| C25 | Verification terminates and stays in bounds | proved | MatchAnalysis, World | Defined result (no `UB`, no `NoFuel`) is part of the conclusion of the cited theorems. | `C24_max_count` `C31_verify` |  |
| C26 | s * n is s + s + ... + s | proved | Sequences, World | Algebra of expected lists; length without wrap under the stated bound. A factor below one anywhere in the pattern of a whole statement (`C26_program`). | `C26_repeat_is_sum` `C26_rejects` `C26_length` `C26_program` |  |
| C27 | A successful verification marks exactly the invocations of the counted matches | refuted | MatchAnalysis | Exact set of marked invocations; refuted for patterns of several sequences. | `C27_marks_refuted` `C27_marks` `C27_marks_one_sequence` | Refuted: with several sequences the unfinished last match is marked too. Proved: exactly what is marked for every pattern and history, and the property itself for patterns of one sequence. |
| C28 | A failed verification marks nothing | proved | World, Expectation | Concrete model: a failing release or conversion leaves all marks. Whole statements through the machine. | `C31_verify` `C28_status` `C28_failed_release` `C49_conversion` | C31_verify and C28_status: whole statements; the others: stored verification objects. |
| C29 | VerifyNoOtherInvocations passes iff everything was verified | proved | World | Machine and set specification of sources (`Spec_Verification.v`). | `C29_no_others` | Whole statements in whole programs: mocks, methods with conditions, Unverified(...), nested; with and without conversion to bool. |
| C30 | Verified stays verified | proved | World | Invariant over every operation of the concrete model. | `C30_verified_stays` | Any operation, user code included. |
| C31 | Using(...) and Unverified restrict verification to exactly the chosen invocations | proved | World | Refinement, then the set of invocations a scope designates, defined independently. | `C31_verify` `C22_verify` | Whole statements in whole programs. |
| C32 | Results of verification do not depend on hash-set iteration order | proved | SortInv | Permutation invariance and sortedness for every iteration order. | `C32_sorted` `C32_iteration_order` `C32_union` |  |
| C33 | A verification is performed at most once and not while an exception is in flight | proved | Expectation | Induction over the operations on a verification object. | `C33_life` |  |
| C34 | Converting a verification to bool twice gives the same answer | refuted | Expectation | Refuted by a witness. | `C34_twice_refuted` | Refuted: after a failed conversion to bool the second gives true. |
| C35 | AtLeast(n) succeeds iff there are at least n matches, for every n >= 0 | proved | Expectation | Case analysis against the reading of each quantifier. | `C35_at_least_zero_refuted` `C35_at_least` `C35_negative` `C35_refused` | Refuted for n = 0 (AtLeast(0) acts like Never). Proved for every n >= 1, and that negative arguments are rejected, also in whole programs. |
| C36 | Verification does not change how mocks answer calls | refuted | World | Bisimulation ignoring verification state. Refuted for unmentioned methods of a spied object. | `C36_verify` `C36_objects` `C36_verify_refuted` | Refuted: mentioning an unstubbed method of a spied object in Verify makes it unexpected. For methods mentioned before proved: every later program that does not verify has the same results. |
| C37 | Using(m1,...,mk) accepts a call iff every position accepts | proved | ArgMatchers, InvMatchers | Equivalence with the positionwise reading; `C37_condition` says for every condition when it accepts, rejects or is undefined, and the statements about programs (C01, C22, …) use that meaning (`Spec_Conditions.v`) and not the matcher code. | `C37_condition` `C37_using` `C37_using_defined` `C37_matching` |  |
| C38 | Comparison matchers mean the C++ comparison | proved | ArgMatchers, Values | Against the real-number order of the operands (doubles through Flocq). | `C38_comparison` `C38_int` `C38_bool` `C38_char` `C38_pointer` `C38_eq` `C38_ne` `C38_double` `C38_nan` `C38_std_string` `C38_literal` `C38_literal_pointer_refuted` | Refuted for string literals against const char* parameters written as plain arguments of Using. |
| C39 | String matchers compare C strings up to the first NUL | proved | Values (`strcmp`) | Against the lexicographic order of the parts before the first NUL. | `C39_c_strings` `C39_null` |  |
| C40 | ApproxEq(e, m) is the closed ball of radius m | proved | ArgMatchers | Against the rounded distance (Flocq). | `C40_int` `C40_double` `C40_double_sound` `C40_bad_margin` `C40_double_exact_refuted` | Exact for integers; for doubles the distance is the rounded one. |
| C41 | Matching is unaffected by which stubbing answered the call | refuted | InvMatchers, World | Refuted by a program. | `C41_identity_refuted` | Refuted: the stubbing expression keeps accepting the call after the referenced value changed. |
| C42 | Recorded arguments are the arguments of the call | proved | World, ReturnSet (`positional_leaves`, `placeholders_leave`) | Machine: the record of a call. What is left of an object that was moved from is a parameter of the model (`e_moved`). The refutation is a program that verifies a call answered by ReturnAndSet. | `C42_record` `C42_as_passed` `C42_set` `C42_set_named` `C42_set_refuted` `C42_in_order` `C01_newest` | Refuted for ReturnAndSet(r, v1, ...): it moves from objects passed by value, so that the record no longer shows them. The rest holds; numbers, pointers and references are always kept. |
| C43 | ReturnAndSet assigns positional values to the leading parameters | proved | ReturnSet | Memory before and after, for distinct live targets. | `C43_positional` `C43_undefined` `C43_variable_result` `C43_lvalue_refuted` | Values given as rvalues; lvalues are held by reference. |
| C44 | ReturnAndSet with placeholders assigns to the named parameters only | proved | ReturnSet | Memory before and after. | `C44_placeholders` `C44_undefined` `C44_variable_result` |  |
| C45 | A call through the object reaches the stubbing of the called method | proved | Proxy | Invariant over stubbing orders; refuted for equal ids. | `C45_dispatch` `C45_id_collision_refuted` | With ids distinct per method, as __COUNTER__ gives within one translation unit. |
| C46 | Fake virtual tables are laid out without overlap and within their allocation | proved | VTable | Index arithmetic for both layouts. | `C46_layout` |  |
| C47 | Both destructor entries lead to the stubbed destructor | proved | VTable, World | Index arithmetic for both layouts; for whole programs, from the tables the relation describes. | `C47_destructor` `C47_program` | C47_destructor: both table layouts. C47_program: whole programs, GCC layout. |
| C48 | Listeners are notified in registration order, before the test framework adapter | proved | Events | List induction over configurations. | `C48_delivery` `C48_throwing_listener_refuted` | For listeners that return. |
| C49 | bool-converted verifications report nothing | proved | Expectation, World | Life-cycle induction; concrete model for stored objects. | `C33_life` `C49_conversion` |  |
| C50 | Failure messages show the pattern unambiguously | proved | Format | A printed pattern determines the pattern (parser for the text). | `C50_pattern_text` `C50_method_text` `C50_text_operands_refuted` | For operands that print as single texts. |
| C51 | Failure messages list at most 50 invocations and say so | proved | Format | Structure and number of lines of the report. | `C51_report` `C51_numbers` |  |
| C52 | The shared ownership pointer releases its object exactly once | proved | SmartPtr | Invariant over every operation sequence; a throwing release and a use of a handle that is gone by computation. | `C52_shared` `C52_throwing_assignment_refuted` `C52_after_throw_refuted` `C52_dead_handle` | Refuted when releasing the old object throws inside an assignment. |
| C53 | Re-entrant calls from an action consume actions like sequential calls | refuted | ActionSeq, World | Refuted by witnesses, one of them a whole program. The part that holds by induction over the tree of nested calls (`ReentProofs.v`). | `C53_reentrant_refuted` `C53_reentrant_ub_refuted` `C53_lost_refuted` `C53_program_refuted` `C53_within` | Refuted: a nested call runs the same action again, and a re-entrant action removes actions that were not run. Proved when the action is left over at the end of the outer call: it lasts, or its quantity exceeds the number of calls nested in one another. |
| C54 | Using the same method expression for two stubbing statements is safe | refuted | World | Refuted by programs. | `C54_stored_expression_refuted` `C54_condition_refuted` `C54_reset_refuted` | Refuted: shared actions, double release, use of actions that a Reset released. |
| C55 | Quantity literals mean their number | refuted | ActionSeq (`lit_Times`, `lit_Time`) | Narrowing to int. | `C55_times_refuted` `C55_times` `C55_time` | Refuted: every literal above INT_MAX means another number. Proved for all others, and for n_Time. |
| C56 | An unexpected call always ends in an exception at the call site | proved | World | Machine and concrete model: the call ends in an exception. | `C56_unsupported` `C56_unmocked` | About the calls that enter the library with the right object; C95 says on which platforms and for which result types a call of an unmocked method does. |
| C57 | Two mocks around one object leave the class alone | refuted | World | Refuted by a program. | `C57_two_mocks_refuted` | Refuted: the class's own table is changed. |
| C58 | An action may reset its own mock | refuted | World | Refuted by a program. | `C58_reset_in_action_refuted` | Refuted: undefined when the action is the last run of a counted action. |
| C59 | A spied original may reset the mock that spies it | refuted | World | Refuted by a program. | `C59_reset_in_original_refuted` | Refuted: the object is unusable afterwards. |
| C60 | Stubbing and verification statements work in clean-up code | refuted | World | Refuted by programs. | `C60_unwinding_refuted` | Refuted: such statements silently do nothing. |
| C61 | A verification can be kept in a variable and evaluated later | refuted | World | Refuted by a program. | `C61_stored_verification_refuted` `C61_mock_gone_refuted` | Refuted: reads a released method expression, or a mock that is gone. |
| C62 | Classes with any number of virtual methods can be mocked | refuted | VTable, World | Refuted by a class description. | `C62_many_methods_refuted` | Refuted: more than 1000 entries are undefined. |
| C63 | The value given to Return is the value at the time of the statement | proved | Capture, World | Machine: playback of the recorded values over any later story; the operands are read when the statement is executed. Refuted for references by a program. | `C63_returned_values` `C63_assigned_value` `C63_reference_refuted` | Proved for methods that return by value. Refuted for methods that return a reference: the operand itself is kept. |
| C64 | A method expression kept in a variable means the same each time it is used | refuted | World | Refuted by a program. | `C64_refined_expression_refuted` | Refuted: Using changes the stored expression. |
| C65 | A quantity can be kept in a variable | refuted | Capture | Refuted by a witness. | `C65_stored_quantity_refuted` | Refuted: the quantity refers to a temporary. |
| C66 | Stubbed data members hold their value and are destroyed exactly once | proved | DataMembers | Invariant over operation sequences against a list of optional values, for objects of the library and of the user; what is outside is shown undefined. Refuted by witnesses. | `C66_members` `C66_undefined` `C66_wrapped` `C66_clear_refuted` `C66_twice_refuted` `C66_wrapped_refuted` `C66_assign_refuted` | Proved for objects made by the library when each member is stubbed once between resets, and for objects of the user whose members are not stubbed; uses of members that are not stubbed or of a mock that is gone are undefined. Refuted after ClearInvocationHistory, for a second Stub of a member, for wrapped objects, and for values assigned to what Stub returns. |
| C67 | A mock may be copied | refuted | MockCopy | Refuted by witnesses. | `C67_copy_refuted` `C67_stub_copy_refuted` `C67_stub_after_refuted` | Refuted: copying compiles, and using both mocks is undefined. |
| C68 | A wrapped object may end its life before its mock | refuted | World | Refuted by a program. | `C68_object_dies_first_refuted` | Refuted: the end of the mock writes to the dead object. |
| C69 | Mocks can be used from several threads | refuted | Race | Lists of memory accesses; conflicting pairs are excluded by location for threads that keep apart. Refuted for every pair of calls of one method by an execution without an ordering between the two insertions, and likewise for calls and stubbings. | `C69_threads_apart` `C69_same_method_refuted` `C69_verify_refuted` `C69_first_mention_refuted` `C69_stub_refuted` `C69_stubs_refuted` | Refuted: two calls of one method, a call and a stubbing of it, two stubbings of it, a call and a verification of its mock, and a call and the first mention of a method declared earlier race. Proved for threads whose operations concern different mocks or different methods mentioned before. |
| C70 | A custom event formatter writes the texts | proved | Adapters | Induction over the settings, case analysis over the frameworks. Refuted for Catch for every formatter that differs. | `C70_text` `C70_reset` `C70_catch_refuted` | Proved for all frameworks but Catch. Refuted for Catch, whose adapter ignores the formatter. |
| C71 | Code that catches std::exception does not hide an unexpected call | proved | Adapters, World | Invariant over all operations (`WorldHeard.v`): after a report of an unexpected call, an exception that the handlers do not take is on its way until the program ends; user code by induction over programs. Refuted for TpUnit by a program. | `C71_heard` `C71_tpunit_refuted` | Proved for whole programs under every adapter but TpUnit's, assuming that the own exceptions of Catch, Doctest, Mettle, MsTest and NUnit are not std::exceptions. Refuted for TpUnit, whose adapter throws an exception derived from std::exception. |
| C72 | A failed verification says where | proved | Adapters | Case analysis over the frameworks. Refuted for MsTest, NUnit and QTest: two failures at different places have equal reports. | `C72_places` `C72_no_place_refuted` `C72_wrong_place_refuted` `C72_unexpected` | Refuted for MsTest, NUnit and QTest, which report no place or one inside the adapter. Proved for the others. |
| C73 | A failed verification ends the test | proved | Adapters, World | The invariant of C71 for failed verifications. Refuted by a program for each of the four frameworks. | `C73_stops` `C73_goes_on_refuted` | Proved for whole programs under the adapters that throw. Refuted for GTest, QTest, Doctest and Boost before 1.59, which record the failure and go on. |
| C74 | Calls can be verified after their arguments are gone | proved | World, Reports | A corollary of the theorems on verification in whole programs, whose hypothesis on conditions holds trivially. Refuted by programs. | `C74_without_condition` `C74_verify_refuted` `C74_report` `C74_report_refuted` | Proved for expressions without conditions, in whole programs: nothing is assumed of the memory. Refuted for conditions on arguments and for reports, which read through the dead references. |
| C75 | The report shows the calls with their arguments | proved | Reports (Format on the states of World) | The formatter against inductive relations between values, conditions, patterns and texts (`Spec_Reports.v`); each function is shown to compute its relation. | `C75_sequence` `C75_sequence_empty` `C75_no_more` `C75_unexpected` | Texts are assumed to be of one line each; operator<< of doubles and addresses is arbitrary. |
| C76 | Using(x) accepts the call made with x | refuted | Convert | Arithmetic modulo the size of the common type (`ConvertProofs.v`); for floats Flocq rounding lemmas in both formats (`ConvertFloatProofs.v`); integers with floating point numbers in `ConvertMixedProofs.v`. Refuted by witnesses. | `C76_narrowed_refuted` `C76_float_refuted` `C76_fraction_refuted` `C76_held` `C76_passed` `C76_passed_bool` `C76_wide` `C76_equal` `C76_float` `C76_integer_operand` `C76_floating_operand` `C76_floating_operand_bool` `C76_received` | Refuted: for narrowing conversions, f(300) for a signed char, f(2) for a bool, f(0.1) for a float, f(2.5) for an int. Proved if the parameter type holds the value, or is as wide as int and the operand; exactly which operands are accepted is proved for all integer types, for float parameters with double operands, and for integers with float or double. long double is not modelled. |
| C77 | Comparison matchers compare numbers whatever their arithmetic types | refuted | Convert | Case analysis over the pairs of types, the ranges by linear arithmetic; integers with floating point numbers by the Flocq lemma `binary_normalize_correct` (`ConvertMixedProofs.v`). Refuted by witnesses. | `C77_refuted` `C77_mixed_refuted` `C77_numbers` `C77_signless` `C77_mixed` `C77_mixed_rounded` | Refuted: Gt(3u) accepts -5 for an int parameter; Eq(9007199254740992.0) accepts 9007199254740993. Proved if the common type is signed or neither number is negative; the other case is characterised. Integers with float or double: proved up to 2^24 and 2^53; beyond that the integer counts as the nearest number of the floating point type. |
| C78 | Conditions own their operands, and matchers can be named and reused | refuted | Creators | Induction over operands and programs: dead objects stay dead, conditions are only appended. Refuted for every program that uses a named matcher of a temporary. | `C78_temporary_refuted` `C78_moved_refuted` `C78_inline` `C78_stays` `C78_named` `C78_variables` | Refuted: for a matcher of a temporary kept in a variable (auto m = Gt(5);), every use of which is undefined, and for one of a moved string used twice. Proved for matchers written in the condition and for those of living variables. |
| C79 | Sequences can be put together step by step | refuted | SeqVars | Sequences as objects in cells that refer to other cells; simulation of the values that expressions stand for, with the invariant that references go to older, living cells. Refuted for every program that uses a sequence with a dead part. | `C79_temporary_refuted` `C79_reference_refuted` `C79_outlived_refuted` `C79_variables` `C79_factor` | Refuted: for a kept sequence with an operand that is not a variable (auto s = Method(m, f) + Method(m, g);), for const auto &s = Method(m, f);, and for a sequence that outlives a variable it was made of; every later use is undefined. Proved for programs that make their sequences of variables and end scopes inside out. |
| C80 | Listeners and adapters may use the library | refuted | Listeners | Delivery with listeners that act; the range-based loop is undefined once the vector has changed. Induction over listeners and, for nested events, over a rank that excludes circles. | `C80_register_refuted` `C80_circle_refuted` `C80_nested` `C80_configure` `C80_throws` `C80_uncaught` | Refuted: for a listener that registers or clears listeners (undefined), and for one that raises the event it hears of again (never ends). Proved for the rest: nested events, changes of the adapter, adapters that do anything, and listeners that throw (later ones then do not hear). |
| C81 | Conditions may run any code | refuted | Predicates | The search over the vector of stubbings with reverse iterators whose validity is tracked (moves, pushes, resets), and the verification over a snapshot of pointers. Induction over fuel for nested calls, over a rank of arguments that excludes circles. | `C81_stub_refuted` `C81_reset_refuted` `C81_verify_refuted` `C81_calls` `C81_stub` `C81_stub_room` `C81_verify` `C81_verify_order` `C81_verify_cleared` `C81_uncaught` | Refuted: for a condition that stubs its method and rejects (undefined for the newest stubbing, or when the vector has to move), that resets the mock without throwing, or that clears the history during a verification. Proved for conditions that make calls or throw, that stub and accept, that stub and reject with room left, and for verifications whose condition makes calls. One method of a library-created mock; conditions that verify are not modelled. |
| C82 | A mocked object can be used through its base classes | refuted | Inherit | Classes as trees, laid out as in the Itanium ABI (trusted, not part of the library); the mocked object as a table and zeros, a wrapped one as the compiler made it with its first word replaced. Induction over the path to the base; the layout is shown to be a tiling of the object. | `C82_virtual_refuted` `C82_second_refuted` `C82_wrapped_refuted` `C82_bases` `C82_wrapped` `C82_unwrapped` `C82_check` `C82_layout` | Refuted: the compile-time check lets classes with a virtual base through, and conversion to that base reads a pointer of the mock as a distance; with clang, which has no check, calls through a second base with virtual methods are undefined. The same happens to an object of the user while it is wrapped (C82_wrapped_refuted); it is whole again afterwards (C82_unwrapped). Proved for bases that are reached along non-virtual single inheritance, for objects made by the library and for wrapped ones; layout of classes as in the Itanium ABI, which is an assumption of the model. |
| C83 | A wrapped object keeps its dynamic type and all its methods | refuted | World, Spec_World | The world has an operation that reads the type_info entry of the table an object points to; the relation between world and machine includes that entry, so that it is followed through every operation (`sim_typeid`). The added methods lie behind the array of the copied table. | `C83_type_refuted` `C83_added_refuted` `C83_wrapped` `C83_type` | Refuted: while a mock of a base class wraps an object of a derived class, the object shows the base class, and calling a method that the derived class added is undefined. Proved: before and after, for objects made by the library, and when the mock is of the class of the object, the dynamic type is the class of the object; while wrapped it is exactly the class of the mock. GCC/Clang tables. |
| C84 | Values that cannot be copied reach exactly one call, whole | proved | MoveOnly | Induction over the calls with an invariant that relates the actions left, the answers left and the contents of the shared stores (`stands`): stores still to be used hold their value and occur once. | `C84_moved` `C84_whole` | One stubbing; the move constructor of the value type does not call mocked methods and does not throw. |
| C85 | Wrapping an object reads only the virtual table of its class | refuted | VTable | The entry-wise description of `copyFrom` (`CopyTableProofs.v`) applied to tables of exactly the words the two ABIs prescribe (`compiled` in `Spec_Layout.v`). Refuted for MSVC. | `C85_refuted` `C85_wrapped` `C85_own` | Refuted: with MSVC and a class that has a virtual destructor, the third word in front of the object locator is read, which belongs to something else. Proved for GCC and clang, for MSVC without a virtual destructor, and for objects the library made. |
| C86 | Spying works however the compiler returns objects | refuted | Finally | The guard object of a spied call with an optional clause; every move that the compiler performs leaves an empty guard that is destroyed. Which moves are performed is a list of flags, restricted by the standard (`allowed`). | `C86_cxx17` `C86_refuted` | Refuted: for C++11 and C++14, if the compiler performs one of the three moves, an object that was moved from calls an empty function in its destructor, which ends the program before the original runs. Proved for C++17 and for compilers that elide all three. |
| C87 | FAKEIT_ASSERT_ON_UNEXPECTED_METHOD_INVOCATION stops at the call | refuted | Settings | Event delivery with the macro, on top of `Events.v`; the listeners and the adapter in force are those of the specification of C48. | `C87` `C87_verifications` `C87_refuted` | Refuted: with NDEBUG the macro does nothing, and a listener that throws keeps the assertion from being reached. Proved otherwise. |
| C88 | The object of a mock is fit for its class | refuted | Align | Sizes and alignments of the class and of the block the library allocates, the guarantee of operator new as a predicate on addresses, use at an unsuitable address undefined. | `C88` `C88_refuted` | Refuted: for classes whose alignment exceeds that of operator new (16), the library allocates bytes with the alignment of a pointer. Proved for all others. |
| C89 | Everything the library allocates is released | proved | World | Owners of lists of actions, conditions, bodies and tables are defined in `Spec_Leaks.v`. `WorldLeaks.v` proves by triples over the functions of `World.v` that after every operation all that is allocated has an owner (`LeakProofs.v`: the invariant with lists of what is being handed over); `StmtTemps.v` that a whole statement leaves the expressions and verifications as they were. Not tracked: the storage of mocked objects (the world does not tell objects of the library from those of the program; their release is part of `mock_destroy`), invocation records and closures. | `C89` `C89_reset` `C89_owned` `C89_statement` `C89_refuted` | Proved for all programs of the world model, with the ownership at every moment (C89_owned) and for the temporaries of statements (C89_statement); refuted where a stored expression is given a condition after stubbing with it: then a condition belongs to nobody and destroying the mock is undefined. The storage of mocked objects itself, invocation records and the closures of actions are not tracked. |
| C90 | Tests that keep to the rules are never undefined and always end | proved | World | The rules are the inductive predicates of `Spec_Rules.v`: a plan gives the mocks, which mocks the code answering for each may use, the arguments that may be passed, the states of the user variables and the work that the code of each method may do; user code is checked against it for all results its operations may have. When a mock is destroyed, the part of the plan that may still be used shrinks to a part closed under that relation; `RulesMore.v` shows that what was checked against a plan stays right under one that keeps what it uses. `RulesInv.v` to `RulesProofs.v` prove that the abstract machine answers such tests, by induction on the bound of nesting, with an invariant on what is stubbed, recorded and reserved; the simulation carries it to the library. `RulesClosing.v` runs the operations between declarations and destructions on a machine that can neither store expressions nor make or destroy mocks, so that they leave mocks and expressions as they were; with C89, a test that destroys all of its mocks leaves nothing (`RulesLeaks.v`). | `C90` `C90_released` | For all tests that keep to the rules of Spec_Rules.v; Examples show that breaking a rule leads to undefined behaviour. The rules leave out stored method expressions and verifications, data members of mocks, and predicates and listeners that call the library. |
| C91 | What running out of memory does to a mock | refuted | OutOfMemory | A heap of objects that refer to what they delete, with every allocation asking an oracle whether it fails; constructors, destructors and the unwinding of the stack are written out for one method of one mock. `Spec_OutOfMemory.v` speaks of the objects that are there, the answers and the calls. `OutOfMemoryProofs.v` has rules in the style of separation logic (what a step adds to or takes from the objects, whether it returns or throws), and goes through the allocations at the end of a statement one by one. For the destruction of the mock an invariant says that the objects are those leaked so far, the body, the calls and one tree of owned objects for each answer; it is kept by every statement and call, whatever fails. | `C91` `C91_commit_refuted` `C91_tidy` `C91_tidy_refuted` `C91_callable` `C91_callable_refuted` `C91_call` `C91_call_refuted` `C91_memory` `C91_destroyed` `C91_lost` | Refuted: an answer that cannot be put into the mock is deleted twice (undefined); a failure before the expression is there, and one of an argument matcher, leaks; a failed first mention makes later calls undefined; a call may be remembered though unanswered, and may end the program. Proved: everywhere else the mock is as it was, statements that succeed add exactly their answer, failures after When(...) leak nothing, mocks of mentioned methods stay callable, and no answer is used up by a call that runs out of memory; a call that is answered changes only what it takes; destroying the mock at the end of any test is defined and frees everything if no statement threw. One method of one mock. |
| C92 | Verifications that are interrupted | refuted | OutOfMemory, Interrupted | The heap of C91 with verifications, their groups of sources and the marks of calls; the search of MatchAnalysis, the quantifiers, the conversion to bool, the destructors and the unwinding of the stack are written out, and predicates may throw for any call. `Spec_Interrupted.v` says what is found by the occurrences of `Spec_Match.v`, and what a passing verification marks. Rules as for C91: each part of the search leaves the objects as they are, whether it returns or throws; a scope of expressions gives back what it made. That an interrupted statement leaks nothing once its verification is there is proved by comparing it with one whose later exceptions are of another kind. The invariant of C91 for whole tests is kept under marking. | `C92` `C92_tidy` `C92_tidy_refuted` `C92_variable` `C92_variable_refuted` `C92_end` `C92_other` `C92_other_tidy` `C92_memory` `C92_destroyed` | Refuted: if the last allocation before the verification is there fails (the counter of smart_ptr), or one while its expressions are made, what was made so far leaks; a verification in a variable that was interrupted when it was converted to bool says true when asked again and reports nothing at its end. Proved: everything else, for patterns of any expressions of one method of one mock, for statements, for verifications in variables and for VerifyNoOtherInvocations: they are defined, mark all calls or none, pass only if the quantifier in force is met, leave the mock as it was if they throw, leak only what is said above, and mocks can be destroyed afterwards. The numbers of allocations made for a std::unordered_set or std::vector are those of one per element. |
| C93 | A mock can be used in several source files | refuted | Proxy, SourceFiles | Source files as lists of expansions of `__COUNTER__`, mentions as positions in them, handlers with their signature (a cast to another one is undefined). `Spec_SourceFiles.v` says what a call should reach from the methods mentioned since the last Reset only. Invariant: which number each entry is bound under; a call reaches the first entry with the number of the called one. | `C93_files` `C93_one_file` `C93_refuted` | Refuted: __COUNTER__ starts anew in every file, so two methods of one mock that are mentioned in two files (or in two instantiations of a function template) may get the same number; then calls of the one are answered by the stubbings of the other, or, if the signatures differ, are undefined. Proved: if no two executed mentions with the same number designate different methods of the mock, and so always within one file without such templates, calls reach the stubbings of the called method and no others. |
| C94 | Mocks can be global variables | refuted | Globals | The objects with static storage duration as a stack in the order of their construction, per file whether the variables of the headers are initialised, initialisers, main and destructors as code that uses the library. `Spec_Globals.v` lists what code reads and uses, and says when a program is orderly. Invariant: what an object needs lies below it in the stack. Termination: each destructor brings about at most what it mentions. | `C94_orderly` `C94_ends` `C94_outlived` `C94_runs` `C94_one_file` `C94_no_variables` `C94_refuted` `C94_exit_refuted` | Refuted: a global mock is undefined if the linker keeps the copy of its constructor of a file that is initialised later (the constructor names a variable of its file); at the end of the program, default values of class types and the name of unmentioned methods are gone for destructors of variables that are older than their first use, and the library is gone for variables that are older than it. Proved: programs that avoid these cases never use anything of the library outside its lifetime, among them all programs of one file whose destructors do not use such values and all programs whose mocks are local; every program comes to its end, destroys everything once, and mocks before what they report to. |
| C95 | Mocked methods may have any signature | refuted | CallConv | Caller and callee as two functions: the caller places object, address of the result and arguments by the type of the method, the callee picks them up by its own type; eight platforms. `Spec_CallConv.v` lists which platforms pass the address first, which results need one, who destroys parameters. Proved: with one type on both sides `enter` undoes `place` (so proxies receive everything), what `unmocked` takes for its object on each platform, the two destructor entries with the helper between them. The rules of the platforms are taken from their documents (in the trusted base); registers for floating point and the split between registers and stack are not modelled. | `C95_stubbed` `C95_unmocked` `C95_refuted` `C95_args_refuted` `C95_destructors` `C95_delete_refuted` `C95_free` | Refuted: every entry not mentioned holds the one function void unmocked(); where the address of a result in memory is passed before the object (x86-64 and i386 Linux, 32-bit ARM, 64-bit MinGW) a call of an unmocked method that returns e.g. std::string takes the place of the result for the object and is undefined (C95_refuted); with MSVC such a call leaves objects passed by value undestroyed (C95_args_refuted); with 32-bit MinGW delete of an object with a stubbed destructor calls the proxy by the wrong convention (C95_delete_refuted). Proved: stubbed methods and explicit destructor calls on every platform, unmocked methods in all other cases, delete elsewhere. |
| C96 | A method macro means the method that was written | refuted | Overloads | The rules of C++ for the address of an overload set, as far as the macros use them: trial deduction for each of the eight templates `Mock::stub`, ambiguity, selection by a target type. `Spec_Overloads.v` says which sets C++ admits, which method is alone with its qualifiers and what a macro with a prototype writes down. That compilers follow these rules is in the trusted base; no compiler was run. | `C96_prototype` `C96_every` `C96_method` `C96_single` `C96_two` `C96_refuted` `C96_undefined_refuted` `C96_volatile_refuted` | Refuted: with three or more methods of a name, Method(mock, f) can silently mean one of them: void f(int), void f(double), void f() const gives f() const, because the templates Mock::stub for the other qualifiers drop out (C96_refuted); it may even be one that is not virtual (C96_undefined_refuted); a volatile method beside another of its name is meant by no macro (C96_volatile_refuted). Proved: the macros with prototypes mean exactly what is written, every method that is not volatile has exactly one of them, Method on a name with one or two methods, and exactly when Method means what. |
| C97 | Values given to a mock may use mocked objects when they are destroyed | proved | Departing | Mocks with the elements of `_methodMocks` as empty, alive or dead, the stage of the destructor of the mock, and values whose destructors are lists of calls and deletes; `destroy_mock`, `reset`, `clear_history` run the destructors at the points where the code destroys the values. `Spec_Departing.v` tells the story (`goes`) from the world before alone: what each act means there and which acts are undefined; a simulation shows that the steps tell this story in both orders of destruction. Calls made by destructors have no arguments; destructors make no mocks, stubbings or verifications. | `C97_end` `C97_end_story` `C97_end_own` `C97_reset` `C97_reset_story` `C97_clear` `C97_clear_story` `C97_clear_empty` `C97_end_refuted` `C97_reset_refuted` `C97_clear_refuted` `C97_clear_empty_refuted` | Refuted in part: Reset is undefined if the destructor of a kept value calls a stubbed method of the same mock that Reset has emptied or is emptying (C97_reset_refuted); ClearInvocationHistory is undefined if an argument recorded with a call calls the same method (C97_clear_refuted), and calls made by such destructors to other methods of the mock may remain in the history (C97_clear_empty_refuted); destroying a mock ends the program if such a destructor calls a method of the mock's own library-made object, stubbed or not (C97_end_refuted). Proved: destroying a mock is never undefined, deleting its own object is ignored; Reset and ClearInvocationHistory are defined otherwise; and exactly what happens in every case, including to the other mocks. |
| C98 | A mock that cannot be made leaves nothing behind | proved | Making | `make_mock` follows the constructors of MockImpl, FakeObject, DynamicProxy and VirtualTable (three layouts) allocation by allocation; `guard` runs the destructors of what is constructed when a step throws; `free` of what is not allocated is undefined. `Spec_Making.v` counts the allocations and lists what is lost for each (`lost`). Proved by normal forms of each constructor for success and for failure at each position; the heap before is a prefix of the heap after, so nothing else is touched. Refuted in part: the clone of the table is lost if one of the last two allocations fails. Reset is not here: it assigns an initializer list to vectors that have the capacity (MockImpl.hpp:58-66, DynamicProxy.hpp:87-93), so it allocates nothing. | `C98_made` `C98_unmade` `C98_unmade_gnu` `C98_unmade_refuted` `C98_clear` `C98_clear_when` `C98_member` `C98_member_when` | Refuted in part: if the storage of one of the two vectors of the proxy cannot be allocated, the clone of the virtual table is lost (C98_unmade_refuted; DynamicProxy.hpp:68-77, the destructor of VirtualTable does not dispose); with MSVC also pieces of tables whose making fails half way; C98_unmade says exactly what is lost for each failing allocation. The rest is proved: the object is as before, destroying a mock releases everything (C98_made), clear is all or nothing (C98_clear), a data member is owned or not constructed (C98_member). |
| C99 | typeid and dynamic_cast see the object of a mock as an object of its class | proved | Rtti | `new_hierarchy` follows addBaseClass with its array and counts, indeterminate elements being undefined to read; `accepted` is the static_asserts; `typeid_of`, `cast`, `cast_void` say how the run time library of MSVC reads the structures (trusted: its search of the base class array by numContainedBases, and that a locator outside any module has image base 0 on 64 bit). Normal form of the array by induction; the search is characterised by the order in the list; the rest is reasoning about classes with one base each. `C99_found` uses the tables of `VTable.v`. Refuted for lists that leave out a base and for 64 bit. | `C99_found` `C99_typeid` `C99_listed` `C99_object_or_null` `C99_accepted` `C99_cast` `C99_cast_refuted` `C99_64_refuted` | Refuted in part, for MSVC: a base class that is not listed in Mock<C, ...> cannot be cast to C (C99_cast_refuted), and for 64 bit there is no type information at all: typeid and dynamic_cast throw std::__non_rtti_object (C99_64_refuted). Proved: GCC/clang and MSVC 32 bit find the structures whatever is done to the table (C99_found), typeid is the class (C99_typeid), and with all bases listed every dynamic_cast is as C++ says (C99_cast). dynamic_cast of GCC/clang reads structures of the compiler only (Inherit.v). |
| C100 | Fake, Spy and assignments that run out of memory answer for the first of their methods and leave the mock usable | proved | AtOnce | `expressions` makes the temporaries of the full expression, `at_once_all` appends and commits them one by one, with the unwinding of each step written out (committed expressions are destroyed with their flag set); on top of the heap of `OutOfMemory.v`. Induction over the expressions with the triples of `OutOfMemoryProofs.v`; a failed commit leaves a heap in which the matcher or the sequence is gone, and destroying the expression is undefined. `mixed` interleaves such statements with those of `session`. Not modelled: expressions of different methods or mocks in one statement, which do not share anything but the order. | `C100` `C100_tidy` `C100_commit_refuted` `C100_callable` `C100_memory` `C100_destroyed` `C100_all_refuted` | Refuted in part: it is undefined if one of the four allocations fails with which an answer is put into the mock, because the expression then deletes what was already deleted (C100_commit_refuted, MethodMockingContext.hpp:94-101, 135-138); and a statement with several expressions is not all or nothing (C100_all_refuted). Proved: otherwise it answers for all, or throws with complete answers for a first part of the expressions and nothing else changed (C100), without leaks once the expressions are made (C100_tidy); the mock stays callable if the method was mentioned before (C100_callable), and a test that gets to its end can destroy it, with nothing left if nothing threw (C100_destroyed). |
| C101 | Arguments with an operator<< of their own print themselves into reports | proved | Printing | `run` is the code of an operator<< acting on a stream of its own (`print_value`); a state and exception monad carries the recorded calls, the number of times they were cleared (plain pointers into the history are checked against it) and what was printed, told and reported; calls nest by fuel. The specification reads off a printer what it shows, what it throws and which calls it makes (`shown`, `throws`, `made`), and puts texts together with the functions of `Format.v`; a predicate `prints` (this computation prints these values, and gives this) composes over all formatting functions. For arbitrary printers: invariants over the same functions (`grows`, `safe`, `ends`). Not modelled: Reset or new stubbings inside operator<<; verifications inside it; listeners that act (C80); allocation failures. | `C101_call` `C101_unmocked` `C101_verify` `C101_no_other` `C101_quietly` `C101_quietly_other` `C101_read` `C101_defined` `C101_history` `C101_ends` `C101_ends_refuted` `C101_history_refuted` `C101_hidden_refuted` `C101_clear_refuted` | Refuted in part: calls that operator<< makes while a report is written are recorded, so that a failed verification can make a later one fail that would have held (C101_history_refuted); an unexpected call inside operator<< hides the one that was to be reported (C101_hidden_refuted), and one with the value that is being printed recurses without end (C101_ends_refuted); clearing the history inside operator<< makes the report of a verification undefined (C101_clear_refuted). Proved: the exact text, or the first exception, and the exact state after a report, for printers that call only methods that answer; for all others that earlier records stay, that calls are never undefined, and nothing else is unless the history is cleared; that the nesting ends if printers call methods with simpler values only. |
| C102 | Method expressions can be kept across a Reset | proved | Kept | A test is a list of statements; `body_of` looks the record of a method up and makes one if there is none, `match_all` does so for each call compared, `cond_of` is undefined once the record that owns the condition is gone, `call_text` if the record that a call refers to is gone. The specification reads everything off the statements before: the stubbings since the last Reset, the recorded calls and marks, whether the library has a record of a method, and its name. Refinement: a representation invariant (records as known, ids distinct, calls with the id of their record) is kept by each statement; kept and new expressions, and verifications with and without effect, are then compared in the specification (a relation of histories that differ in marks only). | `C102_story` `C102_as_new` `C102_counts` `C102_quiet` `C102_quiet_refuted` `C102_stubbed_refuted` `C102_at_least_zero_refuted` | Refuted in part: an expression that a stubbing statement was written with is undefined to verify once a Reset has undone the stubbing (C102_stubbed_refuted; the condition belongs to the record of the method, MethodMockingContext.hpp:96-100, 135-138); a verification through an expression kept across a Reset makes an unstubbed method of a wrapped object unexpected (C102_quiet_refuted, MockImpl.hpp:314-323). Proved: under these rules (keeps) every test runs defined and each statement tells what the text of the test says (C102_story); kept expressions verify like new ones (C102_as_new, C102_counts); other verifications change nothing that later statements tell but VerifyNoOtherInvocations (C102_quiet). |
| C103 | Reports name the methods as the test wrote them | proved | Kept | The refinement of C102; in a test that uses each expression before the next Reset of its mock, every method with a record was written since, so the name kept in the record is the last one written (`spoken`). The names given by the compiler are a parameter about which nothing is assumed. | `C103_names` `C103_refuted` `C103_overloads_refuted` | Refuted in part: an expression kept across a Reset is reported by the name the compiler has for the type of the method (C103_refuted, MockImpl.hpp:334-338); overloads have the same name (C103_overloads_refuted, api_macros.hpp:34-50). Proved for tests that use each expression before the next Reset of its mock: all reports name methods as they were written last, for all compiler names. |
| C104 | What reports show for an argument of each type | proved | Shown | Model of the choice: the specialisations of Formatter, is_ostreamable, and overload resolution of `os << val` over the candidates of std::ostream per version of C++ with the ranks of conversions. Spec: a table `looks` by type and version, and a relation `text_of` between kind, value, memory and text. `resolve_prints`: resolution gives the table, by cases over the types; texts by cases. | `C104_texts` `C104_bytes_refuted` `C104_distinct_refuted` | Refuted in part: numbers of type unsigned char are shown as a character (C104_bytes_refuted); different function pointers are shown alike (C104_distinct_refuted). Proved: for every type, way of passing, version of C++, value and memory the text is the one of a table stated without Formatter and overload resolution. |
| C105 | Methods with parameters of any type can be stubbed | proved | Shown | From the table of C104: resolution that ends in a deleted function while is_ostreamable is true is an error; a volatile object does not bind to the parameter of format. Whether a test compiles is modelled only as far as the showing of arguments decides it. | `C105_compiles` `C105_refuted` | Refuted in part: a method with a parameter const wchar_t* can be stubbed as C++17 and not as C++20, since is_ostreamable is true for all pointers and arithmetic types and their operator<< is deleted (C105_refuted). Proved: exactly which parameters do not compile. |
| C106 | Making a report looks at nothing but the arguments | proved | Shown | From C104: the kinds other than texts and stream buffers have a text for all memories; for the others a dangling pointer is a witness. | `C106_harmless` `C106_harmful` `C106_refuted` | Refuted in part: a report about const std::uint8_t* reads bytes up to a zero and is undefined without one or for null (C106_refuted, C106_harmful for all such types). Proved for all other types: the report is defined whatever the memory is. |
| C107 | Throw(x) throws what throw x; would | proved | Thrown | Model: lambdas that hold copies of the static type, arrays or addresses, in actions that exist until Reset; exceptions are copies, or addresses into the action. Spec: an account that writes down at each Throw what `throw x;` would throw, and texts with the number of Resets at their birth. Simulation (`step_sim`): queue and account correspond, actions have different numbers, a text of the present is found in its action. | `C107_story` `C107_defined` `C107_like_throw` `C107_own_class_refuted` `C107_texts_refuted` `C107_always_refuted` | Refuted in part: the text of Throw of an array is gone with the actions of the mock (C107_texts_refuted), AlwaysThrow of an array keeps its address for methods without a result (C107_always_refuted, StubbingProgress.hpp:279), and objects are cut to their static type as with throw (C107_own_class_refuted). Proved: all tests that do not read a text after a Reset tell what an account of the statements says, and handlers catch what they would catch of throw x; in place. |
| C108 | Methods whose parameters cannot be copied | proved | Copied | Model: the trait and its look into std::vector, the choice between the two functions, the static_assert, and the bodies of copy constructors that are compiled. Spec: `made_of` and `deleted` as relations on types. The rules of std::is_copy_constructible are trusted. Nothing else that may keep a test from compiling is in this model. | `C108_spy` `C108_spy_says` `C108_spy_runs` `C108_aborts` `C108_stub` `C108_forward` `C108_plain` `C108_refuted` `C108_more_refuted` | Refuted in part: a method with a by-value std::list of std::unique_ptr, or a class with a std::vector of them as a member, cannot be stubbed (C108_refuted), and a further move-only parameter mends it (C108_more_refuted). Proved: exactly which methods can be spied and stubbed, and when the message of the static_assert is given. |
| C109 | What an expression means in Method(mock, f)(...), Using and Matching | proved | Forms | Model: the candidates as declared, with the conversion of the expression to the parameter of each, and a general function `resolve` for the best one. Spec: relations `directly`, `by_class`, `callable`, `compares` on types and expressions, without ranks or candidates. The rules of overload resolution and conversions are trusted. Matchers and whether == compiles otherwise are not in this model. | `C109_one` `C109_other` `C109_several` `C109_meaning` `C109_using` `C109_using_other` `C109_matching` `C109_null_refuted` `C109_empty_refuted` `C109_bool_refuted` `C109_using_refuted` | Refuted in part: nullptr for a smart pointer (C109_null_refuted), empty predicates (C109_empty_refuted), predicates for bool (C109_bool_refuted), Using(predicate) for one parameter (C109_using_refuted). Proved: what every expression means for every list of parameters, and that values and functions that fit are never mistaken for each other. |
| C110 | Method(mock, f) = x answers with the function or the value x | proved | Forms | The same `resolve` for the three operator= (the deleted one takes part, since MockingContext has a constructor from a pointer); what calls do then is read off RepeatForever, where an empty std::function throws. | `C110_assign` `C110_void` `C110_calls` `C110_braces_refuted` `C110_misfit_refuted` `C110_null_refuted` | Refuted in part: = {} for classes (C110_braces_refuted), lambdas that do not fit for bool (C110_misfit_refuted), nullptr for smart pointers (C110_null_refuted). Proved: what every expression means for every result type, and what calls then do. |
| C111 | Return of a braced list returns its value | proved | Forms | The same `resolve` for the two Return that can take a list of two: one is a template, the other, of Quantifier, is not and so is preferred. n is not negative in this model. | `C111_pair` `C111_calls` `C111_refuted` | Refuted in part: Return({n, x}) means n_Times(x) if x converts to the result (C111_refuted). Proved for the other results, and for AlwaysReturn. |
| C112 | A verification asks each condition about each call a bounded number of times, in order | proved | Asked | The search of MatchAnalysis.v once more with the memory of the conditions passed through and a list of all questions (which the code does not keep), indices as natural numbers. Spec: `dialogue` says that the questions were really put to the conditions in this order with these answers, `before` and `place` speak of positions only; for steady conditions the count is `max_occurrences` of Spec_Match.v, as in C24, so the two models agree. Single methods with predicates that stub, clear or reset are C81. | `C112_questions` `C112_bounded` `C112_once` `C112_one` `C112_steady` `C112_twice_refuted` `C112_again_refuted` | Refuted in part: the same predicate may be asked about the same call twice (C112_twice_refuted), and predicates with a memory may count differently the second time (C112_again_refuted). The rest is proved for all conditions with a memory, throwing or not. |
| C113 | Arguments are moved into the record once and not copied | proved | Passing | Objects have places; every variable of a function on the way is initialised by the rules of the language from an expression with a category (a reference that does not bind is the outcome NotCompiled, an object that is gone is Undefined), and each move and copy is written down. Spec: `usable` says what the caller guarantees, `stand_for` and `moves` compare places, values and the list of moves position by position. Objects of one call are made from left to right (the language leaves this open). | `C113_function` `C113_spy` `C113_without_verify` `C113_exceptions` `C113_without_verify_refuted` `C113_recorded_refuted` | Refuted in part: SpyWithoutVerify leaves moved-from objects in the record (C113_without_verify_refuted), and a spied call whose arguments cannot be copied because of an exception is recorded although the original did not run (C113_recorded_refuted). The rest is proved. |
| C114 | A call is compared from left to right, newest stubbing first, and no further than needed | proved | Compared | The search for the answering stubbing, for_each with MatchingLambda and the collection of Using(Method(...)...), with the memory of the operators and predicates passed through and a list of everything that ran (which the code does not keep). Matchers without code of the user may be undefined. Spec: `ran` says that the listed code really ran in this order; `weighed` says position by position what was compared and what came of it, `decided` goes through the stubbings newest first, `guarded` names a refusing position with defined ones to its left. One method; code of the user that uses the mock is in Predicates.v. | `C114_condition` `C114_ends` `C114_call` `C114_once` `C114_guard` `C114_chosen` `C114_right_refuted` `C114_newer_refuted` | Refuted in part: a position that refuses does not protect what stands to its left (C114_right_refuted), nor does an older stubbing protect against an undefined comparison of a newer one (C114_newer_refuted). The rest is proved for all operators and predicates with a memory, throwing or not. |
| C115 | Conditions and actions may verify | proved | Within | The code of predicates and actions is a tree of verifications that branches at their answers; asking a condition runs its tree, which asks conditions again, with a bound on the depth (beyond it the outcome is NoFuel). What each verification saw is written down. Spec: `later` says which calls were seen, that none changed, and exactly which became verified; `polled` and `turns` say in which state and order conditions are asked; `below` ranks the conditions so that the nesting ends. One method; verifications of one condition, converted to bool (a statement that throws is a tree that throws at the answer no). | `C115_verification` `C115_check` `C115_steady` `C115_no_other` `C115_call` `C115_turns` `C115_ends` `C115_verify_ends` `C115_others` `C115_own` `C115_self_refuted` `C115_counts_refuted` | Refuted in part: a condition that verifies itself never ends (C115_self_refuted), and the conditions of a call do not count that call (C115_counts_refuted). The rest is proved, for one method and verifications of one condition each. |
| C116 | Function objects keep their own state | proved | FnState | A memory of function objects, with every copy made by passing std::function by value and the destruction of every parameter; using or destroying a destroyed object is undefined. The actions of ActionSeq.v hold addresses in it. Spec: a machine without memory in which every link owns a value made at the statement or names an object of the test. The theorem on all tests compares the two, and counts the objects that are alive; the number of copies ever made is counted separately. Simplified: stubbings without a condition; copies do not throw and keep the state; the function does not use the mock. | `C116_meaning` `C116_own` `C116_memory` `C116_apart` `C116_together` `C116_each` `C116_copies` `C116_times_refuted` `C116_released_refuted` | Refuted in part: for a function with a memory Do(f, f) is not Do(2_Times(f)) (C116_times_refuted), and a function object that has answered its last call is not destroyed before Reset (C116_released_refuted). The rest is proved, for stubbings without a condition of one method and functions that do not use the mock. |
| C117 | Memory that is used again does not confuse verifications | proved | Reuse | Matcher objects have an address, chosen by an arbitrary memory manager among those not in use, and an identity that decides whether using a pointer is undefined; == compares addresses only. Spec: a machine in which expressions have numbers that are never used again, and `None` for what is against the rules. The theorem says that every test that keeps to the rules shows the same in both, for every memory manager and for conditions that may answer differently each time. One method; verifications of one condition; expressions in variables are not copied. | `C117_meaning` `C117_managers` `C117_counts` `C117_own` `C117_exist` `C117_gone` `C117_repeated_refuted` `C117_honest_refuted` | Refuted in part: a verification by a condition with a memory cannot be repeated with the same count (C117_repeated_refuted); C117_gone and C117_honest_refuted show that the rules in the statement are needed. The rest is proved, for one method and verifications of one condition each. |

## 5. Trusted base

* Coq's kernel.
* The axioms listed by `Print Assumptions`, see below.
* The reading of the C++ text given by the definitions, with the simplifications
  stated at each.
* Compiler facts the library itself assumes: virtual tables are arrays of entries, a
  virtual call reads entry k of the table the object points to, classes use single
  inheritance.  `Inherit.v` lays out classes with several or virtual bases as the Itanium
  ABI does.  The whole-program model uses the GCC layout; the MSVC layout is
  modelled in `VTable.v` only.
* The C++ standard library behaves as specified.

`Print Assumptions` stands at the end of each `P_*.v` file.  It prints "Closed
under the global context" for every theorem except these, which use the real
numbers of the standard library through Flocq:

| theorem | axioms |
|---|---|
| `C38_double`, `C40_double`, `C40_double_sound`, `C76_float`, `C76_integer_operand`, `C76_floating_operand`, `C76_floating_operand_bool`, `C77_mixed`, `C77_mixed_rounded` | `ClassicalDedekindReals.sig_not_dec`, `ClassicalDedekindReals.sig_forall_dec`, `FunctionalExtensionality.functional_extensionality_dep`, `Classical_Prop.classic` |
| `C38_nan`, `C40_bad_margin`, `C40_double_exact_refuted`, `C76_float_refuted`, `C76_fraction_refuted`, `C76_received`, `C77_mixed_refuted` | `ClassicalDedekindReals.sig_forall_dec`, `FunctionalExtensionality.functional_extensionality_dep` |

## 6. What is not modelled

* Template machinery resolved at compile time, except the choice between overloads in
  `Overloads.v`: `static_assert`,
  implicit conversions between argument types (arguments have the type of the
  parameter), except between the integer types, float and double (`Convert.v`).
* How the run time library of MSVC really searches the RTTI structures (`Rtti.v` has it as documented).
* Data members and copies of mocks inside whole programs (they are pieces of their own).
* The console logger (`DefaultEventLogger.hpp`) and `Functional.hpp`, which nothing in the library uses.
* What the test frameworks do with what the adapters tell them.  Their macros and
  functions are taken as documented (see `handle` in `Adapters.v`).
* Concurrency, except for the ordinal counters and the lists of memory accesses of C69.
* Several translation units, except in `SourceFiles.v` and `Globals.v`.
* User predicates, listeners and adapters that call back into the library inside whole
  programs (C80, C81 and C115 are pieces of their own).
* `noexcept` methods: an unexpected call, or Throw, lets an exception leave a function that
  the compiler may take not to throw.
* Reuse of addresses of released objects, except of matchers (`Reuse.v`). The addresses of
  recorded calls are compared too, in sets that live for one verification.
* Failing allocations outside `OutOfMemory.v`, `AtOnce.v`, `Interrupted.v` and `Making.v`; in particular in
  the making of reports.

## 7. Tests of the theorems

`seeded/LOG.jsonl` has one line per wrong program that was tried against the theorems:
the definition edited, the edit, the property it contradicts, the lemmas whose proofs
then failed, the theorems that depend on them, and what was strengthened when nothing
failed.  The edits were made in a scratch copy.
