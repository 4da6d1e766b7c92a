{"id": "C01", "title": "Newest matching stubbing answers a call", "statement": "When a mocked method is called, the call is answered by the most recently committed stubbing of that method whose argument condition accepts the call's arguments; no older stubbing is run, consumed or otherwise changed, and newer stubbings that do not accept the arguments are unchanged too.", "quantifier": "every list of stubbings recorded for a method, every argument list, every state of the remaining actions", "why_tests_cant": "the number of stubbings and the pattern of overlapping conditions is unbounded; a test fixes one small list", "anchors": ["include/fakeit/RecordedMethodBody.hpp:71-81", "include/fakeit/RecordedMethodBody.hpp:110-115", "include/fakeit/RecordedMethodBody.hpp:126-150"]}
{"id": "C02", "title": "Actions of a stubbing are played back in order, each the stated number of times", "statement": "The answers given by one stubbing to its successive matching calls are exactly the recorded actions in recording order, an action recorded as Return/Do/Throw once, an action recorded with a quantity n>=1 exactly n times in a row.", "quantifier": "every finite list of actions with every positive quantity, and every number of matching calls", "why_tests_cant": "the claim is about all action lists, all counts and all call numbers", "anchors": ["include/fakeit/ActionSequence.hpp:40-54", "include/fakeit/ActionSequence.hpp:75-78", "include/fakeit/Action.hpp:32-55", "include/fakeit/StubbingProgress.hpp:45-165"]}
{"id": "C03", "title": "An exhausted stubbing makes the call unexpected and never falls back to an older stubbing", "statement": "Once every action of the newest matching stubbing has been used up, each further matching call ends in UnexpectedMethodCallException, leaves the stubbings as they are, and no older stubbing of the method (even one that would accept the arguments) is consulted. The failed call is nevertheless part of the invocation history.", "quantifier": "every stubbing list, every exhausted sequence, every argument list, every number of further calls", "why_tests_cant": "absence of fallback has to hold for every older stubbing and every later call", "anchors": ["include/fakeit/ActionSequence.hpp:58-73", "include/fakeit/RecordedMethodBody.hpp:126-150"]}
{"id": "C04", "title": "Always-actions absorb all later matching calls", "statement": "When the next action of a stubbing is AlwaysReturn / AlwaysDo / AlwaysThrow, every later call served by that stubbing gets that answer and the stubbing state never changes again; actions recorded after it are never run.", "quantifier": "every action list containing an always-action, every number of later calls", "why_tests_cant": "unbounded number of calls", "anchors": ["include/fakeit/Action.hpp:58-76", "include/fakeit/ActionSequence.hpp:40-54"]}
{"id": "C05", "title": "A quantity of zero (or below) answers no call", "statement": "An action recorded with 0_Times (or Times<0>, or a literal that narrows to a non-positive int) is skipped: it answers no call.", "quantifier": "every non-positive quantity", "why_tests_cant": "the behaviour shows only after many calls (the action never becomes done), a test sees a finite prefix", "anchors": ["include/fakeit/Action.hpp:32-55", "include/fakeit/Quantifier.hpp:15-83", "include/fakeit/StubbingProgress.hpp:45-165"]}
{"id": "C06", "title": "An action that throws is consumed like one that returns", "statement": "If an action of a stubbing ends with an exception, the exception reaches the caller of the mocked method unchanged and the stubbing advances exactly as if the action had returned.", "quantifier": "every action list, every position at which the throwing action stands, every exception other than the library's own internal end-of-sequence signal", "why_tests_cant": "exceptional exits at every position of every list", "anchors": ["include/fakeit/ActionSequence.hpp:40-54", "include/mockutils/Finally.hpp:15-35", "include/fakeit/StubbingProgress.hpp:92-120"]}
{"id": "C07", "title": "A call without an accepting stubbing changes nothing but the notification log", "statement": "A call to a mocked method for which no stubbing accepts the arguments raises UnexpectedMethodCallException after notifying the event listeners and the test-framework adapter; no stubbing is consumed, and the call is not added to any invocation history.", "quantifier": "every stubbing list, every argument list rejected by all of them, every listener list", "why_tests_cant": "non-interference with all the rest of the state cannot be observed exhaustively", "anchors": ["include/fakeit/RecordedMethodBody.hpp:126-150", "include/fakeit/FakeitContext.hpp:24-43"]}
{"id": "C08", "title": "The history is exactly the calls that found a stubbing, in call order", "statement": "After any series of calls, the invocation history of a method consists of exactly those calls that found an accepting stubbing (including calls whose action threw or whose stubbing was exhausted), in the order in which they were made, with the arguments of the call.", "quantifier": "every series of calls and stubbing statements on the method", "why_tests_cant": "arbitrary interleavings of stubbing and calls", "anchors": ["include/fakeit/RecordedMethodBody.hpp:126-164", "include/fakeit/ActualInvocation.hpp:28-68"]}
{"id": "C09", "title": "Invocations are globally ordered by call time across mocks", "statement": "The ordinal attached to an invocation is strictly larger than that of every invocation started before it, on any mock, as long as fewer than 2^32 invocations are made in the process; the order used by verification across several mocks is therefore the order in which the calls were started.", "quantifier": "every history of API operations and calls on any number of mocks, including calls made from within stubbed actions", "why_tests_cant": "unbounded histories, nested calls, counter wrap-around", "anchors": ["include/fakeit/Invocation.hpp:23-26", "include/fakeit/SortInvocations.hpp:20-31"]}
{"id": "C10", "title": "Concurrent invocations get distinct ordinals", "statement": "If several threads start invocations concurrently (on different mocks), no two of them receive the same ordinal, and each thread sees increasing ordinals, whatever the interleaving, as long as fewer than 2^32 invocations are started in total.", "quantifier": "every number of threads, every per-thread number of invocations, every interleaving of the counter operations", "why_tests_cant": "thread schedules cannot be enumerated by tests", "anchors": ["include/fakeit/Invocation.hpp:23-26", "include/fakeit/DomainObjects.hpp:27-30"]}
{"id": "C11", "title": "Calls and stubbings on one method do not affect the others", "statement": "A call to, or a stubbing of, one method of one mock leaves the stubbings, the remaining actions and the invocation history of every other method and every other mock unchanged, provided the executed action itself does not touch them.", "quantifier": "every state, every pair of distinct methods/mocks, every call with a non-re-entrant action", "why_tests_cant": "frame condition over all other objects", "anchors": ["include/fakeit/RecordedMethodBody.hpp:31-169", "include/fakeit/MockImpl.hpp:20-345", "include/mockutils/DynamicProxy.hpp:64-257"]}
{"id": "C12", "title": "Reset returns a mock to its initial behaviour", "statement": "After Reset() on a mock every virtual method (destructor included) behaves as right after construction: unmocked for a mock the library created, the original implementation for a spied object; the mock's invocation history is empty; other mocks are untouched.", "quantifier": "every history before the Reset, every class layout", "why_tests_cant": "all prior histories and all vtable sizes", "anchors": ["include/fakeit/MockImpl.hpp:63-66", "include/mockutils/DynamicProxy.hpp:91-98", "include/mockutils/gcc/VirtualTable.hpp:76-82"]}
{"id": "C13", "title": "A mock that was Reset can be stubbed again like a new one, destructor included", "statement": "After Reset(), stubbing any method or the destructor and then using it behaves as on a freshly constructed mock.", "quantifier": "every class layout and every position of the destructor in the virtual table", "why_tests_cant": "depends on the position of the destructor relative to other virtual methods and on which methods were re-stubbed first", "anchors": ["include/mockutils/DynamicProxy.hpp:29-61", "include/mockutils/DynamicProxy.hpp:91-98", "include/mockutils/DynamicProxy.hpp:111-125"]}
{"id": "C14", "title": "ClearInvocationHistory keeps all stubbing", "statement": "ClearInvocationHistory() empties the mock's invocation history and leaves every stubbing with exactly its remaining actions; subsequent calls are answered as if the history had not been cleared.", "quantifier": "every history and every later series of calls", "why_tests_cant": "equivalence of all futures", "anchors": ["include/fakeit/MockImpl.hpp:68-76", "include/fakeit/RecordedMethodBody.hpp:122-124", "include/fakeit/Mock.hpp:61-75"]}
{"id": "C15", "title": "ClearInvocationHistory changes nothing but the history", "statement": "ClearInvocationHistory() leaves everything except the invocation history unchanged, in particular the data members of the fake object.", "quantifier": "every mock the library created with every content of its data members", "why_tests_cant": "a frame claim about the whole object state", "anchors": ["include/fakeit/MockImpl.hpp:55-76"]}
{"id": "C16", "title": "A stubbing statement interrupted by an exception commits nothing", "statement": "If an exception is in flight when a When(...) statement ends, no stubbing is added: later calls to the method find the stubbings that existed before the statement.", "quantifier": "every statement, every point at which the exception is thrown, every prior state", "why_tests_cant": "every crash point of every statement", "anchors": ["include/fakeit/WhenFunctor.hpp:23-47", "include/fakeit/FakeitExceptions.hpp:17-25"]}
{"id": "C17", "title": "Fake makes methods return default values forever", "statement": "After Fake(methods...) every call to each listed method, with any arguments, returns the default value of its type and never becomes unexpected, until a newer stubbing or a Reset takes over.", "quantifier": "every list of methods, every number of calls, every argument list", "why_tests_cant": "unbounded calls", "anchors": ["include/fakeit/FakeFunctor.hpp:19-35", "include/fakeit/Action.hpp:79-89", "include/mockutils/DefaultValue.hpp:23-149"]}
{"id": "C18", "title": "The default value returned for a faked method does not depend on earlier use", "statement": "A faked method returns a value-initialised object each time, whatever callers did with previously returned values; in particular for methods returning a reference.", "quantifier": "every return type category (value, reference) and every use of previously returned results", "why_tests_cant": "depends on aliasing between all mocks of the process", "anchors": ["include/mockutils/DefaultValue.hpp:55-61", "include/fakeit/Action.hpp:79-89"]}
{"id": "C19", "title": "A spied call runs the original once and leaves the spy in place", "statement": "A call to a Spy-ed method runs the original implementation exactly once with the call's arguments and hands back its result or exception; afterwards, whether it returned or threw, the method is still spied. Calls the original makes to itself on the same object run the original directly and are not recorded.", "quantifier": "every original implementation (including ones that throw or recurse), every argument list", "why_tests_cant": "all originals and all exceptional exits", "anchors": ["include/fakeit/SpyFunctor.hpp:22-44", "include/fakeit/MockImpl.hpp:183-213", "include/mockutils/DynamicProxy.hpp:178-187", "include/fakeit/Action.hpp:92-108"]}
{"id": "C20", "title": "Destroying the mock restores the spied object; other objects are never affected", "statement": "Stubbing through a mock that wraps an existing object changes the behaviour of that object only, never of other objects of its class; after the mock is destroyed the object behaves exactly as before it was wrapped.", "quantifier": "every history of stubbing/calls between construction and destruction of the mock, every class layout", "why_tests_cant": "all histories", "anchors": ["include/mockutils/DynamicProxy.hpp:68-98", "include/mockutils/gcc/VirtualTable.hpp:76-149", "include/fakeit/MockImpl.hpp:26-42"]}
{"id": "C21", "title": "Assigning a function to a method answers every call with it", "statement": "Method(mock,f) = fn (also with Using/Matching conditions) makes every later accepted call run fn, without limit.", "quantifier": "every condition, every argument list, every number of calls", "why_tests_cant": "unbounded calls", "anchors": ["include/fakeit/MethodMockingContext.hpp:144-147"]}
{"id": "C22", "title": "A verified single-method pattern counts the matching invocations", "statement": "Verify(Method(mock,f)<condition>) with .Exactly(n)/.Once()/.Never()/... succeeds if and only if the number of recorded invocations of the mocks involved that are of that method and satisfy the condition equals n; with .AtLeast(n), n>=1 (or nothing), iff it is at least n (1).", "quantifier": "every history, every condition, every n", "why_tests_cant": "all histories and all n", "anchors": ["include/fakeit/MatchAnalysis.hpp:16-92", "include/fakeit/SequenceVerificationExpectation.hpp:67-141", "include/fakeit/SequenceVerificationProgress.hpp:39-128"]}
{"id": "C23", "title": "a + b + c matches exactly contiguous runs", "statement": "A concatenated sequence matches at a position of the actual (ordinal-sorted) invocation sequence exactly when its elements accept the invocations at consecutive positions; several sequences given to one Verify may have gaps between them but must occur in the given order without overlap.", "quantifier": "every pattern and every actual sequence", "why_tests_cant": "all patterns and histories", "anchors": ["include/fakeit/MatchAnalysis.hpp:46-92", "include/fakeit/Sequence.hpp:48-86"]}
{"id": "C24", "title": "The reported match count is the maximum number of disjoint matches", "statement": "The number of matches a Verify reports is the largest number of pairwise non-overlapping, consecutive-in-time occurrences of the pattern in the actual invocation sequence.", "quantifier": "every pattern (any number of sequences of any length) and every actual sequence", "why_tests_cant": "optimality is a claim against every alternative selection of occurrences", "anchors": ["include/fakeit/MatchAnalysis.hpp:29-59"]}
{"id": "C25", "title": "Verification terminates and stays in bounds", "statement": "Evaluating a Verify terminates and never reads outside the actual sequence, for every pattern that can be built from Method/+/* with total length below 2^31.", "quantifier": "every pattern, every actual sequence shorter than 2^31", "why_tests_cant": "termination and absence of out-of-bounds reads for all inputs", "anchors": ["include/fakeit/MatchAnalysis.hpp:16-92", "include/fakeit/Sequence.hpp:48-127"]}
{"id": "C26", "title": "s * n is s + s + ... + s", "statement": "A sequence repeated n times is equivalent in every Verify to the n-fold concatenation; its length is n times the length of s as long as it is below 2^32; n <= 0 is rejected with std::invalid_argument.", "quantifier": "every sequence, every n", "why_tests_cant": "all sequences and n", "anchors": ["include/fakeit/Sequence.hpp:88-143"]}
{"id": "C27", "title": "A successful verification marks exactly the invocations of the counted matches", "statement": "After a successful Verify, exactly the invocations belonging to a counted (complete) match become verified by it.", "quantifier": "every pattern and history", "why_tests_cant": "requires relating marks to matches for all patterns", "anchors": ["include/fakeit/MatchAnalysis.hpp:46-69", "include/fakeit/SequenceVerificationExpectation.hpp:67-108"]}
{"id": "C28", "title": "A failed verification marks nothing", "statement": "A Verify that fails (or is evaluated to false) leaves the verified-status of every invocation unchanged.", "quantifier": "every pattern, quantifier and history", "why_tests_cant": "all states", "anchors": ["include/fakeit/SequenceVerificationExpectation.hpp:67-86"]}
{"id": "C29", "title": "VerifyNoOtherInvocations passes iff everything was verified", "statement": "VerifyNoOtherInvocations(mocks/methods...) fails if and only if some recorded invocation of the listed mocks or methods has not been verified; on failure exactly the unverified ones are reported, in call order; it never changes any verified-status.", "quantifier": "every history and every selection of mocks/method filters", "why_tests_cant": "all histories", "anchors": ["include/fakeit/VerifyNoOtherInvocationsVerificationProgress.hpp:21-109", "include/fakeit/SortInvocations.hpp:40-47"]}
{"id": "C30", "title": "Verified stays verified", "statement": "Once an invocation has been verified it stays verified as long as it is in the history, whatever API operations follow.", "quantifier": "every history of API operations, including ones performed from within actions", "why_tests_cant": "all futures", "anchors": ["include/fakeit/Invocation.hpp:52-58"]}
{"id": "C31", "title": "Using(...) and Unverified restrict verification to exactly the chosen invocations", "statement": "Verify without Using looks at all recorded invocations of exactly the mocks that occur in the pattern; Using(sources).Verify looks at exactly the invocations of the listed mocks / accepted by the listed method filters; Unverified restricts further to those not yet verified.", "quantifier": "every source list, pattern and history", "why_tests_cant": "all sources and histories", "anchors": ["include/fakeit/VerifyFunctor.hpp:32-43", "include/fakeit/UsingFunctor.hpp:30-37", "include/fakeit/UsingProgress.hpp:32-38", "include/fakeit/UnverifiedFunctor.hpp:20-52", "include/fakeit/ActualInvocationsSource.hpp:22-83"]}
{"id": "C32", "title": "Results of verification do not depend on hash-set iteration order", "statement": "The actual sequence used by Verify and reported in failures is the list of invocations strictly sorted by ordinal, independent of the iteration order of the unordered sets used on the way and of how often a mock is listed, and contains every invocation (ordinals being distinct).", "quantifier": "every set of invocations, every iteration order", "why_tests_cant": "iteration order is implementation-defined; tests observe one", "anchors": ["include/fakeit/SortInvocations.hpp:20-74"]}
{"id": "C33", "title": "A verification is performed at most once and not while an exception is in flight", "statement": "A verification object performs its check at most once: at its first conversion to bool or at its destruction. Destruction while an exception is propagating performs no check and reports nothing; destruction after a bool conversion reports nothing more.", "quantifier": "every sequence of quantifier settings, bool conversions, copies and destruction, with or without an exception in flight", "why_tests_cant": "all life cycles of the object", "anchors": ["include/fakeit/SequenceVerificationExpectation.hpp:13-86", "include/fakeit/SequenceVerificationProgress.hpp:39-71", "include/fakeit/VerifyNoOtherInvocationsVerificationProgress.hpp:21-107"]}
{"id": "C34", "title": "Converting a verification to bool twice gives the same answer", "statement": "Two successive conversions to bool of the same verification object give the same answer when nothing happened in between.", "quantifier": "every verification object and history", "why_tests_cant": "all histories", "anchors": ["include/fakeit/SequenceVerificationProgress.hpp:42-60", "include/fakeit/VerifyNoOtherInvocationsVerificationProgress.hpp:25-107"]}
{"id": "C35", "title": "AtLeast(n) succeeds iff there are at least n matches, for every n >= 0", "statement": "Verify(...).AtLeast(n) succeeds iff the number of matches is at least n; negative arguments of Exactly/AtLeast are rejected with std::invalid_argument and no check is performed.", "quantifier": "every n of type int, every number of matches", "why_tests_cant": "boundary value among 2^32 arguments and all histories", "anchors": ["include/fakeit/SequenceVerificationProgress.hpp:73-127", "include/fakeit/SequenceVerificationExpectation.hpp:67-141"]}
{"id": "C36", "title": "Verification does not change how mocks answer calls", "statement": "Evaluating a Verify / VerifyNoOtherInvocations statement never changes how any later call is answered.", "quantifier": "every history, every verification statement, every later call", "why_tests_cant": "non-interference with all futures", "anchors": ["include/fakeit/api_macros.hpp:19-59", "include/fakeit/MethodMockingContext.hpp:86-168", "include/fakeit/MockImpl.hpp:314-323"]}
{"id": "C37", "title": "Using(m1,...,mk) accepts a call iff every position accepts", "statement": "A condition given as positional matchers accepts an argument list iff the i-th matcher accepts the i-th argument for all i; a plain value v at a position means Eq(v), _ (or Any) accepts everything.", "quantifier": "every matcher list and argument list of equal length", "why_tests_cant": "all combinations", "anchors": ["include/fakeit/invocation_matchers.hpp:26-86", "include/fakeit/MatchersCollector.hpp:47-82", "include/mockutils/TupleDispatcher.hpp:10-77"]}
{"id": "C38", "title": "Comparison matchers mean the C++ comparison", "statement": "Gt/Ge/Lt/Le/Eq/Ne accept exactly the arguments related to the expected value by >, >=, <, <=, ==, !=; for integers Ne is the complement of Eq, Ge of Lt, Le of Gt; for floating point with NaN only Ne and Any accept.", "quantifier": "every pair of values (integers, IEEE doubles, strings, pointers)", "why_tests_cant": "all values, NaN/zero cases", "anchors": ["include/fakeit/argument_matchers.hpp:80-257"]}
{"id": "C39", "title": "String matchers compare C strings up to the first NUL", "statement": "StrEq/StrGt/StrGe/StrLt/StrLe/StrNe accept a non-null C string exactly when its characters up to the first NUL compare accordingly (unsigned char order) with the expected text up to its first NUL; a null pointer argument is undefined behaviour.", "quantifier": "every pair of strings, including embedded NUL and non-ASCII bytes", "why_tests_cant": "all strings", "anchors": ["include/fakeit/argument_matchers.hpp:260-437"]}
{"id": "C40", "title": "ApproxEq(e, m) is the closed ball of radius m", "statement": "ApproxEq(expected, margin) accepts exactly the arguments whose distance to expected, as computed in the type of the operands (exactly for integers that do not overflow, correctly rounded for doubles), is at most margin; with a negative or NaN margin it accepts nothing.", "quantifier": "every triple (actual, expected, margin)", "why_tests_cant": "all numeric triples, NaN, overflow", "anchors": ["include/fakeit/argument_matchers.hpp:440-481"]}
{"id": "C41", "title": "Matching is unaffected by which stubbing answered the call", "statement": "Whether a verification condition accepts a recorded invocation depends only on the invocation's arguments, not on the object that was used for stubbing.", "quantifier": "every condition object used for both stubbing and verification, every later modification of reference arguments", "why_tests_cant": "needs all aliasing/mutation histories", "anchors": ["include/fakeit/invocation_matchers.hpp:37-41", "include/fakeit/RecordedMethodBody.hpp:126-150"]}
{"id": "C42", "title": "Recorded arguments are the arguments of the call", "statement": "The arguments shown in the history and used by later verification are those passed in the call: by-value arguments as passed, unless the stubbed action itself assigns to its parameters; by-reference arguments are looked at when verified.", "quantifier": "every action and argument list", "why_tests_cant": "all actions", "anchors": ["include/fakeit/ActualInvocation.hpp:28-68", "include/fakeit/ActionSequence.hpp:40-54", "include/mockutils/type_utils.hpp:39-41"]}
{"id": "C43", "title": "ReturnAndSet assigns positional values to the leading parameters", "statement": "ReturnAndSet(r, v1,...,vk) / ReturnAndSet(v1,...,vk) stores vi through the i-th parameter for i=1..k, leaves the other parameters untouched and returns r.", "quantifier": "every arity, every k <= arity, every value list, every memory (also with aliasing parameters)", "why_tests_cant": "all arities and aliasing patterns", "anchors": ["include/fakeit/StubbingProgress.hpp:174-224", "include/fakeit/StubbingProgress.hpp:417-431"]}
{"id": "C44", "title": "ReturnAndSet with placeholders assigns to the named parameters only", "statement": "With _n <= v arguments, the n-th parameter receives the value given for n (the last one given if several name the same n), parameters not named are untouched.", "quantifier": "every arity, every list of placeholder values in any order", "why_tests_cant": "all permutations and duplicates", "anchors": ["include/fakeit/StubbingProgress.hpp:433-507"]}
{"id": "C45", "title": "A call through the object reaches the stubbing of the called method", "statement": "After any stubbing history in which distinct methods of a class were stubbed from distinct source occurrences within one translation unit, a call to virtual method k of the object is answered by the stubbings recorded for k, never by those of another method.", "quantifier": "every class layout, every order in which methods are stubbed, every set of pairwise distinct method ids", "why_tests_cant": "all layouts and orders", "anchors": ["include/mockutils/DynamicProxy.hpp:29-61", "include/mockutils/MethodProxyCreator.hpp:11-71", "include/mockutils/DynamicProxy.hpp:105-125"]}
{"id": "C46", "title": "Fake virtual tables are laid out without overlap and within their allocation", "statement": "For every virtual table size, method entries, bookkeeping cookies, type information and offset-to-top of the replacement table occupy pairwise distinct entries inside the allocated array, writing one leaves the others unchanged, and releasing the table frees exactly the allocated block.", "quantifier": "every table size, every index, GCC and MSVC layouts", "why_tests_cant": "all sizes", "anchors": ["include/mockutils/gcc/VirtualTable.hpp:20-149", "include/mockutils/mscpp/VirtualTable.hpp:1-260"]}
{"id": "C47", "title": "Both destructor entries lead to the stubbed destructor", "statement": "After the destructor is stubbed, deleting the object through a pointer and calling the destructor explicitly each run the stubbed destructor behaviour exactly once, and no other virtual method entry changes.", "quantifier": "every layout and position of the destructor", "why_tests_cant": "all layouts", "anchors": ["include/mockutils/gcc/VirtualTable.hpp:107-120", "include/fakeit/MockImpl.hpp:262-332"]}
{"id": "C48", "title": "Listeners are notified in registration order, before the test framework adapter", "statement": "Every reported event is delivered to all registered event listeners in registration order, each exactly once, and then to the configured test framework adapter; after clearing, none is notified.", "quantifier": "every list of listeners, every event", "why_tests_cant": "unbounded listeners", "anchors": ["include/fakeit/FakeitContext.hpp:20-91", "include/fakeit/DefaultFakeit.hpp:26-74"]}
{"id": "C49", "title": "bool-converted verifications report nothing", "statement": "Using a verification as a bool never reports an event to listeners or the test framework; it is true iff the check succeeds.", "quantifier": "every verification and history", "why_tests_cant": "all histories", "anchors": ["include/fakeit/SequenceVerificationProgress.hpp:42-60", "include/fakeit/ThrowFalseEventHandler.hpp:9-18", "include/fakeit/VerifyNoOtherInvocationsVerificationProgress.hpp:98-107"]}
{"id": "C50", "title": "Failure messages show the pattern unambiguously", "statement": "The text printed for an expected pattern determines the flattened sequence of expected calls: two expressions built with + and * that print the same expect the same calls, given that single expectations print distinctly.", "quantifier": "every expression built from +, * and single methods", "why_tests_cant": "all expressions", "anchors": ["include/fakeit/DefaultEventFormatter.hpp:71-146"]}
{"id": "C51", "title": "Failure messages list at most 50 invocations and say so", "statement": "The printed invocation list shows all invocations if there are at most 50 and otherwise exactly the first 50 followed by an ellipsis line; the stated total is the true number.", "quantifier": "every number of invocations", "why_tests_cant": "all lengths", "anchors": ["include/fakeit/DefaultEventFormatter.hpp:37-126"]}
{"id": "C52", "title": "The shared ownership pointer releases its object exactly once", "statement": "For any sequence of copies, assignments (including self-assignment) and destructions of the library's progress handles, the shared object is released exactly once, when the last handle goes away, and never used after that.", "quantifier": "every sequence of operations on any number of handles", "why_tests_cant": "all operation sequences", "anchors": ["include/mockutils/smart_ptr.hpp:11-85"]}
{"id": "C53", "title": "Re-entrant calls from an action consume actions like sequential calls", "statement": "If an action recorded with Do calls the same mocked method again, the nested call is answered by the next recorded action and every recorded action is run exactly the stated number of times.", "quantifier": "every action list and every nesting depth", "why_tests_cant": "nesting patterns are unbounded", "anchors": ["include/fakeit/ActionSequence.hpp:40-54", "include/fakeit/Action.hpp:32-55"]}
{"id": "C54", "title": "Using the same method expression for two stubbing statements is safe", "statement": "A stored Method(mock,f) expression can be used in several When(...) statements; each adds a stubbing.", "quantifier": "every program using stored method expressions", "why_tests_cant": "memory-safety over all programs", "anchors": ["include/fakeit/MethodMockingContext.hpp:73-169", "include/fakeit/WhenFunctor.hpp:23-47"]}
{"id": "C55", "title": "Quantity literals mean their number", "statement": "n_Times denotes the quantity n; n_Time is accepted only for n = 1 and otherwise rejected with std::invalid_argument.", "quantifier": "every unsigned literal", "why_tests_cant": "2^64 literals", "anchors": ["include/fakeit/Quantifier.hpp:65-83"]}
{"id": "C56", "title": "An unexpected call always ends in an exception at the call site", "statement": "A call that is not supported by any recorded behaviour never returns a value to the caller, whether or not the test framework adapter throws.", "quantifier": "every adapter behaviour, every state", "why_tests_cant": "all adapters", "anchors": ["include/fakeit/RecordedMethodBody.hpp:126-150", "include/fakeit/MockImpl.hpp:273-282", "include/fakeit/FakeitContext.hpp:24-43"]}
{"id": "C57", "title": "Two mocks around one object leave the class alone", "statement": "Wrapping one existing object by two mocks and destroying the mocks in any order never changes the behaviour of other objects of the class.", "quantifier": "all orders of construction, stubbing and destruction", "why_tests_cant": "orders of destruction; the damage shows in unrelated objects", "anchors": ["include/mockutils/DynamicProxy.hpp:68-85", "include/fakeit/MockImpl.hpp:30-42"]}
{"id": "C58", "title": "An action may reset its own mock", "statement": "A recorded action may call Reset() on the mock it answers for; the call then still ends with the result of the action.", "quantifier": "every action, every remaining quantity", "why_tests_cant": "needs memory-safety of all remaining-quantity states", "anchors": ["include/fakeit/ActionSequence.hpp:40-54", "include/fakeit/Action.hpp:31-76", "include/mockutils/DynamicProxy.hpp:91-98"]}
{"id": "C59", "title": "A spied original may reset the mock that spies it", "statement": "If the original implementation of a spied method resets the mock, the object afterwards behaves as after any Reset.", "quantifier": "every spied method", "why_tests_cant": "every spied method", "anchors": ["include/mockutils/DynamicProxy.hpp:91-98", "include/mockutils/DynamicProxy.hpp:177-187", "include/fakeit/MockImpl.hpp:183-213"]}
{"id": "C60", "title": "Stubbing and verification statements work in clean-up code", "statement": "A When / Verify statement evaluated by a destructor that runs while an exception propagates has its usual effect.", "quantifier": "every statement", "why_tests_cant": "all points of unwinding", "anchors": ["include/fakeit/WhenFunctor.hpp:27-34", "include/fakeit/SequenceVerificationExpectation.hpp:15-20"]}
{"id": "C61", "title": "A verification can be kept in a variable and evaluated later", "statement": "auto v = Verify(Method(mock,f)); ... evaluating or releasing v in a later statement performs the check that was written.", "quantifier": "every verification object", "why_tests_cant": "all lifetimes", "anchors": ["include/fakeit/SequenceVerificationExpectation.hpp:42-86", "include/fakeit/VerifyFunctor.hpp:32-43"]}
{"id": "C62", "title": "Classes with any number of virtual methods can be mocked", "statement": "Constructing a mock is defined for every class, whatever the number of entries of its virtual table.", "quantifier": "every virtual table size", "why_tests_cant": "all sizes", "anchors": ["include/mockutils/VTUtils.hpp:30-35", "include/mockutils/VTUtils.hpp:67-76", "include/mockutils/VirtualOffestSelector.hpp:12-22"]}
{"id": "C63", "title": "The value given to Return is the value at the time of the statement", "statement": "When(Method(mock,f)).Return(x, n_Times(y)), AlwaysReturn(x) and Method(mock,f) = x fix the answers to the values x and y have when the statement is executed; later assignments to x or the end of its life do not change the answers of f.", "quantifier": "every chain of Return/AlwaysReturn operands, every later program", "why_tests_cant": "all later uses of the operand, all interleavings of calls with them", "anchors": ["include/fakeit/StubbingProgress.hpp:50-105", "include/fakeit/Quantifier.hpp:23-48", "include/fakeit/MethodMockingContext.hpp:325-335"]}
{"id": "C64", "title": "A method expression kept in a variable means the same each time it is used", "statement": "After auto m = Method(mock,f), the meaning of m in a statement does not depend on earlier statements that used m.", "quantifier": "every method expression and every sequence of uses", "why_tests_cant": "all sequences of uses", "anchors": ["include/fakeit/MethodMockingContext.hpp:230-263", "include/fakeit/MethodMockingContext.hpp:300-319"]}
{"id": "C65", "title": "A quantity can be kept in a variable", "statement": "auto q = 2_Times(v); ... When(Method(mock,f)).Return(q) in a later statement records two answers v.", "quantifier": "every quantity and value", "why_tests_cant": "all lifetimes", "anchors": ["include/fakeit/Quantifier.hpp:23-48", "include/fakeit/StubbingProgress.hpp:71-76"]}
{"id": "C66", "title": "Stubbed data members hold their value and are destroyed exactly once", "statement": "After mock.Stub(&C::x, v) the member x of the mocked object is v until it is assigned to, and each object made in x is destroyed exactly once, at Reset or at the end of the mock; assigning to what Stub returns assigns to the member.", "quantifier": "every sequence of Stub, reads, writes, Reset, ClearInvocationHistory and end of life, for library-made and for wrapped objects", "why_tests_cant": "all sequences of operations", "anchors": ["include/mockutils/DynamicProxy.hpp:91-98", "include/mockutils/DynamicProxy.hpp:151-160", "include/mockutils/DynamicProxy.hpp:189-205", "include/fakeit/MockImpl.hpp:55-76", "include/fakeit/StubbingImpl.hpp:24-35"]}
{"id": "C67", "title": "A mock may be copied", "statement": "A copy of a mock and the mock can both be used and destroyed like other values.", "quantifier": "every use of mocks and their copies", "why_tests_cant": "all sequences of operations", "anchors": ["include/fakeit/Mock.hpp:35-47", "include/mockutils/DynamicProxy.hpp:66-85", "include/fakeit/MockImpl.hpp:26-42"]}
{"id": "C68", "title": "A wrapped object may end its life before its mock", "statement": "Mock<C> spy(obj): the object and the mock can be destroyed in either order.", "quantifier": "both orders of destruction", "why_tests_cant": "all lifetimes", "anchors": ["include/mockutils/DynamicProxy.hpp:79-85", "include/fakeit/MockImpl.hpp:40-53"]}
{"id": "C69", "title": "Mocks can be used from several threads", "statement": "Calls, stubbing statements and verifications made by different threads do not race: no execution has two conflicting memory accesses that are not ordered by synchronisation.", "quantifier": "all threads, operations and interleavings", "why_tests_cant": "all interleavings; races need not show", "anchors": ["include/fakeit/RecordedMethodBody.hpp:110-164", "include/fakeit/ActionSequence.hpp:40-54", "include/fakeit/Action.hpp:32-55", "include/mockutils/DynamicProxy.hpp:33-59", "include/mockutils/DynamicProxy.hpp:177-187", "include/mockutils/DynamicProxy.hpp:222-226"]}
{"id": "C70", "title": "A custom event formatter writes the texts", "statement": "After Fakeit.setCustomEventFormatter(f), and until the formatter is replaced or reset, the text reported for an unexpected call or a failed verification is the one f gives (after file and line, where the framework's adapter puts them in front), and so is the text of the exception an unexpected call ends with. After resetCustomEventFormatter the texts are the library's own.", "quantifier": "all frameworks, formatters, events and histories of settings", "why_tests_cant": "each test program is built for one framework and tries one formatter", "anchors": ["include/fakeit/DefaultFakeit.hpp:40-46", "include/fakeit/DefaultFakeit.hpp:64-72", "include/fakeit/FakeitContext.hpp:45-58", "config/catch/CatchFakeit.hpp:88-110"]}
{"id": "C71", "title": "Code that catches std::exception does not hide an unexpected call", "statement": "If a call matches no stubbing, handlers for std::exception in the code under test and in its stubs do not take the resulting exception: a test whose code handles only std::exceptions cannot end normally after an unexpected call.", "quantifier": "all programs, nested calls and clean-up code included; all frameworks", "why_tests_cant": "all programs", "anchors": ["include/fakeit/FakeitExceptions.hpp:41-55", "include/fakeit/RecordedMethodBody.hpp:126-150", "include/fakeit/MockImpl.hpp:271-282", "config/tpunit/TpUnitFakeit.hpp:10-53"]}
{"id": "C72", "title": "A failed verification says where", "statement": "The report of a failed Verify or VerifyNoOtherInvocations names the file and line of the statement.", "quantifier": "all frameworks, places and formatters", "why_tests_cant": "each test program is built for one framework", "anchors": ["config/standalone/StandaloneFakeit.hpp:74-92", "config/boost/BoostTestFakeit.hpp:24-66", "config/catch/CatchFakeit.hpp:41-83", "config/gtest/GTestFakeit.hpp:15-28", "config/qtest/QTestFakeit.hpp:16-32", "config/mstest/MsTestFakeit.hpp:20-45", "config/nunit/NUnitFakeit.hpp:14-31"]}
{"id": "C73", "title": "A failed verification ends the test", "statement": "If Verify or VerifyNoOtherInvocations fails (without conversion to bool), the statements after it are not executed unless a handler takes the exception: a test that ends normally had no failed verification.", "quantifier": "all programs and frameworks", "why_tests_cant": "all programs", "anchors": ["include/fakeit/SequenceVerificationExpectation.hpp:30-64", "config/standalone/StandaloneFakeit.hpp:74-92", "config/gtest/GTestFakeit.hpp:15-28", "config/doctest/DoctestFakeit.hpp:20-48", "config/boost/BoostTestFakeit.hpp:43-66"]}
{"id": "C74", "title": "Calls can be verified after their arguments are gone", "statement": "After the objects that reference and pointer arguments designated have ended (temporaries bound to const references, for instance), the recorded calls can still be verified, with and without conditions on the arguments, and a failure is reported with the arguments of the calls.", "quantifier": "all programs, methods and quantifiers; all states of memory", "why_tests_cant": "reading a dead object is undefined and a test may pass by chance; all programs", "anchors": ["include/fakeit/ActualInvocation.hpp:36-74", "include/fakeit/invocation_matchers.hpp:57-85", "include/mockutils/TuplePrinter.hpp:18-51", "include/mockutils/Formatter.hpp:15-89"]}
{"id": "C75", "title": "The report shows the calls with their arguments", "statement": "The text of a failed verification has, line by line, the expected pattern, the required and the found number of matches, the number of calls looked at and each of them (the first 50, then an ellipsis) as method(arguments); that of VerifyNoOtherInvocations the unverified calls; that of an unexpected call the call and why it was unexpected. Arguments are shown by value at the time of the report: numbers in decimal, true and false, quoted characters and C strings, [nullptr], ? for types without operator<<; references as what they refer to.", "quantifier": "all patterns, conditions, numbers of calls and argument values", "why_tests_cant": "unbounded patterns, lists and values", "anchors": ["include/fakeit/DefaultEventFormatter.hpp:18-146", "include/mockutils/Formatter.hpp:15-89", "include/mockutils/TuplePrinter.hpp:18-51", "include/fakeit/argument_matchers.hpp:59-481", "include/fakeit/MethodMockingContext.hpp:107-111"]}
{"id": "C76", "title": "Using(x) accepts the call made with x", "statement": "If a method is called with the expression x, the condition Using(x) (or operator()(x)) with the same x accepts the call, also if the parameter has another arithmetic type than x: a parameter of a narrower or differently signed integer type, float for a double x, a floating point type for an integer x, or an integer type for a floating point x.", "quantifier": "every integer type of parameter and operand and every value; every double; every integer with every float or double", "why_tests_cant": "all pairs of types with all their values; 2^64 doubles", "anchors": ["include/fakeit/argument_matchers.hpp:28-107", "include/fakeit/MatchersCollector.hpp:52-62", "include/fakeit/ActualInvocation.hpp:36-40"]}
{"id": "C77", "title": "Comparison matchers compare numbers whatever their arithmetic types", "statement": "Eq, Gt, Ge, Lt, Le and Ne accept an argument exactly if the number it is stands in the relation to the number the operand is, also if parameter and operand are integers that differ in width or signedness, or one is an integer and the other a float or double.", "quantifier": "six comparisons, every pair of integer types and values, every integer with every float or double", "why_tests_cant": "all pairs of types with all their values", "anchors": ["include/fakeit/argument_matchers.hpp:80-257"]}
{"id": "C78", "title": "Conditions own their operands, and matchers can be named and reused", "statement": "A condition is about the values its operands have when it is given: later assignments to the variables and the end of their scope do not change it, and giving it does not change them. A matcher such as Gt(x) can be kept in a variable and used any number of times, each time with the value its operand has.", "quantifier": "all matchers and operands (variables, temporaries, moved variables), all programs that declare, assign, end and use them", "why_tests_cant": "reading a dead temporary is undefined and a test may pass by chance; all interleavings", "anchors": ["include/fakeit/argument_matchers.hpp:28-56", "include/fakeit/argument_matchers.hpp:439-602", "include/fakeit/MatchersCollector.hpp:52-82"]}
{"id": "C79", "title": "Sequences can be put together step by step", "statement": "A sequence such as a + b or s * 3 can be kept in a variable (by value or by const reference), used as part of further sequences, and verified later: it stands for the same calls as the expression written out in the verification. A factor that is not positive is refused with std::invalid_argument.", "quantifier": "all programs that declare sequences of any nesting, end their scopes and verify them", "why_tests_cant": "reading a part that has ended is undefined and a test may pass by chance; unbounded nesting and interleavings", "anchors": ["include/fakeit/Sequence.hpp:48-143", "include/fakeit/VerifyFunctor.hpp:32-43", "include/fakeit/MethodMockingContext.hpp:202-206", "include/fakeit/MethodMockingContext.hpp:295-298"]}
{"id": "C80", "title": "Listeners and adapters may use the library", "statement": "Code in event listeners and test framework adapters may raise further events (for example by calls of unstubbed methods), install and remove adapters, and register and clear listeners; every listener registered when an event is raised, and then the adapter, still hears of it exactly once and in order.", "quantifier": "all listeners with any memory of what they heard, any number of them, any nesting of events", "why_tests_cant": "iterator invalidation is undefined and a test may pass by chance; listeners are arbitrary code", "anchors": ["include/fakeit/FakeitContext.hpp:24-89", "include/fakeit/DefaultFakeit.hpp:33-62"]}
{"id": "C81", "title": "Conditions may run any code", "statement": "A predicate given to Matching(...) may call the mocked method, stub it, clear its history, reset the mock, or throw: a call is still decided by the newest stubbing whose condition does not reject, no older condition is asked, an exception of a condition reaches the caller and leaves no record of the call, and a verification still counts exactly the calls made before it.", "quantifier": "all predicates with any memory of what they were asked, any number of stubbings, any nesting of calls, any arguments, any growth policy of vectors", "why_tests_cant": "iterator invalidation and dangling pointers are undefined and a test may pass by chance, depending on capacity; predicates are arbitrary code", "anchors": ["include/fakeit/RecordedMethodBody.hpp:71-81", "include/fakeit/RecordedMethodBody.hpp:110-150", "include/fakeit/invocation_matchers.hpp:119-143", "include/fakeit/MatchAnalysis.hpp:16-92", "include/fakeit/SequenceVerificationExpectation.hpp:67-104"]}
{"id": "C82", "title": "A mocked object can be used through its base classes", "statement": "For every class that the library lets a program mock, the mocked object can be converted to each of its base classes, and a virtual method called through a base is answered like the same method called through the mocked class.", "quantifier": "all class hierarchies: any depth, numbers of methods and data, virtual and multiple bases", "why_tests_cant": "infinitely many hierarchies; a wrong table or table pointer is undefined behaviour that a test may not notice", "anchors": ["include/mockutils/gcc/is_simple_inheritance_layout.hpp:14-33", "include/mockutils/gcc/VirtualTable.hpp:18-86", "include/mockutils/FakeObject.hpp:19-64", "include/mockutils/DynamicProxy.hpp:68-77"]}
{"id": "C83", "title": "A wrapped object keeps its dynamic type and all its methods", "statement": "An object shows the same dynamic type (typeid, dynamic_cast) before, during and after a mock wraps it, and every virtual method of its class that the mock's class does not have keeps its behaviour while it is wrapped.", "quantifier": "all histories of stubbing, calls, Reset, wrapping and unwrapping, all pairs of a mock's class and an object's class", "why_tests_cant": "all histories; reading behind the copied table is undefined and a test may not notice", "anchors": ["include/mockutils/gcc/VirtualTable.hpp:76-86", "include/mockutils/gcc/VirtualTable.hpp:139-149", "include/mockutils/DynamicProxy.hpp:68-98", "include/fakeit/MockImpl.hpp:30-42", "include/fakeit/Mock.hpp:46-47"]}
{"id": "C84", "title": "Values that cannot be copied reach exactly one call, whole", "statement": "Each value given to Return for a type that can be moved but not copied is handed to exactly one call, in the order of the chain and whole; no call ever gets an object from which the value was already moved, and calls after the last answer are unexpected.", "quantifier": "all chains that mix such values with other answers and quantities, all numbers of calls", "why_tests_cant": "all chains and all numbers of calls; the callables are copied, and all copies share the value, so that a second run would give an emptied object that tests of other chains do not show", "anchors": ["include/fakeit/StubbingProgress.hpp:62-69", "include/fakeit/Action.hpp:31-55", "include/fakeit/ActionSequence.hpp:32-54"]}
{"id": "C85", "title": "Wrapping an object reads only the virtual table of its class", "statement": "Constructing Mock<C>(object), and Reset of that mock, reads no memory outside the virtual table the compiler made for the class; afterwards the object shows the same methods as before. The same holds for an object the library made, whose deletion also reaches the destructor it had.", "quantifier": "both table layouts (GCC/clang and MSVC), every table size and content, with and without a virtual destructor", "why_tests_cant": "a read outside a table returns some neighbouring word of the data segment and is invisible to a test", "anchors": ["include/mockutils/gcc/VirtualTable.hpp:76-82", "include/mockutils/mscpp/VirtualTable.hpp:191-198", "include/mockutils/mscpp/VirtualTable.hpp:147-153", "include/mockutils/DynamicProxy.hpp:68-77", "include/mockutils/DynamicProxy.hpp:91-98"]}
{"id": "C86", "title": "Spying works however the compiler returns objects", "statement": "A call of a spied method runs the original exactly once with the method unmocked for its duration, and afterwards the method is mocked as before, whether the original returns or throws; this holds for every conforming compiler, whichever of the moves that the language lets it elide it does elide.", "quantifier": "C++11, C++14 and C++17; all combinations of elided and performed moves; all tables, methods and originals", "why_tests_cant": "a test runs with one compiler and one choice of elisions; the other choices are never seen", "anchors": ["include/mockutils/Finally.hpp:15-35", "include/mockutils/DynamicProxy.hpp:177-187", "include/fakeit/MockImpl.hpp:183-192", "include/fakeit/MockImpl.hpp:205-213", "include/fakeit/MockImpl.hpp:294-297"]}
{"id": "C87", "title": "FAKEIT_ASSERT_ON_UNEXPECTED_METHOD_INVOCATION stops at the call", "statement": "In a program compiled with this macro an unexpected call ends the program at the call, after the registered listeners heard of it, so that code under test that catches all exceptions cannot hide it; failed verifications are reported as without the macro.", "quantifier": "all registrations of listeners and adapters, all their reactions, with and without NDEBUG", "why_tests_cant": "a test that meets the assertion ends, and the choice of macros and listeners is made when the program is compiled", "anchors": ["include/fakeit/FakeitContext.hpp:20-43", "include/fakeit/DefaultFakeit.hpp:48-62"]}
{"id": "C88", "title": "The object of a mock is fit for its class", "statement": "The object that Mock<C> makes has the size of C and lies at an address suitable for C, so that members of C may be used through it.", "quantifier": "all classes with virtual methods, of any size and alignment; all addresses operator new may return", "why_tests_cant": "whether the address happens to be suitable depends on the allocator; a test may pass by chance", "anchors": ["include/mockutils/FakeObject.hpp:19-64", "include/fakeit/MockImpl.hpp:281-289"]}
{"id": "C89", "title": "Everything the library allocates is released", "statement": "Whatever a program does with mocks, however its statements and calls end, once its mocks and the method expressions it stored are gone, nothing the library allocated for them is left: no recorded calls of methods, no stubbed answers, no conditions, no virtual tables; Reset releases what was stubbed and recorded, and the temporary objects of a statement are gone when the statement is over, also if it is left by an exception.", "quantifier": "all programs, all nestings of user code, all classes, all reactions of listeners and adapters", "why_tests_cant": "a leak changes no result, and tests run finitely many programs; ownership passes from the statement to the mock depending on how the statement ends", "anchors": ["include/fakeit/MethodMockingContext.hpp:86-101", "include/fakeit/MethodMockingContext.hpp:135-138", "include/fakeit/MethodMockingContext.hpp:165-168", "include/fakeit/RecordedMethodBody.hpp:31-69", "include/fakeit/MockImpl.hpp:30-42", "include/mockutils/DynamicProxy.hpp:68-98", "include/mockutils/FakeObject.hpp:56-64"]}
{"id": "C90", "title": "Tests that keep to the rules are never undefined and always end", "statement": "A test that declares and destroys mocks at any time, uses only mocks, methods, arguments, variables and expressions that exist, uses no mock after a mock was destroyed that the code answering its calls may use, does not reset or destroy a mock from the code that answers a call of it, does not recurse without end, uses method expressions within the statement they are written in, and destroys each mock at most once, runs to its end: every one of its operations returns or throws, nothing is undefined, and the internal exception of the library never reaches it. If it destroys all of its mocks, nothing that the library allocated is left.", "quantifier": "all tests that keep to the rules: all mocks and wrapped objects, all user code in actions and methods (calls, stubbing, verification, Reset, listeners, exceptions), all nestings, all orders of declaring, using and destroying", "why_tests_cant": "absence of undefined behaviour and of endless loops over all programs; a finite test runs one program, and undefined behaviour may go unnoticed", "anchors": ["include/fakeit/MethodMockingContext.hpp:72-263", "include/fakeit/RecordedMethodBody.hpp:71-157", "include/fakeit/ActionSequence.hpp:29-89", "include/fakeit/MockImpl.hpp:30-213", "include/fakeit/SequenceVerificationExpectation.hpp:15-143", "include/mockutils/DynamicProxy.hpp:63-257"]}
{"id": "C91", "title": "What running out of memory does to a mock", "statement": "A stubbing statement during which an allocation (or a copy of a user's value) fails throws std::bad_alloc and leaves the mock as it was: the same answers, the same remembered calls, nothing of what was there changed; a statement that succeeds adds its answer and nothing else. Nothing that was allocated for the failed statement is left. A mock can still be called afterwards. A call that runs out of memory throws std::bad_alloc, uses up no answer and is forgotten. Whatever failed, destroying the mock afterwards is defined, and it frees everything that the statements which succeeded and the calls allocated.", "quantifier": "all mocks, all stubbing statements and calls, all positions (and numbers) of failing allocations", "why_tests_cant": "there are as many failure points as allocations in every statement, and each leaves another intermediate state; a test can make only some allocations fail, and double deletions and reads past the end of a vector may go unnoticed", "anchors": ["include/fakeit/MethodMockingContext.hpp:86-138", "include/fakeit/RecordedMethodBody.hpp:35-38", "include/fakeit/RecordedMethodBody.hpp:110-150", "include/fakeit/ActionSequence.hpp:32-85", "include/fakeit/WhenFunctor.hpp:23-87", "include/mockutils/DynamicProxy.hpp:222-226", "include/mockutils/Finally.hpp:15-35"]}
{"id": "C92", "title": "Verifications that are interrupted", "statement": "A statement that verifies and is interrupted - because an allocation fails, or because a predicate given to Matching or Using throws - throws that exception, is defined and does not end the program. The calls that it would have verified stay unverified, all of them, and the answers and calls of the mock stay as they were; only a statement that passes marks calls, exactly those of the pattern it found. Nothing that was allocated for the interrupted verification is left. A verification in a variable whose result could not be found out reports at the latest at its end that it is not met. VerifyNoOtherInvocations changes nothing and passes only if every call is verified. Whatever was interrupted, destroying the mock afterwards is defined and frees everything that was allocated.", "quantifier": "all remembered calls, all patterns, quantifiers, predicates and calls for which they throw, all positions (and numbers) of failing allocations, all sequences of stubbing statements, calls and verifications", "why_tests_cant": "a verification allocates at every call it looks at and asks every predicate in an order that depends on the calls; each of these points leaves another intermediate state, of which a test meets a few", "anchors": ["include/fakeit/VerifyFunctor.hpp:32-43", "include/fakeit/UsingProgress.hpp:33-38", "include/fakeit/SequenceVerificationProgress.hpp:25-122", "include/fakeit/SequenceVerificationExpectation.hpp:15-86", "include/fakeit/MatchAnalysis.hpp:16-92", "include/fakeit/SortInvocations.hpp:20-47", "include/fakeit/VerifyNoOtherInvocationsFunctor.hpp:37-44", "include/fakeit/VerifyNoOtherInvocationsVerificationProgress.hpp:25-81", "include/mockutils/smart_ptr.hpp:42-45"]}
{"id": "C93", "title": "A mock can be used in several source files", "statement": "Method(mock, f) means method f of the mock wherever it is written: in the file that makes the mock, in another file of the program, in a function template. After any stubbing, in whatever files, a call of a method that was mentioned since the last Reset is answered by the stubbings of that method, and a call of any other method is unstubbed.", "quantifier": "all classes (numbers and signatures of methods), all source files with all places where __COUNTER__ is expanded, all sequences of mentions, calls and Resets", "why_tests_cant": "whether two mentions get the same number depends on how often __COUNTER__ was expanded before them in each file, by the test framework and other headers too; tests of the library are each in one file", "anchors": ["include/fakeit/api_macros.hpp:31-50", "include/mockutils/DynamicProxy.hpp:29-61", "include/mockutils/DynamicProxy.hpp:91-109", "include/mockutils/DynamicProxy.hpp:222-226", "include/mockutils/MethodProxyCreator.hpp:26-71", "include/fakeit/MockImpl.hpp:314-323"]}
{"id": "C94", "title": "Mocks can be global variables", "statement": "Mocks, and objects whose constructors and destructors use mocks and verifications, may have static storage duration, in any file of a program. From the first initialiser to the last destructor no mock, functor or report uses something of the library before it is initialised or after it was destroyed; every mock is destroyed before the object that it reports to; everything is destroyed exactly once.", "quantifier": "all programs of any number of files and variables, all orders of initialisation, all choices of the linker between copies of the mock's constructor, all code in initialisers, main and destructors", "why_tests_cant": "the order in which files are initialised and the copy of a template that is kept are choices of the linker; a test program has one of each, and what happens at exit is not observed by test frameworks", "anchors": ["config/standalone/fakeit_instance.hpp:5-5", "config/standalone/StandaloneFakeit.hpp:106-109", "include/fakeit/api_functors.hpp:14-21", "include/fakeit/Mock.hpp:43-47", "include/mockutils/DefaultValue.hpp:55-61", "include/mockutils/DefaultValue.hpp:143-149", "include/fakeit/DomainObjects.hpp:52-59", "include/fakeit/FakeitContext.hpp:20-43", "include/fakeit/MockImpl.hpp:273-282"]}
{"id": "C95", "title": "Mocked methods may have any signature", "statement": "Whatever a virtual method returns and takes (nothing, numbers, small or large classes, objects by value), on every platform: if it is stubbed, the call reaches the stubbings of the object's mock with exactly the arguments and the result arrives at the caller's place; if it was not mentioned, the call ends in the report of an unmocked method; a stubbed destructor is reached by delete and by an explicit call; objects passed by value are destroyed.", "quantifier": "eight platforms (x86-64, AArch64, 32-bit ARM and x86, MinGW 64 and 32, MSVC 64 and 32), all result types by size and triviality, all parameter lists", "why_tests_cant": "a test runs on one platform with few signatures; the library's tests call unmocked methods that return void or int", "anchors": ["include/fakeit/MockImpl.hpp:271-292", "include/mockutils/MethodProxyCreator.hpp:25-71", "include/mockutils/DynamicProxy.hpp:104-125", "include/mockutils/gcc/VirtualTable.hpp:95-115", "include/mockutils/mscpp/VirtualTable.hpp:215-236"]}
{"id": "C96", "title": "A method macro means the method that was written", "statement": "Method(mock, f) means the only method named f, and is refused by the compiler if the name is overloaded; OverloadedMethod, ConstOverloadedMethod, RefOverloadedMethod, ConstRefOverloadedMethod, RValRefOverloadedMethod, ConstRValRefOverloadedMethod with a prototype mean the method with exactly that result, parameters and qualifiers, or are refused; every method can be written down with one of them.", "quantifier": "all sets of overloaded methods that C++ admits, with all qualifiers (const, volatile, &, &&), all prototypes", "why_tests_cant": "the choice is made by the compiler from the whole set of overloads; a test compiles a few classes, and one that must not compile cannot be a test", "anchors": ["include/fakeit/api_macros.hpp:7-50", "include/fakeit/Mock.hpp:75-137", "include/fakeit/Prototype.hpp:8-47", "include/mockutils/VTUtils.hpp:30-35"]}
{"id": "C97", "title": "Values given to a mock may use mocked objects when they are destroyed", "statement": "The destructors of values that a mock keeps (arguments that were passed by value, what the answers captured) may call methods of mocked objects and delete objects that they own. When the mock is destroyed its own object is back to the methods of its class: deleting the object there is ignored for objects made by the library, calls of a wrapped object run its class's code, and other mocks answer and record as usual. Reset and ClearInvocationHistory destroy such values without harm as well, and the history of the mock is empty afterwards.", "quantifier": "any number of mocks of library-made and wrapped objects, any values with any sequences of calls and deletes in their destructors, both orders in which standard libraries destroy the elements of a vector", "why_tests_cant": "depends on the order in which members and elements are destroyed, and what goes wrong is undefined behaviour that a test may survive; the combinations of values, methods and mocks are unbounded", "anchors": ["include/fakeit/MockImpl.hpp:40-76", "include/fakeit/MockImpl.hpp:108-120", "include/mockutils/DynamicProxy.hpp:55-98", "include/fakeit/RecordedMethodBody.hpp:98-150"]}
{"id": "C98", "title": "A mock that cannot be made leaves nothing behind", "statement": "If making a mock runs out of memory, an exception comes out, the wrapped object has its own methods as before, and no memory is lost. A mock that could be made gives back all its memory when it is destroyed, whatever was allocated meanwhile, and its object has its own methods again. ClearInvocationHistory forgets all recorded calls or, if it runs out of memory, none of them. Stubbing a data member constructs the member and makes the mock its owner, or, if memory runs out or the constructor of the member throws, leaves no member constructed and no memory lost.", "quantifier": "every allocation that may fail, every pattern of failures, mocks of library-made and wrapped objects, the virtual tables of GCC/clang and of MSVC for 64 and 32 bit with any number of base classes, any number of stubbed methods", "why_tests_cant": "each allocation would have to fail once in each situation and for each compiler; leaks are not observable through the API", "anchors": ["include/fakeit/MockImpl.hpp:28-42", "include/fakeit/MockImpl.hpp:68-76", "include/mockutils/DynamicProxy.hpp:68-85", "include/mockutils/DynamicProxy.hpp:151-160", "include/mockutils/FakeObject.hpp:48-64", "include/mockutils/gcc/VirtualTable.hpp:84-93", "include/mockutils/gcc/VirtualTable.hpp:141-152", "include/mockutils/mscpp/VirtualTable.hpp:58-135"]}
{"id": "C99", "title": "typeid and dynamic_cast see the object of a mock as an object of its class", "statement": "typeid(mock.get()) is typeid(C) for Mock<C, ...>, and dynamic_cast of a pointer or reference to one of C's bases does with the object of a mock what it does with any object of class C: it gives the object for C and its bases and null for other classes. Stubbing, faking, spying and Reset do not change this.", "quantifier": "all classes with single inheritance of any depth, all lists of base classes that the compiler accepts in Mock<C, ...>, all pairs of source and target classes, all sequences of changes to the virtual table, GCC/clang and MSVC for 32 and 64 bit", "why_tests_cant": "unbounded hierarchies and casts, on platforms the tests may not run on; the structures are read by the run time library of the compiler only", "anchors": ["include/mockutils/mscpp/VirtualTable.hpp:34-134", "include/mockutils/mscpp/VirtualTable.hpp:264-273", "include/mockutils/gcc/VirtualTable.hpp:141-149"]}
{"id": "C100", "title": "Fake, Spy and assignments that run out of memory answer for the first of their methods and leave the mock usable", "statement": "Fake(a, b, ...), Spy(a, b, ...) or Method(mock, foo) = g either gives the mock one answer for each of the expressions, or throws std::bad_alloc. If it throws, the mock has complete answers for some first part of the expressions in order (possibly none) and for no others; answers and calls recorded before are as they were, the mock can still be called and destroyed, and once the expressions exist nothing is leaked. It is never undefined.", "quantifier": "all numbers of expressions, with and without Using, all patterns of failing allocations, all states of a mock, all tests that mix such statements with When and with calls", "why_tests_cant": "tests do not fail allocations, and there are many places where one can fail for each expression and each state of the mock", "anchors": ["include/fakeit/FakeFunctor.hpp:17-37", "include/fakeit/SpyFunctor.hpp:19-46", "include/fakeit/MethodMockingContext.hpp:94-101", "include/fakeit/MethodMockingContext.hpp:135-147"]}
{"id": "C101", "title": "Arguments with an operator<< of their own print themselves into reports", "statement": "The report of an unexpected call, of a failed verification or of VerifyNoOtherInvocations shows each argument and operand as its own operator<< prints it into a fresh stream: format flags or a failed stream left by one value do not reach another. operator<< may call stubbed methods of the mock. If one throws, the exception of the first such value in the order of reading leaves the call or verification in place of the report, after the listeners were told. Reports never change the calls that were recorded before, nor which are verified. Verifications that hold or are converted to bool print nothing.", "quantifier": "all printers (sequences of insertions, changes of flags, calls of stubbed and unstubbed methods, exceptions), all arguments, patterns, histories and nestings, adapters that throw and that return", "why_tests_cant": "operator<< is arbitrary code, may be nested without bound and may invalidate what the report is made of; which framework is used decides how often it runs", "anchors": ["include/mockutils/Formatter.hpp:72-79", "include/mockutils/TuplePrinter.hpp:18-51", "include/fakeit/DefaultEventFormatter.hpp:18-146", "include/fakeit/RecordedMethodBody.hpp:126-150", "include/fakeit/SequenceVerificationExpectation.hpp:67-104", "include/fakeit/FakeitContext.hpp:24-58", "config/catch/CatchFakeit.hpp:73-83"]}
{"id": "C102", "title": "Method expressions can be kept across a Reset", "statement": "A method expression that is kept in a variable remains usable after Reset of its mock: Verify and VerifyNoOtherInvocations through it pass exactly when they would through an expression written anew, that is, according to the calls that were answered since the last Reset or ClearInvocationHistory. Exception: an expression that a stubbing statement was written with must not be used once a Reset has undone that stubbing (undefined). A verification changes nothing that later calls and reports tell, provided its expression was written since the last Reset of the mock; otherwise it turns an unstubbed method of a wrapped object into an unexpected one.", "quantifier": "all sequences of writing expressions, Fake, calls, Verify, VerifyNoOtherInvocations, Reset and ClearInvocationHistory on any number of mocks and methods, all conditions and arguments", "why_tests_cant": "the expression looks its record up again at each use; what it finds depends on all Resets, stubbings and verifications before", "anchors": ["include/fakeit/MockImpl.hpp:217-225", "include/fakeit/MockImpl.hpp:314-323", "include/fakeit/MethodMockingContext.hpp:86-138", "include/mockutils/DynamicProxy.hpp:91-98", "include/fakeit/RecordedMethodBody.hpp:105-169"]}
{"id": "C103", "title": "Reports name the methods as the test wrote them", "statement": "Reports of unexpected calls, of failed verifications and of VerifyNoOtherInvocations name each method by the mock and method of the expression that was written last for it. Exceptions: after a Reset an expression that was kept shows the name that the compiler has for the type of the method, until the method is written again; and overloads of a method have the same name, so that a report does not tell them apart.", "quantifier": "all sequences of writing expressions, Fake, calls, Verify, VerifyNoOtherInvocations, Reset and ClearInvocationHistory, all names given by the compiler", "why_tests_cant": "the name belongs to the record of the method, which all expressions share and Reset discards; it depends on all earlier statements", "anchors": ["include/fakeit/api_macros.hpp:28-50", "include/fakeit/DomainObjects.hpp:25-50", "include/fakeit/MockImpl.hpp:334-338", "include/fakeit/RecordedMethodBody.hpp:166-169", "include/fakeit/MethodMockingContext.hpp:107-111", "include/fakeit/ActualInvocation.hpp:57-62"]}
{"id": "C104", "title": "What reports show for an argument of each type", "statement": "Reports show numbers by their digits, bool as true or false, char in single quotes, C strings in double quotes ([nullptr] if null), other pointers to objects as addresses, types with operator<< by it, types that cannot be printed as ?. Exceptions: signed and unsigned char (std::uint8_t) are shown as a character without quotes, pointers to them as a text without quotes, stream buffers by their content; pointers to functions and members, and before C++23 to volatile objects, are shown as 1 or 0; nullptr before C++17 as ?; types that only convert to a printable type as that type.", "quantifier": "all parameter types (arithmetic, enumerations, pointers, nullptr, classes with or without operator<< or a conversion), ways of passing, versions of C++ from 11 to 23, values and memories", "why_tests_cant": "the choice is made by partial specialisation and overload resolution per type and version of C++; there are infinitely many types, and a test compiles as one version", "anchors": ["include/mockutils/Formatter.hpp:18-90", "include/mockutils/type_utils.hpp:24-27", "include/mockutils/type_utils.hpp:47-65", "include/mockutils/TuplePrinter.hpp:19-45"]}
{"id": "C105", "title": "Methods with parameters of any type can be stubbed", "statement": "Whether a parameter can be shown does not decide whether a test compiles: a method can be stubbed whatever the types of its parameters. Exceptions: parameters by reference to a volatile object; and, when compiled as C++20 or later, parameters of type wchar_t, char8_t, char16_t, char32_t or pointers to them. So a test that compiles as C++17 need not compile as C++20.", "quantifier": "all parameter types, ways of passing, versions of C++ from 11 to 23", "why_tests_cant": "a test that does not compile cannot be run, and each compiles as one version of C++", "anchors": ["include/mockutils/Formatter.hpp:69-90", "include/mockutils/type_utils.hpp:59-64", "include/mockutils/TuplePrinter.hpp:19-45", "include/fakeit/ActualInvocation.hpp:57-62"]}
{"id": "C106", "title": "Making a report looks at nothing but the arguments", "statement": "Reports can be made whatever the pointers among the recorded arguments lead to: dangling, null or uninitialised memory. Exceptions: pointers to char, signed char and unsigned char (so also std::uint8_t, bytes of a buffer) are read up to a zero, so that a report about a buffer without a zero, or about a null pointer to bytes, is undefined; the content of stream buffers is read; so are such pointers to which classes convert.", "quantifier": "all parameter types, ways of passing, versions of C++ from 11 to 23, values and memories", "why_tests_cant": "what lies behind a pointer when a report is made is undefined to read, and a test can pass by chance", "anchors": ["include/mockutils/Formatter.hpp:40-85", "include/mockutils/type_utils.hpp:59-64", "include/mockutils/TuplePrinter.hpp:19-45"]}
{"id": "C107", "title": "Throw(x) throws what throw x; would", "statement": "A call answered by Throw(x), Throw(n_Times(x)), Throw(x, y, ...) or AlwaysThrow(x) throws a copy of x with the value and static type it had at the time of the statement: the handlers around the call catch what they would catch of throw x; and later changes of x do not matter. Exceptions: a text given as an array (Throw(\"...\")) is thrown as a pointer into the mock, so that reading it after the mock was Reset or destroyed is undefined; and AlwaysThrow of an array, for methods without a result, keeps the address instead of the text. As with throw, an object given by a reference to a base class is cut to the base.", "quantifier": "all class hierarchies, operands (objects, arrays, pointers), quantities, handlers, and sequences of stubbings, assignments, calls, Resets and reads", "why_tests_cant": "which copy is thrown, and how long it lives, depends on the type of the operand, the method and everything done between statement, call and handler; a dangling pointer can read the right text by chance", "anchors": ["include/fakeit/StubbingProgress.hpp:107-130", "include/fakeit/StubbingProgress.hpp:258-281", "include/fakeit/Action.hpp:31-79", "include/fakeit/ActionSequence.hpp:40-54"]}
{"id": "C108", "title": "Methods whose parameters cannot be copied", "statement": "Spy of a method compiles exactly if everything the method takes by value can be copied and nothing is taken by rvalue reference; the original method then always gets copies, and the program is never aborted for lack of them. Where a parameter is known to be move-only (std::unique_ptr, classes with such members, vectors of them, rvalue references), the compiler says to use SpyWithoutVerify. All other statements (When, Fake, Method = ..., Verify, SpyWithoutVerify) compile for such methods. Exception: a method that takes by value a container other than std::vector of move-only objects, or a class with such a container or vector as a member, can be neither spied nor stubbed nor verified in any way, unless another parameter is known to be move-only; the error is inside the library.", "quantifier": "all lists of parameters, of all types made of copyable and move-only types by containers, vectors and classes, by value, reference or rvalue reference", "why_tests_cant": "the property is about which programs compile, for types without number; a test is one program, and a test that should not compile cannot be part of a suite that does", "anchors": ["include/fakeit/SpyFunctor.hpp:22-33", "include/fakeit/MockImpl.hpp:183-213", "include/mockutils/type_utils.hpp:95-102", "include/mockutils/type_utils.hpp:19-22"]}
{"id": "C109", "title": "What an expression means in Method(mock, f)(...), Using and Matching", "statement": "In Method(mock, f)(...) values are arguments and functions that can be called with the arguments of the method are predicates: neither is ever taken for the other, and one expression for a method with one parameter is an argument exactly if it gives a value of the parameter. Using with as many expressions as parameters compares them. Exceptions: nullptr (and 0, {}) for a class does not compile in the parentheses, though Using(nullptr) does for smart pointers; for methods with other than one parameter, or one taken by non-const reference, nullptr, 0 and {} compile as an empty predicate, so that calls throw std::bad_function_call; for a parameter of type bool a predicate without captures is ambiguous, and a lambda that does not fit compiles and stands for true; Using(predicate) is Matching for methods with other than one parameter and does not compile for one.", "quantifier": "all lists of parameters (bool, numbers, pointers, classes with any conversions, by value or reference) and all lists of expressions (values, nullptr, 0, {}, functions, lambdas)", "why_tests_cant": "the meaning is chosen by overload resolution for each pair of types; a test fixes one pair, and tests that should not compile cannot be part of a suite", "anchors": ["include/fakeit/MethodMockingContext.hpp:230-263", "include/fakeit/MethodMockingContext.hpp:300-319", "include/fakeit/MatchersCollector.hpp:50-82", "include/fakeit/invocation_matchers.hpp:120-143"]}
{"id": "C110", "title": "Method(mock, f) = x answers with the function or the value x", "statement": "After Method(mock, f) = x every call returns what the function x returns, if x can be called with the arguments of the method, and the value x if x is a value that converts to the result. Exceptions: Method(mock, f) = {} compiles, and gives the value {} for numbers and pointers, but if the result is a class or void every call throws std::bad_function_call; a lambda without captures that does not fit the method compiles if the result is bool, and calls return true; nullptr (or 0) for a smart pointer, or any class, does not compile.", "quantifier": "all result types (void, bool, numbers, pointers, classes with any conversions) and all expressions (values, nullptr, 0, {}, functions, lambdas)", "why_tests_cant": "which operator= is meant is chosen by overload resolution for each pair of types; a test fixes one pair", "anchors": ["include/fakeit/MethodMockingContext.hpp:281-287", "include/fakeit/MethodMockingContext.hpp:321-337", "include/fakeit/MethodMockingContext.hpp:341-383", "include/fakeit/Action.hpp:57-77"]}
{"id": "C111", "title": "Return of a braced list returns its value", "statement": "Return({n, x}) returns once the value that {n, x} gives, if x alone does not convert to the result; AlwaysReturn({n, x}) always returns that value. Exception: if x alone converts to the result implicitly, as for std::complex or a fraction with a constructor of one or two numbers, Return({n, x}) means n_Times(x): the first n calls return the value of x.", "quantifier": "all result types, by whether {n, x} and x convert to them, all n and all calls", "why_tests_cant": "it depends on all constructors of the result type, and the value returned is wrong silently", "anchors": ["include/fakeit/StubbingProgress.hpp:50-76", "include/fakeit/StubbingProgress.hpp:86-90", "include/fakeit/Quantifier.hpp:23-30"]}
{"id": "C112", "title": "A verification asks each condition about each call a bounded number of times, in order", "statement": "While Verify(...) searches the recorded calls, it asks the conditions of the expected sequences (Matching predicates, argument matchers) only about calls that are there, and in order: attempts to match a sequence start at later and later calls, and each attempt goes from call to call until a condition refuses. No call is asked about more often than the longest sequence has expectations; with sequences of one expectation each, once at most. One expectation alone is asked about every call exactly once in the order of the calls, and the count is the number of yes, whatever the predicate remembers. If a condition throws, nothing is asked afterwards. The search always ends, without undefined behaviour. If the answers do not depend on what the conditions remember, the count is the largest number of occurrences. Exceptions: in a + b a call may be asked about twice by the same predicate, and predicates that remember may count differently in a second verification.", "quantifier": "all patterns of non-empty sequences, all lists of calls, all conditions with any memory, throwing or not", "why_tests_cant": "it speaks of all predicates with side effects and all lists of calls", "anchors": ["include/fakeit/MatchAnalysis.hpp:29-39", "include/fakeit/MatchAnalysis.hpp:46-59", "include/fakeit/MatchAnalysis.hpp:72-92", "include/fakeit/MethodMockingContext.hpp:125-133"]}
{"id": "C113", "title": "Arguments are moved into the record once and not copied", "statement": "A call of a mocked method that is answered by a function (Do, Return, Throw, Fake) moves each argument passed by value once, into the record of the call (copies it if its type has no move constructor); nothing else is moved or copied, references of both kinds designate the caller's objects all the way, and the function gets the recorded objects themselves. Spy copies each argument passed by value once more and gives the copies to the original, so the record keeps the values. SpyWithoutVerify moves them on instead. If a constructor throws while the record is made, the exception reaches the caller, nothing is recorded, all objects made are destroyed and only the number of the call is used up. Exceptions: after SpyWithoutVerify the record holds moved-from objects, and a call whose arguments throw while a spy copies them for the original is recorded although the original did not run.", "quantifier": "all lists of parameter types (by value, with and without move constructor, by lvalue and rvalue reference), all arguments, also several references to one object, all constructors that throw", "why_tests_cant": "it is about all signatures and every point where a constructor may throw", "anchors": ["include/mockutils/MethodProxyCreator.hpp:44-70", "include/fakeit/RecordedMethodBody.hpp:126-150", "include/fakeit/ActualInvocation.hpp:36-40", "include/mockutils/type_utils.hpp:37-45", "include/mockutils/TupleDispatcher.hpp:15-41", "include/fakeit/MockImpl.hpp:182-213"]}
{"id": "C114", "title": "A call is compared from left to right, newest stubbing first, and no further than needed", "statement": "When a mocked method is called, the conditions of its stubbings are evaluated newest first, an older one only after all newer ones refused; within Using(...) the positions are compared from left to right, a position only after all to its left accepted. Each comparison runs the operator that the matcher names (== for plain values), with the argument as left and the given value as right operand; Any and _ compare nothing; nothing is compared twice in one call. If an operator or predicate throws, nothing further is compared, the exception reaches the caller and the call is not recorded. A position that refuses keeps everything to its right from being looked at, also comparisons that would be undefined (StrEq with a null pointer). Using(Method(...)...) in a verification compares the recorded calls in the same way, oldest first, except those that were answered through the same expression. Exceptions: a refusing position does not protect those to its left, and an older stubbing that accepts the call does not protect against a newer one whose comparison is undefined.", "quantifier": "all operators and predicates with any memory, throwing or not, any number of stubbings and positions, all arguments, all recorded calls", "why_tests_cant": "operators are arbitrary code; a test sees one order for one call, and an undefined comparison may pass by chance", "anchors": ["include/fakeit/RecordedMethodBody.hpp:71-82", "include/fakeit/RecordedMethodBody.hpp:126-157", "include/fakeit/invocation_matchers.hpp:25-85", "include/fakeit/invocation_matchers.hpp:119-166", "include/mockutils/TupleDispatcher.hpp:43-58", "include/fakeit/argument_matchers.hpp:59-257", "include/fakeit/MethodMockingContext.hpp:113-120"]}
{"id": "C115", "title": "Conditions and actions may verify", "statement": "A predicate given to Matching(...) and a function given to Do(...) may contain Verify and VerifyNoOtherInvocations statements about the mock that is being called or verified. Every such verification sees exactly the calls recorded before it began: inside a condition of a call not that call, inside the action that answers the call also that call. So VerifyNoOtherInvocations at the beginning of an action always fails, and a verification of the expression that the action answers for counts the call. The calls matched by verifications that passed, and no others, become verified, and stay so if the call is unexpected or a condition throws; no call is added, lost or changed. An outer verification whose condition answers by the arguments alone counts exactly the calls that it accepts, whatever is verified inside. All of this comes to an end if no condition verifies itself, directly or through others. Exceptions: a condition that verifies itself never ends once a call is recorded that it did not answer; and a condition of a call does not count that call.", "quantifier": "all predicates and actions, any number and nesting of verifications whose answers decide what is verified next, all recorded calls, all stubbings", "why_tests_cant": "nested verifications can be arranged in infinitely many ways, and what they see depends on the moment at which the library records a call", "anchors": ["include/fakeit/RecordedMethodBody.hpp:71-82", "include/fakeit/RecordedMethodBody.hpp:126-150", "include/fakeit/invocation_matchers.hpp:119-143", "include/fakeit/MatchAnalysis.hpp:16-92", "include/fakeit/SequenceVerificationExpectation.hpp:67-104", "include/fakeit/VerifyNoOtherInvocationsVerificationProgress.hpp:59-80"]}
{"id": "C116", "title": "Function objects keep their own state", "statement": "A function object with a state (a mutable lambda, say) may be given to Do, Do(n_Times(...)), AlwaysDo and Method(mock, f) = .... Each of these makes an object of its own, with the state that the given object has when the statement is executed, and runs that one object for all the calls it answers: the state is kept from call to call, also when a call throws. The object in the test is not changed by calls of the mocked method, and what happens to it later does not change the answers; links that are given the same object do not influence each other. With std::ref(f) there is one object, and calls of the mocked method and of f continue each other. Functions are copied when they are given (three times by Do and AlwaysDo, twice under a quantity, five times by an assignment) and never by a call; no temporary survives the statement. All functions given since the last Reset are held until Reset or the end of the mock. Exceptions to what one may expect: Do(f, f) is not Do(2_Times(f)); and a function (with all it has captured) is not let go after its last call, nor when a newer stubbing covers it.", "quantifier": "all function objects and states, all tests that stub, call, use their own objects and reset in any order, all quantities that are positive ints", "why_tests_cant": "whether the copy that runs is always the same one depends on every way of giving a function and on every order of statements; a test tries some", "anchors": ["include/fakeit/StubbingProgress.hpp:145-165", "include/fakeit/MethodMockingContext.hpp:144-147", "include/fakeit/MethodMockingContext.hpp:249-251", "include/fakeit/MethodMockingContext.hpp:321-323", "include/fakeit/Action.hpp:31-76", "include/mockutils/TupleDispatcher.hpp:14-41", "include/fakeit/Quantifier.hpp:24-31", "include/fakeit/ActionSequence.hpp:36-54", "include/mockutils/DynamicProxy.hpp:91-98"]}
{"id": "C117", "title": "Memory that is used again does not confuse verifications", "statement": "A verification counts a recorded call for an expression if the stubbing of that very expression answered the call, or if its condition accepts the arguments. Expressions come and go (temporaries in Verify, variables that leave their scope, Reset), and the memory manager may place a new expression where an old one was. Still no expression is ever taken for another one: what calls and verifications show does not depend on the places that the memory manager chooses, also if conditions answer differently each time they are asked. The expression that answered a recorded call exists as long as the record does; temporaries and everything that was reset are destroyed, expressions in variables that were not used for a stubbing survive a Reset of the mock. An expression that was used for a stubbing counts all recorded calls the stubbing answered, whatever its condition says now; a condition that decides by the arguments counts exactly the recorded calls it accepts. Rules: an expression in a variable is used for one stubbing at most, and not verified after a Reset of the mock it was used to stub (that is undefined as soon as calls are recorded, even if a new expression lies at the same place). Exception: a verification by a condition with a memory may count differently when it is repeated.", "quantifier": "all memory managers that do not hand out places in use, all conditions (also with a memory), all tests of stubbings, calls, verifications, variables, ClearInvocationHistory and Reset in any order", "why_tests_cant": "where a new object lies is up to the memory manager, and a test sees one manager in one run", "anchors": ["include/fakeit/invocation_matchers.hpp:37-41", "include/fakeit/invocation_matchers.hpp:127-131", "include/fakeit/MethodMockingContext.hpp:76-106", "include/fakeit/MethodMockingContext.hpp:136-139", "include/fakeit/ActualInvocation.hpp:36-55", "include/fakeit/RecordedMethodBody.hpp:35-57", "include/fakeit/RecordedMethodBody.hpp:126-150", "include/mockutils/DynamicProxy.hpp:91-98"]}
