{
 "claims": [
  {
   "property": "C01",
   "status": "proved",
   "theorems": [
    "C01_newest",
    "C01_newest_reentrant"
   ],
   "note": "Whole programs; actions that use the library themselves: counted ones."
  },
  {
   "property": "C02",
   "status": "proved",
   "theorems": [
    "C02_playback",
    "C02_program"
   ],
   "note": "Plays back any list of appended actions in order, each as often as its quantity says; C02_program: in whole programs, with other calls and stubbings in between."
  },
  {
   "property": "C03",
   "status": "proved",
   "theorems": [
    "C03_exhausted",
    "C03_no_fallback",
    "C02_program"
   ],
   "note": "Any number of further calls, in whole programs; listeners that throw: C56_unsupported."
  },
  {
   "property": "C04",
   "status": "proved",
   "theorems": [
    "C04_always",
    "C02_program"
   ],
   "note": "C02_program: in whole programs."
  },
  {
   "property": "C05",
   "status": "proved",
   "theorems": [
    "C05_zero_quantity_refuted"
   ],
   "note": "Refuted: an action appended with quantity 0 (or less) repeats forever."
  },
  {
   "property": "C06",
   "status": "proved",
   "theorems": [
    "C06_throwing",
    "C01_newest_reentrant"
   ],
   "note": "Exceptions other than the library's own NoMoreRecordedActionException."
  },
  {
   "property": "C07",
   "status": "proved",
   "theorems": [
    "C07_unmatched"
   ],
   "note": "Listeners that return; otherwise C56_unsupported."
  },
  {
   "property": "C08",
   "status": "proved",
   "theorems": [
    "C08_history",
    "C08_any_program"
   ],
   "note": "C08_history: exactly which calls, for series of calls and stubbing statements whose actions do not use the library. C08_any_program: order and belonging, for every program."
  },
  {
   "property": "C09",
   "status": "proved",
   "theorems": [
    "C09_call_order",
    "C09_wrap_refuted"
   ],
   "note": "All programs of the world model, below 2^32 calls. Beyond that the order breaks, and a later call counts as made earlier."
  },
  {
   "property": "C10",
   "status": "proved",
   "theorems": [
    "C10_ordinals",
    "C10_wrap_refuted"
   ],
   "note": "Below 2^32 increments; beyond that the order breaks."
  },
  {
   "property": "C11",
   "status": "proved",
   "theorems": [
    "C11_others_untouched"
   ],
   "note": ""
  },
  {
   "property": "C12",
   "status": "proved",
   "theorems": [
    "C12_reset",
    "C12_at_rest",
    "C12_unmocked",
    "C12_destructor",
    "C12_original",
    "C13_reset_as_new"
   ],
   "note": ""
  },
  {
   "property": "C13",
   "status": "proved",
   "theorems": [
    "C13_reset_as_new",
    "C13_new_as_reset",
    "C13_made_new",
    "C13_made_spying",
    "C45_dispatch",
    "C13_destructor_after_reset_refuted",
    "C13_destructor_world_refuted"
   ],
   "note": "Refuted for the destructor: undefined when it is stubbed after Reset and called. For methods proved: every later program has the results it has with a new mock."
  },
  {
   "property": "C14",
   "status": "proved",
   "theorems": [
    "C14_clear",
    "C14_same_answers"
   ],
   "note": "Data members of library-created objects must be zero (C15)."
  },
  {
   "property": "C15",
   "status": "proved",
   "theorems": [
    "C15_clear_refuted"
   ],
   "note": "Refuted: the data members are zeroed."
  },
  {
   "property": "C16",
   "status": "proved",
   "theorems": [
    "C16_interrupted",
    "C16_interrupted_first",
    "C16_interrupted_spy_refuted"
   ],
   "note": "Refuted: for a method of a wrapped object that was never mentioned, the statement removes the original. In all other cases proved: no stubbing is added."
  },
  {
   "property": "C17",
   "status": "proved",
   "theorems": [
    "C17_fake"
   ],
   "note": "Lists of methods; any later program."
  },
  {
   "property": "C18",
   "status": "proved",
   "theorems": [
    "C18_default_reference_refuted",
    "C18_null_refuted"
   ],
   "note": "Refuted: methods returning references share one object, or have none to refer to. Methods returning values: C17_fake."
  },
  {
   "property": "C19",
   "status": "proved",
   "theorems": [
    "C19_spy",
    "C19_call",
    "C19_self_call"
   ],
   "note": "Originals that do not reset or destroy their mock (C59)."
  },
  {
   "property": "C20",
   "status": "proved",
   "theorems": [
    "C20_restored",
    "C20_plain_object",
    "C20_class_stays"
   ],
   "note": "One mock per object; for two see C57."
  },
  {
   "property": "C21",
   "status": "proved",
   "theorems": [
    "C21_assign"
   ],
   "note": "Any later program."
  },
  {
   "property": "C22",
   "status": "proved",
   "theorems": [
    "C22_verify",
    "C22_all_counted",
    "C22_single_count",
    "C22_default_verdict",
    "C22_exact_verdict"
   ],
   "note": "Whole statements in whole programs, any condition, source list and chain of quantifiers; and the pieces."
  },
  {
   "property": "C23",
   "status": "proved",
   "theorems": [
    "C23_contiguous",
    "C23_in_order"
   ],
   "note": ""
  },
  {
   "property": "C24",
   "status": "proved",
   "theorems": [
    "C24_max_count",
    "C31_verify"
   ],
   "note": ""
  },
  {
   "property": "C25",
   "status": "proved",
   "theorems": [
    "C24_max_count",
    "C31_verify"
   ],
   "note": ""
  },
  {
   "property": "C26",
   "status": "proved",
   "theorems": [
    "C26_repeat_is_sum",
    "C26_rejects",
    "C26_length",
    "C26_program"
   ],
   "note": ""
  },
  {
   "property": "C27",
   "status": "proved",
   "theorems": [
    "C27_marks_refuted",
    "C27_marks",
    "C27_marks_one_sequence"
   ],
   "note": "Refuted: with several sequences the unfinished last match is marked too. Proved: exactly what is marked for every pattern and history, and the property itself for patterns of one sequence."
  },
  {
   "property": "C28",
   "status": "proved",
   "theorems": [
    "C31_verify",
    "C28_status",
    "C28_failed_release",
    "C49_conversion"
   ],
   "note": "C31_verify and C28_status: whole statements; the others: stored verification objects."
  },
  {
   "property": "C29",
   "status": "proved",
   "theorems": [
    "C29_no_others"
   ],
   "note": "Whole statements in whole programs: mocks, methods with conditions, Unverified(...), nested; with and without conversion to bool."
  },
  {
   "property": "C30",
   "status": "proved",
   "theorems": [
    "C30_verified_stays"
   ],
   "note": "Any operation, user code included."
  },
  {
   "property": "C31",
   "status": "proved",
   "theorems": [
    "C31_verify",
    "C22_verify"
   ],
   "note": "Whole statements in whole programs."
  },
  {
   "property": "C32",
   "status": "proved",
   "theorems": [
    "C32_sorted",
    "C32_iteration_order",
    "C32_union"
   ],
   "note": ""
  },
  {
   "property": "C33",
   "status": "proved",
   "theorems": [
    "C33_life"
   ],
   "note": ""
  },
  {
   "property": "C34",
   "status": "proved",
   "theorems": [
    "C34_twice_refuted"
   ],
   "note": "Refuted: after a failed conversion to bool the second gives true."
  },
  {
   "property": "C35",
   "status": "proved",
   "theorems": [
    "C35_at_least_zero_refuted",
    "C35_at_least",
    "C35_negative",
    "C35_refused"
   ],
   "note": "Refuted for n = 0 (AtLeast(0) acts like Never). Proved for every n >= 1, and that negative arguments are rejected, also in whole programs."
  },
  {
   "property": "C36",
   "status": "proved",
   "theorems": [
    "C36_verify",
    "C36_objects",
    "C36_verify_refuted"
   ],
   "note": "Refuted: mentioning an unstubbed method of a spied object in Verify makes it unexpected. For methods mentioned before proved: every later program that does not verify has the same results."
  },
  {
   "property": "C37",
   "status": "proved",
   "theorems": [
    "C37_condition",
    "C37_using",
    "C37_using_defined",
    "C37_matching"
   ],
   "note": ""
  },
  {
   "property": "C38",
   "status": "proved",
   "theorems": [
    "C38_comparison",
    "C38_int",
    "C38_bool",
    "C38_char",
    "C38_pointer",
    "C38_eq",
    "C38_ne",
    "C38_double",
    "C38_nan",
    "C38_std_string",
    "C38_literal",
    "C38_literal_pointer_refuted"
   ],
   "note": "Refuted for string literals against const char* parameters written as plain arguments of Using."
  },
  {
   "property": "C39",
   "status": "proved",
   "theorems": [
    "C39_c_strings",
    "C39_null"
   ],
   "note": ""
  },
  {
   "property": "C40",
   "status": "proved",
   "theorems": [
    "C40_int",
    "C40_double",
    "C40_double_sound",
    "C40_bad_margin",
    "C40_double_exact_refuted"
   ],
   "note": "Exact for integers; for doubles the distance is the rounded one."
  },
  {
   "property": "C41",
   "status": "proved",
   "theorems": [
    "C41_identity_refuted"
   ],
   "note": "Refuted: the stubbing expression keeps accepting the call after the referenced value changed."
  },
  {
   "property": "C42",
   "status": "proved",
   "theorems": [
    "C42_record",
    "C42_as_passed",
    "C42_set",
    "C42_set_named",
    "C42_set_refuted",
    "C42_in_order",
    "C01_newest"
   ],
   "note": "Refuted for ReturnAndSet(r, v1, ...): it moves from objects passed by value, so that the record no longer shows them. The rest holds; numbers, pointers and references are always kept."
  },
  {
   "property": "C43",
   "status": "proved",
   "theorems": [
    "C43_positional",
    "C43_undefined",
    "C43_variable_result",
    "C43_lvalue_refuted"
   ],
   "note": "Values given as rvalues; lvalues are held by reference."
  },
  {
   "property": "C44",
   "status": "proved",
   "theorems": [
    "C44_placeholders",
    "C44_undefined",
    "C44_variable_result"
   ],
   "note": ""
  },
  {
   "property": "C45",
   "status": "proved",
   "theorems": [
    "C45_dispatch",
    "C45_id_collision_refuted"
   ],
   "note": "With ids distinct per method, as __COUNTER__ gives within one translation unit."
  },
  {
   "property": "C46",
   "status": "proved",
   "theorems": [
    "C46_layout"
   ],
   "note": ""
  },
  {
   "property": "C47",
   "status": "proved",
   "theorems": [
    "C47_destructor",
    "C47_program"
   ],
   "note": "C47_destructor: both table layouts. C47_program: whole programs, GCC layout."
  },
  {
   "property": "C48",
   "status": "proved",
   "theorems": [
    "C48_delivery",
    "C48_throwing_listener_refuted"
   ],
   "note": "For listeners that return."
  },
  {
   "property": "C49",
   "status": "proved",
   "theorems": [
    "C33_life",
    "C49_conversion"
   ],
   "note": ""
  },
  {
   "property": "C50",
   "status": "proved",
   "theorems": [
    "C50_pattern_text",
    "C50_method_text",
    "C50_text_operands_refuted"
   ],
   "note": "For operands that print as single texts."
  },
  {
   "property": "C51",
   "status": "proved",
   "theorems": [
    "C51_report",
    "C51_numbers"
   ],
   "note": ""
  },
  {
   "property": "C52",
   "status": "proved",
   "theorems": [
    "C52_shared",
    "C52_throwing_assignment_refuted",
    "C52_after_throw_refuted",
    "C52_dead_handle"
   ],
   "note": "Refuted when releasing the old object throws inside an assignment."
  },
  {
   "property": "C53",
   "status": "proved",
   "theorems": [
    "C53_reentrant_refuted",
    "C53_reentrant_ub_refuted",
    "C53_lost_refuted",
    "C53_program_refuted",
    "C53_within"
   ],
   "note": "Refuted: a nested call runs the same action again, and a re-entrant action removes actions that were not run. Proved when the action is left over at the end of the outer call: it lasts, or its quantity exceeds the number of calls nested in one another."
  },
  {
   "property": "C54",
   "status": "proved",
   "theorems": [
    "C54_stored_expression_refuted",
    "C54_condition_refuted",
    "C54_reset_refuted"
   ],
   "note": "Refuted: shared actions, double release, use of actions that a Reset released."
  },
  {
   "property": "C55",
   "status": "proved",
   "theorems": [
    "C55_times_refuted",
    "C55_times",
    "C55_time"
   ],
   "note": "Refuted: every literal above INT_MAX means another number. Proved for all others, and for n_Time."
  },
  {
   "property": "C56",
   "status": "proved",
   "theorems": [
    "C56_unsupported",
    "C56_unmocked"
   ],
   "note": "About the calls that enter the library with the right object; C95 says on which platforms and for which result types a call of an unmocked method does."
  },
  {
   "property": "C57",
   "status": "proved",
   "theorems": [
    "C57_two_mocks_refuted"
   ],
   "note": "Refuted: the class's own table is changed."
  },
  {
   "property": "C58",
   "status": "proved",
   "theorems": [
    "C58_reset_in_action_refuted"
   ],
   "note": "Refuted: undefined when the action is the last run of a counted action."
  },
  {
   "property": "C59",
   "status": "proved",
   "theorems": [
    "C59_reset_in_original_refuted"
   ],
   "note": "Refuted: the object is unusable afterwards."
  },
  {
   "property": "C60",
   "status": "proved",
   "theorems": [
    "C60_unwinding_refuted"
   ],
   "note": "Refuted: such statements silently do nothing."
  },
  {
   "property": "C61",
   "status": "proved",
   "theorems": [
    "C61_stored_verification_refuted",
    "C61_mock_gone_refuted"
   ],
   "note": "Refuted: reads a released method expression, or a mock that is gone."
  },
  {
   "property": "C62",
   "status": "proved",
   "theorems": [
    "C62_many_methods_refuted"
   ],
   "note": "Refuted: more than 1000 entries are undefined."
  },
  {
   "property": "C63",
   "status": "proved",
   "theorems": [
    "C63_returned_values",
    "C63_assigned_value",
    "C63_reference_refuted"
   ],
   "note": "Proved for methods that return by value. Refuted for methods that return a reference: the operand itself is kept."
  },
  {
   "property": "C64",
   "status": "proved",
   "theorems": [
    "C64_refined_expression_refuted"
   ],
   "note": "Refuted: Using changes the stored expression."
  },
  {
   "property": "C65",
   "status": "proved",
   "theorems": [
    "C65_stored_quantity_refuted"
   ],
   "note": "Refuted: the quantity refers to a temporary."
  },
  {
   "property": "C66",
   "status": "proved",
   "theorems": [
    "C66_members",
    "C66_undefined",
    "C66_wrapped",
    "C66_clear_refuted",
    "C66_twice_refuted",
    "C66_wrapped_refuted",
    "C66_assign_refuted"
   ],
   "note": "Proved for objects made by the library when each member is stubbed once between resets, and for objects of the user whose members are not stubbed; uses of members that are not stubbed or of a mock that is gone are undefined. Refuted after ClearInvocationHistory, for a second Stub of a member, for wrapped objects, and for values assigned to what Stub returns."
  },
  {
   "property": "C67",
   "status": "proved",
   "theorems": [
    "C67_copy_refuted",
    "C67_stub_copy_refuted",
    "C67_stub_after_refuted"
   ],
   "note": "Refuted: copying compiles, and using both mocks is undefined."
  },
  {
   "property": "C68",
   "status": "proved",
   "theorems": [
    "C68_object_dies_first_refuted"
   ],
   "note": "Refuted: the end of the mock writes to the dead object."
  },
  {
   "property": "C69",
   "status": "proved",
   "theorems": [
    "C69_threads_apart",
    "C69_same_method_refuted",
    "C69_verify_refuted",
    "C69_first_mention_refuted",
    "C69_stub_refuted",
    "C69_stubs_refuted"
   ],
   "note": "Refuted: two calls of one method, a call and a stubbing of it, two stubbings of it, a call and a verification of its mock, and a call and the first mention of a method declared earlier race. Proved for threads whose operations concern different mocks or different methods mentioned before."
  },
  {
   "property": "C70",
   "status": "proved",
   "theorems": [
    "C70_text",
    "C70_reset",
    "C70_catch_refuted"
   ],
   "note": "Proved for all frameworks but Catch. Refuted for Catch, whose adapter ignores the formatter."
  },
  {
   "property": "C71",
   "status": "proved",
   "theorems": [
    "C71_heard",
    "C71_tpunit_refuted"
   ],
   "note": "Proved for whole programs under every adapter but TpUnit's, assuming that the own exceptions of Catch, Doctest, Mettle, MsTest and NUnit are not std::exceptions. Refuted for TpUnit, whose adapter throws an exception derived from std::exception."
  },
  {
   "property": "C72",
   "status": "proved",
   "theorems": [
    "C72_places",
    "C72_no_place_refuted",
    "C72_wrong_place_refuted",
    "C72_unexpected"
   ],
   "note": "Refuted for MsTest, NUnit and QTest, which report no place or one inside the adapter. Proved for the others."
  },
  {
   "property": "C73",
   "status": "proved",
   "theorems": [
    "C73_stops",
    "C73_goes_on_refuted"
   ],
   "note": "Proved for whole programs under the adapters that throw. Refuted for GTest, QTest, Doctest and Boost before 1.59, which record the failure and go on."
  },
  {
   "property": "C74",
   "status": "proved",
   "theorems": [
    "C74_without_condition",
    "C74_verify_refuted",
    "C74_report",
    "C74_report_refuted"
   ],
   "note": "Proved for expressions without conditions, in whole programs: nothing is assumed of the memory. Refuted for conditions on arguments and for reports, which read through the dead references."
  },
  {
   "property": "C75",
   "status": "proved",
   "theorems": [
    "C75_sequence",
    "C75_sequence_empty",
    "C75_no_more",
    "C75_unexpected"
   ],
   "note": "Texts are assumed to be of one line each; operator<< of doubles and addresses is arbitrary."
  },
  {
   "property": "C76",
   "status": "proved",
   "theorems": [
    "C76_narrowed_refuted",
    "C76_float_refuted",
    "C76_fraction_refuted",
    "C76_held",
    "C76_passed",
    "C76_passed_bool",
    "C76_wide",
    "C76_equal",
    "C76_float",
    "C76_integer_operand",
    "C76_floating_operand",
    "C76_floating_operand_bool",
    "C76_received"
   ],
   "note": "Refuted: for narrowing conversions, f(300) for a signed char, f(2) for a bool, f(0.1) for a float, f(2.5) for an int. Proved if the parameter type holds the value, or is as wide as int and the operand; exactly which operands are accepted is proved for all integer types, for float parameters with double operands, and for integers with float or double. long double is not modelled."
  },
  {
   "property": "C77",
   "status": "proved",
   "theorems": [
    "C77_refuted",
    "C77_mixed_refuted",
    "C77_numbers",
    "C77_signless",
    "C77_mixed",
    "C77_mixed_rounded"
   ],
   "note": "Refuted: Gt(3u) accepts -5 for an int parameter; Eq(9007199254740992.0) accepts 9007199254740993. Proved if the common type is signed or neither number is negative; the other case is characterised. Integers with float or double: proved up to 2^24 and 2^53; beyond that the integer counts as the nearest number of the floating point type."
  },
  {
   "property": "C78",
   "status": "proved",
   "theorems": [
    "C78_temporary_refuted",
    "C78_moved_refuted",
    "C78_inline",
    "C78_stays",
    "C78_named",
    "C78_variables"
   ],
   "note": "Refuted: for a matcher of a temporary kept in a variable (auto m = Gt(5);), every use of which is undefined, and for one of a moved string used twice. Proved for matchers written in the condition and for those of living variables."
  },
  {
   "property": "C79",
   "status": "proved",
   "theorems": [
    "C79_temporary_refuted",
    "C79_reference_refuted",
    "C79_outlived_refuted",
    "C79_variables",
    "C79_factor"
   ],
   "note": "Refuted: for a kept sequence with an operand that is not a variable (auto s = Method(m, f) + Method(m, g);), for const auto &s = Method(m, f);, and for a sequence that outlives a variable it was made of; every later use is undefined. Proved for programs that make their sequences of variables and end scopes inside out."
  },
  {
   "property": "C80",
   "status": "proved",
   "theorems": [
    "C80_register_refuted",
    "C80_circle_refuted",
    "C80_nested",
    "C80_configure",
    "C80_throws",
    "C80_uncaught"
   ],
   "note": "Refuted: for a listener that registers or clears listeners (undefined), and for one that raises the event it hears of again (never ends). Proved for the rest: nested events, changes of the adapter, adapters that do anything, and listeners that throw (later ones then do not hear)."
  },
  {
   "property": "C81",
   "status": "proved",
   "theorems": [
    "C81_stub_refuted",
    "C81_reset_refuted",
    "C81_verify_refuted",
    "C81_calls",
    "C81_stub",
    "C81_stub_room",
    "C81_verify",
    "C81_verify_order",
    "C81_verify_cleared",
    "C81_uncaught"
   ],
   "note": "Refuted: for a condition that stubs its method and rejects (undefined for the newest stubbing, or when the vector has to move), that resets the mock without throwing, or that clears the history during a verification. Proved for conditions that make calls or throw, that stub and accept, that stub and reject with room left, and for verifications whose condition makes calls. One method of a library-created mock; conditions that verify are not modelled."
  },
  {
   "property": "C82",
   "status": "proved",
   "theorems": [
    "C82_virtual_refuted",
    "C82_second_refuted",
    "C82_wrapped_refuted",
    "C82_bases",
    "C82_wrapped",
    "C82_unwrapped",
    "C82_check",
    "C82_layout"
   ],
   "note": "Refuted: the compile-time check lets classes with a virtual base through, and conversion to that base reads a pointer of the mock as a distance; with clang, which has no check, calls through a second base with virtual methods are undefined. The same happens to an object of the user while it is wrapped (C82_wrapped_refuted); it is whole again afterwards (C82_unwrapped). Proved for bases that are reached along non-virtual single inheritance, for objects made by the library and for wrapped ones; layout of classes as in the Itanium ABI, which is an assumption of the model."
  },
  {
   "property": "C83",
   "status": "proved",
   "theorems": [
    "C83_type_refuted",
    "C83_added_refuted",
    "C83_wrapped",
    "C83_type"
   ],
   "note": "Refuted: while a mock of a base class wraps an object of a derived class, the object shows the base class, and calling a method that the derived class added is undefined. Proved: before and after, for objects made by the library, and when the mock is of the class of the object, the dynamic type is the class of the object; while wrapped it is exactly the class of the mock. GCC/Clang tables."
  },
  {
   "property": "C84",
   "status": "proved",
   "theorems": [
    "C84_moved",
    "C84_whole"
   ],
   "note": "One stubbing; the move constructor of the value type does not call mocked methods and does not throw."
  },
  {
   "property": "C85",
   "status": "proved",
   "theorems": [
    "C85_refuted",
    "C85_wrapped",
    "C85_own"
   ],
   "note": "Refuted: with MSVC and a class that has a virtual destructor, the third word in front of the object locator is read, which belongs to something else. Proved for GCC and clang, for MSVC without a virtual destructor, and for objects the library made."
  },
  {
   "property": "C86",
   "status": "proved",
   "theorems": [
    "C86_cxx17",
    "C86_refuted"
   ],
   "note": "Refuted: for C++11 and C++14, if the compiler performs one of the three moves, an object that was moved from calls an empty function in its destructor, which ends the program before the original runs. Proved for C++17 and for compilers that elide all three."
  },
  {
   "property": "C87",
   "status": "proved",
   "theorems": [
    "C87",
    "C87_verifications",
    "C87_refuted"
   ],
   "note": "Refuted: with NDEBUG the macro does nothing, and a listener that throws keeps the assertion from being reached. Proved otherwise."
  },
  {
   "property": "C88",
   "status": "proved",
   "theorems": [
    "C88",
    "C88_refuted"
   ],
   "note": "Refuted: for classes whose alignment exceeds that of operator new (16), the library allocates bytes with the alignment of a pointer. Proved for all others."
  },
  {
   "property": "C89",
   "status": "proved",
   "theorems": [
    "C89",
    "C89_reset",
    "C89_owned",
    "C89_statement",
    "C89_refuted"
   ],
   "note": "Proved for all programs of the world model, with the ownership at every moment (C89_owned) and for the temporaries of statements (C89_statement); refuted where a stored expression is given a condition after stubbing with it: then a condition belongs to nobody and destroying the mock is undefined. The storage of mocked objects itself, invocation records and the closures of actions are not tracked."
  },
  {
   "property": "C90",
   "status": "proved",
   "theorems": [
    "C90",
    "C90_released"
   ],
   "note": "For all tests that keep to the rules of Spec_Rules.v; Examples show that breaking a rule leads to undefined behaviour. The rules leave out stored method expressions and verifications, data members of mocks, and predicates and listeners that call the library."
  },
  {
   "property": "C91",
   "status": "proved",
   "theorems": [
    "C91",
    "C91_commit_refuted",
    "C91_tidy",
    "C91_tidy_refuted",
    "C91_callable",
    "C91_callable_refuted",
    "C91_call",
    "C91_call_refuted",
    "C91_memory",
    "C91_destroyed",
    "C91_lost"
   ],
   "note": "Refuted: an answer that cannot be put into the mock is deleted twice (undefined); a failure before the expression is there, and one of an argument matcher, leaks; a failed first mention makes later calls undefined; a call may be remembered though unanswered, and may end the program. Proved: everywhere else the mock is as it was, statements that succeed add exactly their answer, failures after When(...) leak nothing, mocks of mentioned methods stay callable, and no answer is used up by a call that runs out of memory; a call that is answered changes only what it takes; destroying the mock at the end of any test is defined and frees everything if no statement threw. One method of one mock."
  },
  {
   "property": "C92",
   "status": "proved",
   "theorems": [
    "C92",
    "C92_tidy",
    "C92_tidy_refuted",
    "C92_variable",
    "C92_variable_refuted",
    "C92_end",
    "C92_other",
    "C92_other_tidy",
    "C92_memory",
    "C92_destroyed"
   ],
   "note": "Refuted: if the last allocation before the verification is there fails (the counter of smart_ptr), or one while its expressions are made, what was made so far leaks; a verification in a variable that was interrupted when it was converted to bool says true when asked again and reports nothing at its end. Proved: everything else, for patterns of any expressions of one method of one mock, for statements, for verifications in variables and for VerifyNoOtherInvocations: they are defined, mark all calls or none, pass only if the quantifier in force is met, leave the mock as it was if they throw, leak only what is said above, and mocks can be destroyed afterwards. The numbers of allocations made for a std::unordered_set or std::vector are those of one per element."
  },
  {
   "property": "C93",
   "status": "proved",
   "theorems": [
    "C93_files",
    "C93_one_file",
    "C93_refuted"
   ],
   "note": "Refuted: __COUNTER__ starts anew in every file, so two methods of one mock that are mentioned in two files (or in two instantiations of a function template) may get the same number; then calls of the one are answered by the stubbings of the other, or, if the signatures differ, are undefined. Proved: if no two executed mentions with the same number designate different methods of the mock, and so always within one file without such templates, calls reach the stubbings of the called method and no others."
  },
  {
   "property": "C94",
   "status": "proved",
   "theorems": [
    "C94_orderly",
    "C94_ends",
    "C94_outlived",
    "C94_runs",
    "C94_one_file",
    "C94_no_variables",
    "C94_refuted",
    "C94_exit_refuted"
   ],
   "note": "Refuted: a global mock is undefined if the linker keeps the copy of its constructor of a file that is initialised later (the constructor names a variable of its file); at the end of the program, default values of class types and the name of unmentioned methods are gone for destructors of variables that are older than their first use, and the library is gone for variables that are older than it. Proved: programs that avoid these cases never use anything of the library outside its lifetime, among them all programs of one file whose destructors do not use such values and all programs whose mocks are local; every program comes to its end, destroys everything once, and mocks before what they report to."
  },
  {
   "property": "C95",
   "status": "proved",
   "theorems": [
    "C95_stubbed",
    "C95_unmocked",
    "C95_refuted",
    "C95_args_refuted",
    "C95_destructors",
    "C95_delete_refuted",
    "C95_free"
   ],
   "note": "Refuted: every entry not mentioned holds the one function void unmocked(); where the address of a result in memory is passed before the object (x86-64 and i386 Linux, 32-bit ARM, 64-bit MinGW) a call of an unmocked method that returns e.g. std::string takes the place of the result for the object and is undefined (C95_refuted); with MSVC such a call leaves objects passed by value undestroyed (C95_args_refuted); with 32-bit MinGW delete of an object with a stubbed destructor calls the proxy by the wrong convention (C95_delete_refuted). Proved: stubbed methods and explicit destructor calls on every platform, unmocked methods in all other cases, delete elsewhere."
  },
  {
   "property": "C96",
   "status": "proved",
   "theorems": [
    "C96_prototype",
    "C96_every",
    "C96_method",
    "C96_single",
    "C96_two",
    "C96_refuted",
    "C96_undefined_refuted",
    "C96_volatile_refuted"
   ],
   "note": "Refuted: with three or more methods of a name, Method(mock, f) can silently mean one of them: void f(int), void f(double), void f() const gives f() const, because the templates Mock::stub for the other qualifiers drop out (C96_refuted); it may even be one that is not virtual (C96_undefined_refuted); a volatile method beside another of its name is meant by no macro (C96_volatile_refuted). Proved: the macros with prototypes mean exactly what is written, every method that is not volatile has exactly one of them, Method on a name with one or two methods, and exactly when Method means what."
  },
  {
   "property": "C97",
   "status": "proved",
   "theorems": [
    "C97_end",
    "C97_end_story",
    "C97_end_own",
    "C97_reset",
    "C97_reset_story",
    "C97_clear",
    "C97_clear_story",
    "C97_clear_empty",
    "C97_end_refuted",
    "C97_reset_refuted",
    "C97_clear_refuted",
    "C97_clear_empty_refuted"
   ],
   "note": "Refuted in part: Reset is undefined if the destructor of a kept value calls a stubbed method of the same mock that Reset has emptied or is emptying (C97_reset_refuted); ClearInvocationHistory is undefined if an argument recorded with a call calls the same method (C97_clear_refuted), and calls made by such destructors to other methods of the mock may remain in the history (C97_clear_empty_refuted); destroying a mock ends the program if such a destructor calls a method of the mock's own library-made object, stubbed or not (C97_end_refuted). Proved: destroying a mock is never undefined, deleting its own object is ignored; Reset and ClearInvocationHistory are defined otherwise; and exactly what happens in every case, including to the other mocks."
  },
  {
   "property": "C98",
   "status": "proved",
   "theorems": [
    "C98_made",
    "C98_unmade",
    "C98_unmade_gnu",
    "C98_unmade_refuted",
    "C98_clear",
    "C98_clear_when",
    "C98_member",
    "C98_member_when"
   ],
   "note": "Refuted in part: if the storage of one of the two vectors of the proxy cannot be allocated, the clone of the virtual table is lost (C98_unmade_refuted; DynamicProxy.hpp:68-77, the destructor of VirtualTable does not dispose); with MSVC also pieces of tables whose making fails half way; C98_unmade says exactly what is lost for each failing allocation. The rest is proved: the object is as before, destroying a mock releases everything (C98_made), clear is all or nothing (C98_clear), a data member is owned or not constructed (C98_member)."
  },
  {
   "property": "C99",
   "status": "proved",
   "theorems": [
    "C99_found",
    "C99_typeid",
    "C99_listed",
    "C99_object_or_null",
    "C99_accepted",
    "C99_cast",
    "C99_cast_refuted",
    "C99_64_refuted"
   ],
   "note": "Refuted in part, for MSVC: a base class that is not listed in Mock<C, ...> cannot be cast to C (C99_cast_refuted), and for 64 bit there is no type information at all: typeid and dynamic_cast throw std::__non_rtti_object (C99_64_refuted). Proved: GCC/clang and MSVC 32 bit find the structures whatever is done to the table (C99_found), typeid is the class (C99_typeid), and with all bases listed every dynamic_cast is as C++ says (C99_cast). dynamic_cast of GCC/clang reads structures of the compiler only (Inherit.v)."
  },
  {
   "property": "C100",
   "status": "proved",
   "theorems": [
    "C100",
    "C100_tidy",
    "C100_commit_refuted",
    "C100_callable",
    "C100_memory",
    "C100_destroyed",
    "C100_all_refuted"
   ],
   "note": "Refuted in part: it is undefined if one of the four allocations fails with which an answer is put into the mock, because the expression then deletes what was already deleted (C100_commit_refuted, MethodMockingContext.hpp:94-101, 135-138); and a statement with several expressions is not all or nothing (C100_all_refuted). Proved: otherwise it answers for all, or throws with complete answers for a first part of the expressions and nothing else changed (C100), without leaks once the expressions are made (C100_tidy); the mock stays callable if the method was mentioned before (C100_callable), and a test that gets to its end can destroy it, with nothing left if nothing threw (C100_destroyed)."
  },
  {
   "property": "C101",
   "status": "proved",
   "theorems": [
    "C101_call",
    "C101_unmocked",
    "C101_verify",
    "C101_no_other",
    "C101_quietly",
    "C101_quietly_other",
    "C101_read",
    "C101_defined",
    "C101_history",
    "C101_ends",
    "C101_ends_refuted",
    "C101_history_refuted",
    "C101_hidden_refuted",
    "C101_clear_refuted"
   ],
   "note": "Refuted in part: calls that operator<< makes while a report is written are recorded, so that a failed verification can make a later one fail that would have held (C101_history_refuted); an unexpected call inside operator<< hides the one that was to be reported (C101_hidden_refuted), and one with the value that is being printed recurses without end (C101_ends_refuted); clearing the history inside operator<< makes the report of a verification undefined (C101_clear_refuted). Proved: the exact text, or the first exception, and the exact state after a report, for printers that call only methods that answer; for all others that earlier records stay, that calls are never undefined, and nothing else is unless the history is cleared; that the nesting ends if printers call methods with simpler values only."
  },
  {
   "property": "C102",
   "status": "proved",
   "theorems": [
    "C102_story",
    "C102_as_new",
    "C102_counts",
    "C102_quiet",
    "C102_quiet_refuted",
    "C102_stubbed_refuted",
    "C102_at_least_zero_refuted"
   ],
   "note": "Refuted in part: an expression that a stubbing statement was written with is undefined to verify once a Reset has undone the stubbing (C102_stubbed_refuted; the condition belongs to the record of the method, MethodMockingContext.hpp:96-100, 135-138); a verification through an expression kept across a Reset makes an unstubbed method of a wrapped object unexpected (C102_quiet_refuted, MockImpl.hpp:314-323). Proved: under these rules (keeps) every test runs defined and each statement tells what the text of the test says (C102_story); kept expressions verify like new ones (C102_as_new, C102_counts); other verifications change nothing that later statements tell but VerifyNoOtherInvocations (C102_quiet)."
  },
  {
   "property": "C103",
   "status": "proved",
   "theorems": [
    "C103_names",
    "C103_refuted",
    "C103_overloads_refuted"
   ],
   "note": "Refuted in part: an expression kept across a Reset is reported by the name the compiler has for the type of the method (C103_refuted, MockImpl.hpp:334-338); overloads have the same name (C103_overloads_refuted, api_macros.hpp:34-50). Proved for tests that use each expression before the next Reset of its mock: all reports name methods as they were written last, for all compiler names."
  },
  {
   "property": "C104",
   "status": "proved",
   "theorems": [
    "C104_texts",
    "C104_bytes_refuted",
    "C104_distinct_refuted"
   ],
   "note": "Refuted in part: numbers of type unsigned char are shown as a character (C104_bytes_refuted); different function pointers are shown alike (C104_distinct_refuted). Proved: for every type, way of passing, version of C++, value and memory the text is the one of a table stated without Formatter and overload resolution."
  },
  {
   "property": "C105",
   "status": "proved",
   "theorems": [
    "C105_compiles",
    "C105_refuted"
   ],
   "note": "Refuted in part: a method with a parameter const wchar_t* can be stubbed as C++17 and not as C++20, since is_ostreamable is true for all pointers and arithmetic types and their operator<< is deleted (C105_refuted). Proved: exactly which parameters do not compile."
  },
  {
   "property": "C106",
   "status": "proved",
   "theorems": [
    "C106_harmless",
    "C106_harmful",
    "C106_refuted"
   ],
   "note": "Refuted in part: a report about const std::uint8_t* reads bytes up to a zero and is undefined without one or for null (C106_refuted, C106_harmful for all such types). Proved for all other types: the report is defined whatever the memory is."
  },
  {
   "property": "C107",
   "status": "proved",
   "theorems": [
    "C107_story",
    "C107_defined",
    "C107_like_throw",
    "C107_own_class_refuted",
    "C107_texts_refuted",
    "C107_always_refuted"
   ],
   "note": "Refuted in part: the text of Throw of an array is gone with the actions of the mock (C107_texts_refuted), AlwaysThrow of an array keeps its address for methods without a result (C107_always_refuted, StubbingProgress.hpp:279), and objects are cut to their static type as with throw (C107_own_class_refuted). Proved: all tests that do not read a text after a Reset tell what an account of the statements says, and handlers catch what they would catch of throw x; in place."
  },
  {
   "property": "C108",
   "status": "proved",
   "theorems": [
    "C108_spy",
    "C108_spy_says",
    "C108_spy_runs",
    "C108_aborts",
    "C108_stub",
    "C108_forward",
    "C108_plain",
    "C108_refuted",
    "C108_more_refuted"
   ],
   "note": "Refuted in part: a method with a by-value std::list of std::unique_ptr, or a class with a std::vector of them as a member, cannot be stubbed (C108_refuted), and a further move-only parameter mends it (C108_more_refuted). Proved: exactly which methods can be spied and stubbed, and when the message of the static_assert is given."
  },
  {
   "property": "C109",
   "status": "proved",
   "theorems": [
    "C109_one",
    "C109_other",
    "C109_several",
    "C109_meaning",
    "C109_using",
    "C109_using_other",
    "C109_matching",
    "C109_null_refuted",
    "C109_empty_refuted",
    "C109_bool_refuted",
    "C109_using_refuted"
   ],
   "note": "Refuted in part: nullptr for a smart pointer (C109_null_refuted), empty predicates (C109_empty_refuted), predicates for bool (C109_bool_refuted), Using(predicate) for one parameter (C109_using_refuted). Proved: what every expression means for every list of parameters, and that values and functions that fit are never mistaken for each other."
  },
  {
   "property": "C110",
   "status": "proved",
   "theorems": [
    "C110_assign",
    "C110_void",
    "C110_calls",
    "C110_braces_refuted",
    "C110_misfit_refuted",
    "C110_null_refuted"
   ],
   "note": "Refuted in part: = {} for classes (C110_braces_refuted), lambdas that do not fit for bool (C110_misfit_refuted), nullptr for smart pointers (C110_null_refuted). Proved: what every expression means for every result type, and what calls then do."
  },
  {
   "property": "C111",
   "status": "proved",
   "theorems": [
    "C111_pair",
    "C111_calls",
    "C111_refuted"
   ],
   "note": "Refuted in part: Return({n, x}) means n_Times(x) if x converts to the result (C111_refuted). Proved for the other results, and for AlwaysReturn."
  },
  {
   "property": "C112",
   "status": "proved",
   "theorems": [
    "C112_questions",
    "C112_bounded",
    "C112_once",
    "C112_one",
    "C112_steady",
    "C112_twice_refuted",
    "C112_again_refuted"
   ],
   "note": "Refuted in part: the same predicate may be asked about the same call twice (C112_twice_refuted), and predicates with a memory may count differently the second time (C112_again_refuted). The rest is proved for all conditions with a memory, throwing or not."
  },
  {
   "property": "C113",
   "status": "proved",
   "theorems": [
    "C113_function",
    "C113_spy",
    "C113_without_verify",
    "C113_exceptions",
    "C113_without_verify_refuted",
    "C113_recorded_refuted"
   ],
   "note": "Refuted in part: SpyWithoutVerify leaves moved-from objects in the record (C113_without_verify_refuted), and a spied call whose arguments cannot be copied because of an exception is recorded although the original did not run (C113_recorded_refuted). The rest is proved."
  },
  {
   "property": "C114",
   "status": "proved",
   "theorems": [
    "C114_condition",
    "C114_ends",
    "C114_call",
    "C114_once",
    "C114_guard",
    "C114_chosen",
    "C114_right_refuted",
    "C114_newer_refuted"
   ],
   "note": "Refuted in part: a position that refuses does not protect what stands to its left (C114_right_refuted), nor does an older stubbing protect against an undefined comparison of a newer one (C114_newer_refuted). The rest is proved for all operators and predicates with a memory, throwing or not."
  },
  {
   "property": "C115",
   "status": "proved",
   "theorems": [
    "C115_verification",
    "C115_check",
    "C115_steady",
    "C115_no_other",
    "C115_call",
    "C115_turns",
    "C115_ends",
    "C115_verify_ends",
    "C115_others",
    "C115_own",
    "C115_self_refuted",
    "C115_counts_refuted"
   ],
   "note": "Refuted in part: a condition that verifies itself never ends (C115_self_refuted), and the conditions of a call do not count that call (C115_counts_refuted). The rest is proved, for one method and verifications of one condition each."
  },
  {
   "property": "C116",
   "status": "proved",
   "theorems": [
    "C116_meaning",
    "C116_own",
    "C116_memory",
    "C116_apart",
    "C116_together",
    "C116_each",
    "C116_copies",
    "C116_times_refuted",
    "C116_released_refuted"
   ],
   "note": "Refuted in part: for a function with a memory Do(f, f) is not Do(2_Times(f)) (C116_times_refuted), and a function object that has answered its last call is not destroyed before Reset (C116_released_refuted). The rest is proved, for stubbings without a condition of one method and functions that do not use the mock."
  },
  {
   "property": "C117",
   "status": "proved",
   "theorems": [
    "C117_meaning",
    "C117_managers",
    "C117_counts",
    "C117_own",
    "C117_exist",
    "C117_gone",
    "C117_repeated_refuted",
    "C117_honest_refuted"
   ],
   "note": "Refuted in part: a verification by a condition with a memory cannot be repeated with the same count (C117_repeated_refuted); C117_gone and C117_honest_refuted show that the rules in the statement are needed. The rest is proved, for one method and verifications of one condition each."
  }
 ]
}