{
 "claims": [
  {
   "property": "C01",
   "status": "proved",
   "theorems": [
    "C01_construction_preserves_weights"
   ],
   "note": ""
  },
  {
   "property": "C02",
   "status": "proved",
   "theorems": [
    "C02_construction_canonical",
    "C02_construction_unique"
   ],
   "note": ""
  },
  {
   "property": "C03",
   "status": "proved",
   "theorems": [
    "C03_construction_accepts",
    "C03_construction_error_kinds"
   ],
   "note": ""
  },
  {
   "property": "C04",
   "status": "proved",
   "theorems": [
    "C04_construction_order_irrelevant"
   ],
   "note": ""
  },
  {
   "property": "C05",
   "status": "proved",
   "theorems": [
    "C05_dices_are_equal",
    "C05_equivalence"
   ],
   "note": ""
  },
  {
   "property": "C06",
   "status": "proved",
   "theorems": [
    "C06_truncation",
    "C06_truncated_values_are_ints",
    "C06_trunc_to"
   ],
   "note": ""
  },
  {
   "property": "C07",
   "status": "proved",
   "theorems": [
    "C07_binary_operator_law",
    "C07_binary_operator_succeeds",
    "C07_storage_of_keys_irrelevant",
    "C07_integers"
   ],
   "note": ""
  },
  {
   "property": "C08",
   "status": "proved",
   "theorems": [
    "C08_die_op_constant",
    "C08_constant_op_die",
    "C08_succeeds"
   ],
   "note": ""
  },
  {
   "property": "C09",
   "status": "proved",
   "theorems": [
    "C09_comparison_is_indicator",
    "C09_complementary",
    "C09_trichotomy",
    "C09_comparison_never_fails"
   ],
   "note": ""
  },
  {
   "property": "C10",
   "status": "proved",
   "theorems": [
    "C10_addition_commutes",
    "C10_addition_associates",
    "C10_zero_is_neutral"
   ],
   "note": ""
  },
  {
   "property": "C11",
   "status": "proved",
   "theorems": [
    "C11_mean_correctly_rounded",
    "C11_mean_ties_to_even",
    "C11_expectation_additive",
    "C11_expectation_linear"
   ],
   "note": ""
  },
  {
   "property": "C12",
   "status": "proved",
   "theorems": [
    "C12_negation",
    "C12_negation_involutive",
    "C12_absolute_value",
    "C12_floor",
    "C12_ceil",
    "C12_trunc",
    "C12_unary_never_fail_on_numbers",
    "C12_inversion",
    "C12_round",
    "C12_round_succeeds",
    "C12_functions",
    "C12_other_values"
   ],
   "note": ""
  },
  {
   "property": "C13",
   "status": "proved",
   "theorems": [
    "C13_exact_below_limit",
    "C13_limit",
    "C13_one_divisor_above_limit",
    "C13_error_of_rescaling",
    "C13_closed_under_operations",
    "C13_error_below_1e_9",
    "C13_fails_only_on_float_overflow",
    "C13_operators_close_at_any_weight"
   ],
   "note": ""
  },
  {
   "property": "C14",
   "status": "proved",
   "theorems": [
    "C14_logged_error_bound_refuted"
   ],
   "note": "The expected bound is false of the code: C14_logged_error_bound_refuted proves a violation (two outcomes of weight const-1 next to a heavy one). C13 gives a bound that does hold."
  },
  {
   "property": "C15",
   "status": "proved",
   "theorems": [
    "C15_merge_is_mixture",
    "C15_merge_close_at_any_weight",
    "C15_merge_of_blanks",
    "C15_merge_succeeds"
   ],
   "note": ""
  },
  {
   "property": "C16",
   "status": "proved",
   "theorems": [
    "C16_merge_always_succeeds_refuted"
   ],
   "note": "The expected property is false of the code: eleven valid dice whose merge raises OverflowError. C15_merge_succeeds gives the exact range in which merging succeeds."
  },
  {
   "property": "C17",
   "status": "proved",
   "theorems": [
    "C17_cdf_is_running_total",
    "C17_cdf_monotone",
    "C17_cdf_ends_with_total"
   ],
   "note": ""
  },
  {
   "property": "C18",
   "status": "proved",
   "theorems": [
    "C18_filter_conditions"
   ],
   "note": "Stated for numbers and single-key labels; sums of labels can be equal with different hashes (C60)."
  },
  {
   "property": "C19",
   "status": "proved",
   "theorems": [
    "C19_report_lists_every_outcome",
    "C19_exact_probabilities_add_to_one"
   ],
   "note": ""
  },
  {
   "property": "C20",
   "status": "proved",
   "theorems": [
    "C20_cut",
    "C20_cut_zero",
    "C20_cut_refuted"
   ],
   "note": "C20_cut: the removed set is the largest set of least likely outcomes below the cut, up to float rounding, and nothing else is removed, when 0 is no outcome. C20_cut_zero: for all variables; outcome 0 is always dropped too. C20_cut_refuted: outcome 0 with probability 7/8 is removed at cut 1/16."
  },
  {
   "property": "C21",
   "status": "proved",
   "theorems": [
    "C21_roll_exact",
    "C21_roll_close",
    "C21_roll_zero",
    "C21_roll_negative"
   ],
   "note": "C21_roll_exact below the threshold, C21_roll_close (error at most |n| * 1e-9) above it, for every history of integer rolls."
  },
  {
   "property": "C22",
   "status": "proved",
   "theorems": [
    "C22_integer_die",
    "C22_single",
    "C22_mirror"
   ],
   "note": ""
  },
  {
   "property": "C23",
   "status": "proved",
   "theorems": [
    "C23_sequence_count",
    "C23_sequence_die",
    "C23_list_die",
    "C23_empty_die"
   ],
   "note": ""
  },
  {
   "property": "C24",
   "status": "proved",
   "theorems": [
    "C24_random_count"
   ],
   "note": ""
  },
  {
   "property": "C25",
   "status": "proved",
   "theorems": [
    "C25_history_invisible"
   ],
   "note": ""
  },
  {
   "property": "C26",
   "status": "proved",
   "theorems": [
    "C26_float_history_refuted",
    "C26_settings_history_refuted"
   ],
   "note": "The expected property is false of the code: the two _refuted theorems prove a violation by an earlier roll of float faces and by a settings change. C25 gives the histories for which it holds."
  },
  {
   "property": "C27",
   "status": "proved",
   "theorems": [
    "C27_len_of_roll",
    "C27_len_of_result",
    "C27_roll_length",
    "C27_random_count_length",
    "C27_arithmetic_length",
    "C27_map_length"
   ],
   "note": ""
  },
  {
   "property": "C28",
   "status": "proved",
   "theorems": [
    "C28_dice_notation",
    "C28_texts"
   ],
   "note": ""
  },
  {
   "property": "C29",
   "status": "proved",
   "theorems": [
    "C29_values_unchanged",
    "C29_roll_on_heap",
    "C29_roll_name",
    "C29_name_changes_refuted"
   ],
   "note": "False as stated: C29_name_changes_refuted proves that str(X) changes. Proved: no roll ever changes the value of an object, and only the die passed in and rolls in the table can be renamed."
  },
  {
   "property": "C30",
   "status": "proved",
   "theorems": [
    "C30_roll_position",
    "C30_roll_position_close",
    "C30_outside",
    "C30_one_die",
    "C30_one_rolled_die_refuted"
   ],
   "note": "For integer dice and n >= 2, exactly up to 10^31 and within 1e-9 beyond; one die that was not itself rolled. C30_one_rolled_die_refuted: roll(1, X) is X, so 1@roll(1, roll(3,d)) is the highest of three."
  },
  {
   "property": "C31",
   "status": "proved",
   "theorems": [
    "C31_rescaled_die_refuted"
   ],
   "note": "The expected property is false of the code: the _refuted theorem gives a die made by adding two dice for which 2@roll(2,X) is off by more than 1/10 and 1@roll(2,X) raises AssertionError. C30 gives the dice for which it holds (weights without common factor)."
  },
  {
   "property": "C32",
   "status": "proved",
   "theorems": [
    "C32_expansion",
    "C32_general"
   ],
   "note": ""
  },
  {
   "property": "C33",
   "status": "proved",
   "theorems": [
    "C33_select",
    "C33_select_close",
    "C33_selector_kinds"
   ],
   "note": "Integer dice, n >= 2, exactly up to 10^31 and within 1e-9 beyond. Holds in both position orders as stated: several positions are always counted from the highest (see C34)."
  },
  {
   "property": "C34",
   "status": "proved",
   "theorems": [
    "C34_out_of_range",
    "C34_lowest_first_refuted"
   ],
   "note": "Proved for highest first; C34_lowest_first_refuted proves the violation for lowest first."
  },
  {
   "property": "C35",
   "status": "proved",
   "theorems": [
    "C35_all_positions"
   ],
   "note": ""
  },
  {
   "property": "C36",
   "status": "proved",
   "theorems": [
    "C36_cast_total",
    "C36_cast_die",
    "C36_random_count_refuted"
   ],
   "note": "Proved for roll(n,d) with an integer n and for plain dice; C36_random_count_refuted proves the violation for a random number of dice."
  },
  {
   "property": "C37",
   "status": "proved",
   "theorems": [
    "C37_law_of_total_probability",
    "C37_one_die",
    "C37_two_independent_dice",
    "C37_decorated_call"
   ],
   "note": "Exactly up to 10^31 (product of the denominators and weights) and within 1e-9 beyond, with default truncation setting; all-blank gives blank. Functions are arbitrary maps from complete argument lists to results or exceptions; functions that call other decorated functions are in C41-C43."
  },
  {
   "property": "C38",
   "status": "proved",
   "theorems": [
    "C38_one_call_per_sorted_roll",
    "C38_law"
   ],
   "note": "For roll(n,d) after any history of integer rolls."
  },
  {
   "property": "C39",
   "status": "proved",
   "theorems": [
    "C39_casting_table",
    "C39_expected",
    "C39_unexpected"
   ],
   "note": ""
  },
  {
   "property": "C40",
   "status": "proved",
   "theorems": [
    "C40_blank_aborts"
   ],
   "note": "Stated for argument lists that would otherwise be accepted: an earlier argument that raises is not covered."
  },
  {
   "property": "C41",
   "status": "proved",
   "theorems": [
    "C41_depth_bounded",
    "C41_beyond_is_blank",
    "C41_terminates",
    "C41_result_does_not_depend_on_fuel",
    "C41_warning_printed_once",
    "C41_reset_inside_refuted",
    "C41_programs"
   ],
   "note": "For programs that do not change the limiter settings while running; C41_reset_inside_refuted proves that settings_reset() inside a body removes the bound."
  },
  {
   "property": "C42",
   "status": "proved",
   "theorems": [
    "C42_depth_restored"
   ],
   "note": ""
  },
  {
   "property": "C43",
   "status": "proved",
   "theorems": [
    "C43_failures_poison_refuted",
    "C43_ten_failures_refuted"
   ],
   "note": "The expected property is false of the code: proved in general (C43_failures_poison_refuted) and for the default limit of ten."
  },
  {
   "property": "C44",
   "status": "proved",
   "theorems": [
    "C44_arithmetic_uses_the_sum",
    "C44_sum_of_integers",
    "C44_lists",
    "C44_nothing",
    "C44_nothing_dice"
   ],
   "note": "For sequences whose entries add up to a number; for integers C44_sum_of_integers computes that sum exactly."
  },
  {
   "property": "C45",
   "status": "proved",
   "theorems": [
    "C45_sequence_against_number",
    "C45_number_against_sequence",
    "C45_counts_add_up"
   ],
   "note": ""
  },
  {
   "property": "C46",
   "status": "proved",
   "theorems": [
    "C46_sequence_against_sequence",
    "C46_other_iterables",
    "C46_sequence_against_die"
   ],
   "note": ""
  },
  {
   "property": "C47",
   "status": "proved",
   "theorems": [
    "C47_counting",
    "C47_counting_positions",
    "C47_counting_same",
    "C47_position",
    "C47_positions",
    "C47_digits",
    "C47_negative_number_fails"
   ],
   "note": ""
  },
  {
   "property": "C48",
   "status": "proved",
   "theorems": [
    "C48_every_structure_has_leaves",
    "C48_numbers",
    "C48_labels",
    "C48_none_is_refused",
    "C48_idempotent",
    "C48_nesting_irrelevant"
   ],
   "note": ""
  },
  {
   "property": "C49",
   "status": "proved",
   "theorems": [
    "C49_integers",
    "C49_sequence_and_number",
    "C49_two_sequences",
    "C49_two_dice",
    "C49_die_and_number",
    "C49_die_and_sequence",
    "C49_negation",
    "C49_negation_of_die_refuted"
   ],
   "note": "The clause about the negation of a die is false of the code: C49_negation_of_die_refuted."
  },
  {
   "property": "C50",
   "status": "proved",
   "theorems": [
    "C50_plain_blank",
    "C50_special_blank",
    "C50_two_blanks",
    "C50_position"
   ],
   "note": ""
  },
  {
   "property": "C51",
   "status": "proved",
   "theorems": [
    "C51_blank_plus_sequence_refuted"
   ],
   "note": "The expected property is false of the code for every sequence of numbers."
  },
  {
   "property": "C52",
   "status": "proved",
   "theorems": [
    "C52_number_of_dice",
    "C52_random_number_of_dice",
    "C52_lowest_first_refuted"
   ],
   "note": "Every integer k and die-valued k, highest first, exactly up to 10^31. C52_lowest_first_refuted proves the violation for k = 1 with lowest first."
  },
  {
   "property": "C53",
   "status": "proved",
   "theorems": [
    "C53_explode",
    "C53_support"
   ],
   "note": "Integer dice, every depth, exactly while total^(depth+1) is at most 10^31; C53_support bounds the explosion."
  },
  {
   "property": "C54",
   "status": "proved",
   "theorems": [
    "C54_sort",
    "C54_reverse"
   ],
   "note": ""
  },
  {
   "property": "C55",
   "status": "proved",
   "theorems": [
    "C55_contains",
    "C55_contains_random",
    "C55_count_in",
    "C55_count_in_random",
    "C55_absolute",
    "C55_absolute_random"
   ],
   "note": "Exactly up to 10^31 for dice arguments."
  },
  {
   "property": "C56",
   "status": "proved",
   "theorems": [
    "C56_maximum_of",
    "C56_larger_and_smaller",
    "C56_larger_and_smaller_random"
   ],
   "note": ""
  },
  {
   "property": "C57",
   "status": "proved",
   "theorems": [
    "C57_reroll_once",
    "C57_integer_die"
   ],
   "note": "Integer n and m, integer dice, after any history of integer rolls, exactly up to 10^31."
  },
  {
   "property": "C58",
   "status": "proved",
   "theorems": [
    "C58_programs",
    "C58_programs_refuted",
    "C58_always_valid",
    "C58_acceptance",
    "C58_effect",
    "C58_reset",
    "C58_names",
    "C58_usable",
    "C58_position_order_refuted"
   ],
   "note": "For values that do not claim to equal a text; C58_position_order_refuted proves that the special blank, which equals everything, is accepted as position order. C58_programs: the same for all programs as they run, with the text of a program that stores that blank (C58_programs_refuted)."
  },
  {
   "property": "C59",
   "status": "proved",
   "theorems": [
    "C59_total_order",
    "C59_equality",
    "C59_numbers_below",
    "C59_same_as_outcomes",
    "C59_counts_add_up",
    "C59_commutative",
    "C59_associative"
   ],
   "note": "Order, equality and the comparison with numbers for all labels; addition for labels with whole coefficients (float coefficients are rounded)."
  },
  {
   "property": "C60",
   "status": "proved",
   "theorems": [
    "C60_equal_hash_refuted",
    "C60_same_order"
   ],
   "note": "The expected property is false of the code: C60_equal_hash_refuted. C60_same_order gives the labels for which it holds."
  },
  {
   "property": "C61",
   "status": "proved",
   "theorems": [
    "C61_add_zero_refuted",
    "C61_add_zero_int",
    "C61_add_zero"
   ],
   "note": "False for labels: C61_add_zero_refuted; C61_add_zero proves exactly which labels change."
  },
  {
   "property": "C62",
   "status": "proved",
   "theorems": [
    "C62_factorial"
   ],
   "note": ""
  },
  {
   "property": "C63",
   "status": "proved",
   "theorems": [
    "C63_digit",
    "C63_length",
    "C63_every_number_has_a_length",
    "C63_negation"
   ],
   "note": ""
  },
  {
   "property": "C64",
   "status": "proved",
   "theorems": [
    "C64_only_possible",
    "C64_frequencies",
    "C64_impossible"
   ],
   "note": "For totals up to 2^1022, random() uniform on the multiples of 2^-53 below 1 and random.choices of CPython 3.9. The shares are exact up to 5/2^53."
  },
  {
   "property": "C65",
   "status": "proved",
   "theorems": [
    "C65_partition",
    "C65_accepted",
    "C65_strings",
    "C65_open_string"
   ],
   "note": "Characters are the 8-bit code points; the lexer is the rule table of myparser.py with PLY order of rules."
  },
  {
   "property": "C66",
   "status": "proved",
   "theorems": [
    "C66_word_kinds",
    "C66_maximal",
    "C66_word_read"
   ],
   "note": "C66_maximal: a lower-case word is never cut short; C66_word_kinds: which token it is."
  },
  {
   "property": "C67",
   "status": "proved",
   "theorems": [
    "C67_headers",
    "C67_calls"
   ],
   "note": "For all words the lexer produces, in every compiler mode. Shapes of headers and calls are defined in NameSpec.v."
  },
  {
   "property": "C68",
   "status": "proved",
   "theorems": [
    "C68_accepted",
    "C68_no_undefined_call"
   ],
   "note": "C68_accepted is an equivalence on source texts, from characters to generated text, with default flags."
  },
  {
   "property": "C69",
   "status": "proved",
   "theorems": [
    "C69_protected",
    "C69_unprotected_refuted",
    "C69_variables",
    "C69_variable_refuted"
   ],
   "note": "Holds for the six names the compiler protects (C69_protected) and between variables and functions with a word in their name (C69_variables). False otherwise: len, get_seq and vars can be redefined (C69_unprotected_refuted), a function with only a parameter shares the name X with a variable, and T_N, T_S, T_D can be assigned (C69_variable_refuted)."
  },
  {
   "property": "C70",
   "status": "proved",
   "theorems": [
    "C70_library_lost_refuted",
    "C70_own_functions"
   ],
   "note": "False of the code: C70_library_lost_refuted holds for every such program. C70_own_functions: a program that calls only its own functions compiles."
  },
  {
   "property": "C71",
   "status": "proved",
   "theorems": [
    "C71_kept",
    "C71_brackets",
    "C71_power_refuted",
    "C71_chain_refuted",
    "C71_logical_refuted",
    "C71_logical_left_refuted",
    "C71_sign_refuted",
    "C71_zeros_refuted"
   ],
   "note": "comes_out says that Python, by the reference reader of PySpec.v, reads the generated text as the given tree and as no other. Proved for expressions that keep their structure (keeps_e, PyTrans.v) and for all fully bracketed ones; the five patterns for which it is false are refuted for all operands."
  },
  {
   "property": "C72",
   "status": "proved",
   "theorems": [
    "C72_closed",
    "C72_open_refuted",
    "C72_injection_refuted"
   ],
   "note": "Proved for strings without backslash, carriage return and NUL; false with a backslash: the literal stays open, and any code without quotes, brackets and braces can be injected (C72_injection_refuted, for all such code)."
  },
  {
   "property": "C73",
   "status": "proved",
   "theorems": [
    "C73_filled",
    "C73_unique"
   ],
   "note": "For strings without backslash, carriage return and NUL. The texts of values are a parameter (val); str() of Python objects is not modelled here."
  },
  {
   "property": "C74",
   "status": "proved",
   "theorems": [
    "C74_structure",
    "C74_blank_lines",
    "C74_blank_lines_once",
    "C74_blank_source"
   ],
   "note": "From characters of the source to statements read by the reference Python reader; for programs that keep their expressions (keeps) and with result: only in functions."
  },
  {
   "property": "C75",
   "status": "proved",
   "theorems": [
    "C75_distinct",
    "C75_untyped_refuted"
   ],
   "note": "C75_distinct for headers whose repeated parameters are typed; C75_untyped_refuted: every other header with a repeated parameter raises IndexError."
  },
  {
   "property": "C76",
   "status": "proved",
   "theorems": [
    "C76_precedence",
    "C76_expressions",
    "C76_brackets"
   ],
   "note": ""
  },
  {
   "property": "C77",
   "status": "proved",
   "theorems": [
    "C77_nested_call_refuted",
    "C77_nameless_function_refuted",
    "C77_only_crashes"
   ],
   "note": "The expected property is false of the code: C77_nested_call_refuted (IndexError for every such call). C77_only_crashes shows that this and a function without a name are the only crashes of the parser."
  },
  {
   "property": "C78",
   "status": "proved",
   "theorems": [
    "C78_terminates",
    "C78_deterministic"
   ],
   "note": ""
  },
  {
   "property": "C79",
   "status": "proved",
   "theorems": [
    "C79_language",
    "C79_unambiguous"
   ],
   "note": "SynSpec.v defines programs, their tokens, trees and well-formedness; a call whose first argument is a call is not well-formed (C77). Error recovery after the first syntax error is not modelled: such texts are refused in any case."
  },
  {
   "property": "C80",
   "status": "proved",
   "theorems": [
    "C80_valid",
    "C80_result_refuted",
    "C80_keyword_refuted"
   ],
   "note": "C80_valid is an equivalence: it says exactly which accepted programs Python reads, by the reference reader of PySpec.v, whatever the structure it gives to their expressions. For strings without backslash, carriage return and NUL; with a backslash see C72. Limits of CPython on nesting (parentheses, indentation) are not modelled."
  },
  {
   "property": "C81",
   "status": "proved",
   "theorems": [
    "C81_runs_as_meant",
    "C81_names_refuted",
    "C81_structure_refuted",
    "C81_numbers"
   ],
   "note": "PySem.v gives the fragment of Python that generated programs use an operational semantics over any runtime; MeanSpec.v gives dice programs their meaning over the same runtime. Proved for programs that keep their expressions (keeps), with result: only in functions and with tame names (RunSpec.v), with and without the operator functions; for the option for non-local variables see C89. C81_names_refuted shows what happens without tame names."
  },
  {
   "property": "C82",
   "status": "proved",
   "theorems": [
    "C82_stops",
    "C82_executions_stop",
    "C82_raised_refuted",
    "C82_copies_stop",
    "C82_copies_executions_stop"
   ],
   "note": "None stands for a bound on the depth of calls that was too small; C82_stops says that a bound exists from which on the result is the same. Time and the recursion limit of Python are not modelled. False when a function sets the maximum function depth: C82_raised_refuted. C82_copies_*: the same with the option for non-local variables."
  },
  {
   "property": "C83",
   "status": "proved",
   "theorems": [
    "C83_exact",
    "C83_executed",
    "C83_numbers_refuted",
    "C83_large_refuted",
    "C83_copies"
   ],
   "note": "IdealSpec.v is a second runtime in terms of exact probabilities (rationals) that uses nothing of the library; the theorem is a simulation of it by the library runtime of RunModel.v, lifted to all programs. What the ideal runtime does not cover (floats, settings other than maximum function depth, explode depth and position order, `!` of dice, and without the option for operators on numbers also `!`, `#` and `@` of plain numbers and `&`, `|` of numbers other than 0 and 1, denominators above 10^30) it refuses, and nothing is claimed. C83_large_refuted: with larger denominators probabilities are not exact. C83_numbers_refuted: without that option the operators that the ideal runtime refuses on numbers do not mean what they mean on sequences and dice. C83_copies: the same with the option for non-local variables (C89)."
  },
  {
   "property": "C84",
   "status": "proved",
   "theorems": [
    "C84_same_tokens",
    "C84_printed",
    "C84_comment_refuted",
    "C84_longest",
    "C84_read",
    "C84_separated",
    "C84_layout",
    "C84_expressible",
    "C84_programs"
   ],
   "note": "C84_printed and C84_same_tokens also cover texts that are refused: the parser with its error recovery looks at the tokens only (LayoutFacts.v). C84_comment_refuted: a text that consists of a comment is not blank and has no outputs, which is an assertion error, and example_parse.py stops at exceptions."
  },
  {
   "property": "C85",
   "status": "proved",
   "theorems": [
    "C85_std",
    "C85_squares",
    "C85_std_refuted"
   ],
   "note": "The squaring of floats (libm pow) is a parameter with an error of at most a unit in the last place (good_square; C85_squares shows that correct rounding satisfies it). The error is relative to the mean square: C85_std_refuted shows that the standard deviation can be lost completely for outcomes that are large compared with their spread."
  },
  {
   "property": "C86",
   "status": "proved",
   "theorems": [
    "C86_hundred",
    "C86_hundred_refuted",
    "C86_first_line",
    "C86_float_text",
    "C86_python_floats",
    "C86_first_line_text",
    "C86_floats_exist",
    "C86_first_line_labels",
    "C86_report",
    "C86_report_cut",
    "C86_nothing",
    "C86_ways",
    "C86_report_refuted"
   ],
   "note": "C86_first_line_text gives the characters of the first line for values up to 10^12, for any text of floats that writes a double nearest to a number of hundredths as that number; C86_float_text proves that the shortest decimal, which is what Python writes, does. Elsewhere the text of floats and labels is a parameter; widths count bytes, which are characters for ASCII labels. With a cut for dice without the outcome 0 (see C20). C86_hundred_refuted: the printed percentages of three equal sides add up to 99.99. C86_report_refuted: a report fails for the constant 0 with any cut, and for a variable whose weights are all 0."
  },
  {
   "property": "C87",
   "status": "proved",
   "theorems": [
    "C87_single",
    "C87_several",
    "C87_blank",
    "C87_several_refuted"
   ],
   "note": "Proved for n a number, list, text or sequence of ints; false for dice as n: C87_several_refuted."
  },
  {
   "property": "C88",
   "status": "proved",
   "theorems": [
    "C88_pattern",
    "C88_label",
    "C88_reads_as_number",
    "C88_number_or_label",
    "C88_labels_differ",
    "C88_distinct",
    "C88_labels_differ_refuted",
    "C88_sums"
   ],
   "note": "Proved for labels made from one text (not the reserved text of constants) and, for different labels, without quotation marks; false for sums of labels: C88_labels_differ_refuted. Digits are those of ASCII."
  },
  {
   "property": "C89",
   "status": "proved",
   "theorems": [
    "C89_copies",
    "C89_library",
    "C89_no_difference",
    "C89_division_refuted"
   ],
   "note": "ScopeSpec.v gives the meaning: a function starts from the variables of its caller with its parameters set and changes only its copy. Proved for programs of the kind of C81 with names that are tame for this option (tame_over) and without the library function \"true div\", which fails with the option (C89_division_refuted); over any library that ignores a further argument, as the modelled one does (C89_library)."
  },
  {
   "property": "C90",
   "status": "proved",
   "theorems": [
    "C90_given",
    "C90_like_assignment",
    "C90_nothing",
    "C90_only_used",
    "C90_stops",
    "C90_exact",
    "C90_changed_refuted",
    "C90_copying_refuted"
   ],
   "note": "StartSpec.v: the given variables come last in the globals of unsafe_exec, so they hide names of the library; only names of variables that no generated name needs are given. False when a function assigns to a given variable (C90_changed_refuted: Python makes it local) and with the option for non-local variables (C90_copying_refuted: the generated program looks variables up in its own dictionary)."
  },
  {
   "property": "C91",
   "status": "proved",
   "theorems": [
    "C91_exact",
    "C91_independent",
    "C91_executed",
    "C91_settings_kept",
    "C91_settings_refuted",
    "C91_failures_refuted"
   ],
   "note": "SessSpec.v: settings and the memory of rolls persist, the list of outputs is new. C91_exact and C91_independent are about the meaning of programs (C81, C89) on the modelled library; C91_executed carries them over to generated programs. C91_settings_refuted and C91_failures_refuted show what one program leaves to the next. Programs that raise lose their outputs; the model still shows the list."
  },
  {
   "property": "C92",
   "status": "proved",
   "theorems": [
    "C92_accepted",
    "C92_characters",
    "C92_first",
    "C92_tokens",
    "C92_faults_unique",
    "C92_early",
    "C92_raised",
    "C92_first_line",
    "C92_token_lines_refuted"
   ],
   "note": "ReportModel.v: full error recovery of ply/yacc.py and the lists in the assertion messages. C92_first and C92_tokens: \"begins a program\" is about programs of SynSpec.v (C76, C79), not about the automaton. C92_accepted justifies the parser model without recovery used elsewhere. C92_token_lines_refuted: the lexer is used twice without setting its line back. C92_raised: after a faulty token one of the two crashing shapes of C77 raises IndexError instead of the report."
  },
  {
   "property": "C93",
   "status": "proved",
   "theorems": [
    "C93_built",
    "C93_first",
    "C93_again",
    "C93_stands",
    "C93_names"
   ],
   "note": "PlyLexModel.v follows ply/lex.py from the names of the rules to the loop of Lexer.token; ReSem.v is the reference semantics of the part of the re module that is used (with the VERBOSE flag, named groups, lastindex). The tokens are those of LexModel.v, about which C65, C66, C84 and C92 speak. Not modelled: characters above 255, messages of the checks. C88_pattern belongs to C88."
  },
  {
   "property": "C94",
   "status": "proved",
   "theorems": [
    "C94_built",
    "C94_rules",
    "C94_tables",
    "C94_parse",
    "C94_compiler"
   ],
   "note": "PlyYaccModel.v follows ply/yacc.py from the docstrings to the tables (item sets, lookaheads by DeRemer and Pennello with their shared lists, conflicts); PlyParseModel.v follows LRParser.parse with its error recovery and compile_anydice. The tables are compared with those of GramModel.v by the kernel; the loop by a simulation for all token lists. Not modelled: debug output, the SLR sets that are computed and not used, SyntaxError raised by grammar functions (none does)."
  },
  {
   "property": "C95",
   "status": "proved",
   "theorems": [
    "C95_printed",
    "C95_refused",
    "C95_failure"
   ],
   "note": "C94 (the compiler as built), C81 and C83 (the execution has the exact meaning) and C86 (reports) put together. unsafe_exec stands for safe_exec (RestrictedPython is not modelled), in a fresh process; the log is left out. The standard deviation is within the error of C85."
  },
  {
   "property": "C96",
   "status": "proved",
   "theorems": [
    "C96_dices",
    "C96_blanks",
    "C96_refused",
    "C96_sequences",
    "C96_no_dice"
   ],
   "note": "For dice with positive weights (a value of weight 0 is stored and compared too, see C05), without forced truncation."
  },
  {
   "property": "C97",
   "status": "proved",
   "theorems": [
    "C97_hash",
    "C97_keys",
    "C97_lists",
    "C97_found_refuted"
   ],
   "note": "Hashes are a parameter of the model: any function that gives equal numbers equal hashes. Lists and dictionaries with one element. That an equal die is found is refuted; the theorems say exactly what happens."
  },
  {
   "property": "C98",
   "status": "proved",
   "theorems": [
    "C98_layout",
    "C98_printed",
    "C98_alone",
    "C98_one",
    "C98_determined",
    "C98_refused",
    "C98_stops",
    "C98_settings_refuted"
   ],
   "note": "MainModel.v: the loop of example_parse.py over its texts, built from the steps of C95; the settings and the memory of rolls persist between texts. The simplifications are those of C95. C98_settings_refuted: a set statement changes what a later text prints."
  },
  {
   "property": "C99",
   "status": "proved",
   "theorems": [
    "C99_texts",
    "C99_numbers",
    "C99_dice",
    "C99_dice_refuted",
    "C99_sequences",
    "C99_report",
    "C99_label_refuted"
   ],
   "note": "Characters are bytes here; text % value is formatting and not modelled. Sums of a text and a label are not modelled. C99_dice_refuted: the empty text is an empty sequence, so its sum is 0. C99_label_refuted: get_rv accepts numbers, iterables and dice only."
  },
  {
   "property": "C100",
   "status": "proved",
   "theorems": [
    "C100_inside",
    "C100_name",
    "C100_one_text",
    "C100_unknown"
   ],
   "note": "The text of dice is in C29 on its own (names depend on sharing of objects) and is not modelled inside programs; neither is the text of floats."
  },
  {
   "property": "C101",
   "status": "proved",
   "theorems": [
    "C101_meaning",
    "C101_printed"
   ],
   "note": "C101_meaning is about the meaning of programs over any library; C101_printed about texts, compiled with the options checked and the names tame (MainSpec.says). C101_one_name: two names that become one do make a difference."
  },
  {
   "property": "C102",
   "status": "proved",
   "theorems": [
    "C102_unused",
    "C102_unused_printed",
    "C102_order",
    "C102_order_printed"
   ],
   "note": "Only definitions with types that exist are left out or moved (another type raises when the definition is reached). For the printed texts both have to be compiled with the same options: a function with the name of a helper changes them (C70). C102_one_function: of two definitions of one function the last counts."
  },
  {
   "property": "C103",
   "status": "proved",
   "theorems": [
    "C103_meaning",
    "C103_printed",
    "C103_parentheses"
   ],
   "note": "WriteSpec.v defines the changes on the syntax (alike). For the printed texts both have to be compiled with the same options (C70) and be of the kind of C81. C103_parentheses holds over any library."
  },
  {
   "property": "C104",
   "status": "proved",
   "theorems": [
    "C104_true",
    "C104_again",
    "C104_roll",
    "C104_refuted"
   ],
   "note": "NameModel.v: a heap of objects with names; all other ways to make a random variable are one event. Fixed settings without truncation, integer dice, and at most 10^31 equally likely rolls (beyond, weights are rescaled: C13). C104_refuted: texts that are not dice notation need not describe the dice."
  },
  {
   "property": "C105",
   "status": "proved",
   "theorems": [
    "C105_outputs",
    "C105_texts",
    "C105_expressions"
   ],
   "note": "Invariant over the meaning of programs (C81 relates it to the executed text): operators, library functions, casting and calls give such values when their arguments are such values. C105_not_everything: None itself is not such a value, so the statement is not empty."
  },
  {
   "property": "C106",
   "status": "proved",
   "theorems": [
    "C106_meaning",
    "C106_printed",
    "C106_types_refuted",
    "C106_depth_refuted",
    "C106_again_refuted"
   ],
   "note": "The depth of calls is below the maximum (it is in a new process) and the settings are valid. After an exception the internal depth counter may differ, nothing else. Three refutations show what the conditions are for."
  },
  {
   "property": "C107",
   "status": "proved",
   "theorems": [
    "C107_kept",
    "C107_more",
    "C107_failed",
    "C107_printed",
    "C107_settings_refuted"
   ],
   "note": "StepFacts.v: what a program does to the world is a sequence of steps of the library; outputs only grow along them. C107_settings_refuted: set RV_TRUNC at the end changes the table of {1.5} output before."
  },
  {
   "property": "C108",
   "status": "proved",
   "theorems": [
    "C108_meaning",
    "C108_sequences",
    "C108_unread",
    "C108_replaced",
    "C108_printed"
   ],
   "note": "Relation between runs in which the functions have the same parameters and bodies with the value written in (StandFacts.v). C108_meaning is over any runtime; C108_sequences and C108_printed are over the modelled library. C108_dice (example) shows why dice are excluded."
  },
  {
   "property": "C109",
   "status": "proved",
   "theorems": [
    "C109_plus",
    "C109_minus",
    "C109_times",
    "C109_numbers",
    "C109_roll",
    "C109_roll_mean",
    "C109_random_count"
   ],
   "note": "Exact rational moments; C11 and C85 relate them to the floats that mean() and std() give. Above the rescaling threshold C13 bounds the error of single probabilities, not of moments."
  },
  {
   "property": "C110",
   "status": "proved",
   "theorems": [
    "C110_position",
    "C110_best",
    "C110_worst",
    "C110_falling",
    "C110_events"
   ],
   "note": "ChanceSpec.v defines the binomial chance by factorials, apart from the model. Weights up to 10^31, where C30 gives the law of a position exactly."
  },
  {
   "property": "C111",
   "status": "proved",
   "theorems": [
    "C111_pool",
    "C111_defined"
   ],
   "note": "The binomial chance is in ChanceSpec.v. Weights up to 10^31; above, C21_roll_close bounds the error of the same law."
  },
  {
   "property": "C112",
   "status": "proved",
   "theorems": [
    "C112_count",
    "C112_repeated"
   ],
   "note": "From the law of count over casts (C55) and the counting of C110. C112_repeated: count {2,2} in 2d3 can be 4."
  }
 ]
}