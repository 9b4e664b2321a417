{"id": "C01", "title": "RV construction preserves the distribution", "statement": "Building RV(vals, probs) from any list of numbers/labels and non-negative integer weights neither invents, drops nor re-weights outcomes: there is one positive factor g such that for every value v the total weight given to v in the input is g times the weight of v in the result (when the input is empty, or every entry is dropped by RV_IGNORE_ZERO_PROBS, the result is the constant 0).", "quantifier": "all finite lists of values (ints, floats, labels) with duplicates in any order, all non-negative weights, both RV_IGNORE_ZERO_PROBS settings", "why_tests_cant": "the input lists are unbounded and duplicates can be anywhere", "anchors": ["src/randvar.py: RV.__init__, _sort_and_group, _get_new_zipped, _get_normalized"]}
{"id": "C02", "title": "RV construction yields a canonical form", "statement": "Every constructed RV has at least one outcome, strictly increasing values, non-negative weights whose gcd is 1 (or all weights 0), and two inputs that describe proportional weights on the same listed values produce the identical (vals, probs) up to numeric equality of the values.", "quantifier": "all pairs of accepted inputs", "why_tests_cant": "quantifies over all pairs of inputs", "anchors": ["src/randvar.py: RV.__init__, _sort_and_group"]}
{"id": "C03", "title": "RV construction accepts exactly the documented inputs", "statement": "RV(vals, probs) raises exactly when the lists differ in length or some weight is negative (or, with truncation on, some value is not a number); otherwise it returns an RV.", "quantifier": "all lists of values and integer weights, all settings", "why_tests_cant": "an if-and-only-if over unbounded inputs", "anchors": ["src/randvar.py: RV.__init__, _sort_and_group"]}
{"id": "C04", "title": "RV construction ignores the order of its input", "statement": "Permuting the (value, weight) pairs given to the constructor, or splitting one entry into several entries of the same value whose weights add up, does not change the resulting distribution; a permutation gives numerically identical vals and identical probs.", "quantifier": "all inputs and all permutations of them", "why_tests_cant": "factorially many permutations", "anchors": ["src/randvar.py: RV._get_zip, _get_new_zipped"]}
{"id": "C05", "title": "dices_are_equal decides equality of distributions", "statement": "On RVs produced by the constructor with only positive weights, dices_are_equal(a, b) is true exactly when a and b give every value the same probability; it is an equivalence relation.", "quantifier": "all pairs and triples of constructed RVs", "why_tests_cant": "all pairs of distributions", "anchors": ["src/randvar.py: RV.dices_are_equal"]}
{"id": "C06", "title": "Truncation maps every outcome towards zero", "statement": "With truncation requested, the constructed RV is the distribution of int(v): the probability of an integer k is the total probability of the inputs whose integer part towards zero is k.", "quantifier": "all numeric inputs", "why_tests_cant": "unbounded inputs", "anchors": ["src/randvar.py: RV.__init__"]}
{"id": "C07", "title": "X op Y is the law of independent outcomes", "statement": "For two RVs and any supported binary operator whose evaluation raises on no pair of outcomes, the result gives value z probability proportional to the sum of w_X(x)*w_Y(y) over the pairs with x op y == z; nothing depends on how intermediate keys are stored.", "quantifier": "all RVs, all 15 binary operators, all values, whenever the total weight is below the 1e31 rescaling threshold", "why_tests_cant": "unbounded supports and every operator", "anchors": ["src/randvar.py: RV._convolve, _rdict.fast_convolve, operators"]}
{"id": "C08", "title": "X op c and c op X act pointwise", "statement": "An operator between an RV and a number (or a sequence, through its sum) is the image of the distribution under the pointwise operation with the operands in source order; in particular c - X and X - c are not exchanged.", "quantifier": "all RVs, operators and scalars", "why_tests_cant": "unbounded", "anchors": ["src/randvar.py: RV._convolve, _rconvolve"]}
{"id": "C09", "title": "Comparison operators yield complementary indicator dice", "statement": "X < Y, X <= Y, X == Y, ... are distributions on {0,1} only, with weight of 1 equal to the weight of the pairs satisfying the comparison; < and >=, > and <=, == and != are complementary, and the weights of <, == and > add to the total.", "quantifier": "all pairs of RVs", "why_tests_cant": "all pairs of distributions", "anchors": ["src/randvar.py: RV.__lt__ ... __ne__"]}
{"id": "C10", "title": "Addition of integer dice is commutative and associative", "statement": "For integer-valued RVs, X+Y and Y+X are the same distribution and so are (X+Y)+Z and X+(Y+Z), as long as the weights stay below the rescaling threshold; X+0 is X.", "quantifier": "all integer RVs", "why_tests_cant": "all triples", "anchors": ["src/randvar.py: RV.__add__, __radd__"]}
{"id": "C11", "title": "Means are the exact expectation and are linear", "statement": "For integer RVs mean() is the correctly rounded quotient of sum(v*p) by sum(p), None exactly if all weights are 0; the exact expectation satisfies E[X+Y] = E[X]+E[Y] and E[-X] = -E[X], E[cX]=cE[X].", "quantifier": "all integer RVs", "why_tests_cant": "all distributions", "anchors": ["src/randvar.py: RV.mean, RV.__add__, RV.__neg__"]}
{"id": "C12", "title": "Unary operators act pointwise", "statement": "-X, abs(X), +X, trunc/floor/ceil and round(X, n) are the image of X under the pointwise operation, rounding to the nearest decimal with ties to even; they leave a blank as it is and refuse sequences; -(-X) is X; ~X is the constant 1 exactly for the constant-0 die and the constant 0 otherwise.", "quantifier": "all RVs", "why_tests_cant": "all distributions", "anchors": ["src/randvar.py: RV.__neg__, __abs__, __pos__, __invert__, __round__, __floor__, __ceil__, __trunc__", "src/blackrv.py: BlankRV.__abs__, __round__, __floor__, __ceil__, __trunc__"]}
{"id": "C13", "title": "Weight rescaling is the identity below 1e31 and has bounded error above", "statement": "An operation result whose total weight is at most 1e31 is returned exactly. Above it the weights are divided (rounding down) by one constant; every probability then moves by at most n/(T-n) where n is the number of outcomes and T the total after exact division, so by less than 1e-9 for any RV with up to 1e10 outcomes, and no value is added or reordered.", "quantifier": "all RVs of any total weight", "why_tests_cant": "weights are unbounded integers", "anchors": ["src/randvar.py: _INTERNAL_PROB_LIMIT_VALS"]}
{"id": "C14", "title": "The rescaling error claimed in the log message is an upper bound", "statement": "The warning printed when weights are rescaled claims abs err <= 1/(sum/const - 1). (Refuted: with many outcomes the real error can exceed it.)", "quantifier": "all RVs above the threshold", "why_tests_cant": "a counterexample needs a specific weight pattern above 1e31", "anchors": ["src/randvar.py: _INTERNAL_PROB_LIMIT_VALS"]}
{"id": "C15", "title": "Merging RVs is the weighted mixture", "statement": "RV.from_rvs(rvs, weights) gives each value the probability sum_i w_i*P_i(v) / sum_i w_i over the non-blank entries (a number counts as the constant die); blanks and None are removed together with their weight; if nothing is left the result is blank.", "quantifier": "all lists of RVs, numbers, blanks and all weight lists", "why_tests_cant": "unbounded lists with different denominators", "anchors": ["src/randvar.py: RV.from_rvs"]}
{"id": "C16", "title": "Merging never fails on valid RVs", "statement": "from_rvs on RVs with positive total weights and non-negative weights returns a result. (Refuted: the product of the denominators can exceed the float range and raise OverflowError.)", "quantifier": "all lists of valid RVs", "why_tests_cant": "needs dozens of RVs with large denominators", "anchors": ["src/randvar.py: RV.from_rvs, _INTERNAL_PROB_LIMIT_VALS"]}
{"id": "C17", "title": "get_cdf is the running total", "statement": "X.get_cdf() lists the same values as X, and its weights are proportional to P(X <= v); they are non-decreasing and the last one stands for the total.", "quantifier": "all constructed RVs with RV_IGNORE_ZERO_PROBS off", "why_tests_cant": "all distributions", "anchors": ["src/randvar.py: RV.get_cdf"]}
{"id": "C18", "title": "filter conditions the distribution", "statement": "X.filter(vs) has exactly the outcomes of X not among vs, with unchanged relative weights; if nothing is left it is the constant 0.", "quantifier": "all RVs and filter sequences", "why_tests_cant": "all subsets", "anchors": ["src/randvar.py: RV.filter"]}
{"id": "C19", "title": "get_vals_probs reports every outcome and normalises", "statement": "get_vals_probs() lists every outcome once in increasing order with p/total; exactly computed, the reported probabilities add to 1.", "quantifier": "all RVs with positive total", "why_tests_cant": "all distributions", "anchors": ["src/randvar.py: RV.get_vals_probs"]}
{"id": "C20", "title": "cdf_cut removes only outcomes whose total probability is below the cut", "statement": "get_vals_probs(cut) removes the largest set of least likely outcomes with total probability below cut and nothing else. (Refuted: outcome 0 is removed for every cut > 0, however likely it is; proved for RVs that do not contain 0.)", "quantifier": "all RVs, all cuts in (0,1)", "why_tests_cant": "every distribution and cut", "anchors": ["src/randvar.py: RV.get_vals_probs"]}
{"id": "C21", "title": "roll(n, d) is the sum of n independent dice", "statement": "For an integer n >= 0 and an integer-valued die d, roll(n, d) gives value s probability equal to the total weight of the ordered n-tuples of faces with sum s divided by total(d)^n, as long as total(d)^n is at most 1e31 (beyond that C13 bounds the error); roll(0, d) is the constant 0; roll(-n, d) is the negation of roll(n, d).", "quantifier": "all n, all integer dice", "why_tests_cant": "n is unbounded; the code uses repeated doubling with memoisation", "anchors": ["src/roller.py: roll, _roll, _roll_int_rv"]}
{"id": "C22", "title": "roll(m) and roll(n, m) for integers m", "statement": "An integer m > 0 denotes the uniform die 1..m, m < 0 the uniform die m..-1 and 0 the constant 0; roll(m) is roll(1, m) and roll(n, -m) is the mirror image of roll(n, m).", "quantifier": "all integers n, m", "why_tests_cant": "all integers", "anchors": ["src/roller.py: _roll"]}
{"id": "C23", "title": "roll of a sequence uses its sum as count, and a sequence as die is uniform over its entries", "statement": "roll(seq, d) = roll(sum(seq), d); rolling a die given as a sequence makes each position equally likely (duplicates add up); an empty sequence as die gives a blank.", "quantifier": "all sequences and dice", "why_tests_cant": "all sequences", "anchors": ["src/roller.py: roll, _roll", "src/randvar.py: RV.from_seq"]}
{"id": "C24", "title": "Rolling a random number of dice is the mixture over the count", "statement": "roll(N, d) for an integer-valued RV N has P(s) = sum_n P(N=n) P(roll(n,d)=s).", "quantifier": "all integer RVs N and integer dice d below the rescaling threshold", "why_tests_cant": "nested unbounded quantifiers", "anchors": ["src/roller.py: _roll", "src/randvar.py: RV.from_rvs"]}
{"id": "C25", "title": "The roll memo table is invisible", "statement": "With fixed settings and integer dice, the result of roll(n, d) does not depend on which rolls were made before.", "quantifier": "all histories of rolls", "why_tests_cant": "all call histories", "anchors": ["src/roller.py: _MEMOIZED_ROLLS, _roll_int_rv"]}
{"id": "C26", "title": "roll depends only on its arguments and the current settings", "statement": "After any history, roll returns what a fresh interpreter with the current settings would return. (Refuted twice: an earlier roll of float faces makes a later integer roll return floats and then fail as a dice count; an earlier roll made before a settings change is replayed after it.)", "quantifier": "all histories of rolls and settings_set calls", "why_tests_cant": "needs a particular history", "anchors": ["src/roller.py: _MEMOIZED_ROLLS, _roll_int_rv", "src/settings.py: settings_set"]}
{"id": "C27", "title": "The number of dice is tracked", "statement": "len(roll(n, d)) is n for n >= 2, len(roll(1, d)) is len(d), and any arithmetic result, roll(0,d), roll(-n,d) and a roll with a random count have length 1.", "quantifier": "all rolls", "why_tests_cant": "all n and d", "anchors": ["src/roller.py: _roll_int_rv", "src/randvar.py: RV.__len__, set_source"]}
{"id": "C28", "title": "Dice notation strings mean what they say", "statement": "roll(\"NdM\") equals roll(N, M) and roll(\"dM\") equals roll(1, M) for all integers N, M written in decimal.", "quantifier": "all integers N, M", "why_tests_cant": "all decimal renderings", "anchors": ["src/roller.py: _parse_from_str, roll"]}
{"id": "C29", "title": "Printing a roll or using it does not change another object", "statement": "str(X) is not changed by calls that merely use X. (Refuted: roll(1, X) and rolls that hit the memo table overwrite the name of an existing object.)", "quantifier": "all histories of rolls", "why_tests_cant": "aliasing shows only after particular histories", "anchors": ["src/roller.py: roll, _roll_int_rv, _setup_str_LHS_RHS", "src/randvar.py: RV.__str__"]}
{"id": "C30", "title": "k@roll(n,d) is the k-th highest die", "statement": "For 1 <= k <= n and a die with at least one positive weight, k@roll(n,d) gives v the total weight of the ordered n-tuples whose k-th largest entry is v, divided by total(d)^n; with \"lowest first\" it is the k-th smallest; for any other k the result is 0.", "quantifier": "all dice, n, k, both position orders, canonical dice below the rescaling threshold", "why_tests_cant": "closed formula with binomials versus enumeration of n-tuples", "anchors": ["src/randvar.py: RV.__rmatmul__, _get_kth_order_statistic"]}
{"id": "C31", "title": "k@ works for every die the library itself produced", "statement": "k@roll(n, X) is the k-th order statistic for any RV X obtained from operations. (Refuted: after weight rescaling the weights of X may share a factor, get_cdf normalises them away and the order statistic is wrong or raises.)", "quantifier": "all RVs reachable through the API", "why_tests_cant": "needs totals above 1e31", "anchors": ["src/randvar.py: _get_kth_order_statistic, get_cdf, _INTERNAL_PROB_LIMIT_VALS"]}
{"id": "C32", "title": "Casting dice to sequences enumerates all rolls with their multiplicity", "statement": "The sequences obtained from n rolls of d are exactly the non-increasing n-tuples of faces, each once, weighted by the total weight of the ordered tuples that sort to it; the weights add to total(d)^n.", "quantifier": "all n and all canonical dice", "why_tests_cant": "exponentially many tuples, multinomial counting", "anchors": ["src/randvar.py: RV._get_expanded_possible_rolls", "src/utils.py: factorial"]}
{"id": "C33", "title": "S@roll(n,d) sums the selected positions", "statement": "For a sequence S of at least two integer positions and default position order, S@roll(n,d) is the distribution of the sum of the S-th highest dice, repeated positions counted repeatedly and positions outside 1..n contributing 0.", "quantifier": "all integer sequences S, all n, all integer dice below the threshold", "why_tests_cant": "exponentially many tuples", "anchors": ["src/randvar.py: RV.__rmatmul__, _sum_at"]}
{"id": "C34", "title": "A position out of range contributes nothing, in every position order", "statement": "k@X equals {k, j}@X when j is out of range, in both position orders. (Refuted for \"lowest first\": a single index counts from the lowest, a list of indices from the highest.)", "quantifier": "all dice and positions", "why_tests_cant": "needs the non-default setting and a multi-index", "anchors": ["src/randvar.py: __rmatmul__, _get_expanded_possible_rolls, _sum_at"]}
{"id": "C35", "title": "Selecting all positions is the total", "statement": "{1..n}@roll(n,d) and roll(n,d) are the same distribution (n >= 2), and highest n of n dice is the total.", "quantifier": "all n, all integer dice", "why_tests_cant": "all n", "anchors": ["src/randvar.py: __rmatmul__", "src/funclib.py: highest_N_of_D"]}
{"id": "C36", "title": "Casting to a sequence preserves the distribution of the total", "statement": "For every RV made by rolling, expanding it to sequences and summing them gives back the same distribution. (Proved for roll(n,d) with integer n; refuted for a roll with a random number of dice, which is expanded as a single die d.)", "quantifier": "all RVs produced by roll", "why_tests_cant": "needs a roll whose count is a die", "anchors": ["src/randvar.py: _get_expanded_possible_rolls", "src/roller.py: _roll"]}
{"id": "C37", "title": "A T_N parameter given a die is the law of total probability", "statement": "Calling a decorated function with dice for its T_N parameters gives P(y) = sum over all combinations of outcomes of their probability times P(f(combination) = y), renormalised over the combinations on which f did not return blank/None; several dice parameters are independent.", "quantifier": "all functions, all dice, any number of parameters", "why_tests_cant": "all user functions", "anchors": ["src/decorators.py: anydice_type_casting", "src/randvar.py: RV.from_rvs"]}
{"id": "C38", "title": "A T_S parameter given dice is called once per possible sorted roll", "statement": "With a T_S parameter given roll(n,d), the function is called on every non-increasing n-tuple of faces, and the result is the mixture weighted by the probability of rolling it.", "quantifier": "all functions and dice", "why_tests_cant": "all functions and all n", "anchors": ["src/decorators.py: anydice_type_casting", "src/randvar.py: _get_expanded_possible_rolls"]}
{"id": "C39", "title": "Casting follows the nine-case table", "statement": "int->T_N, Seq->T_S, RV->T_D are passed unchanged; Seq->T_N passes the sum; int->T_S passes the one-element sequence; int/float/Seq->T_D pass the uniform die over the entries; unannotated parameters are passed unchanged.", "quantifier": "all argument lists", "why_tests_cant": "all argument lists", "anchors": ["src/decorators.py: anydice_type_casting"]}
{"id": "C40", "title": "A blank argument for a number or sequence parameter aborts the call", "statement": "If any T_N or T_S argument is blank the function is never called and the result is the special blank; a blank for T_D is passed through.", "quantifier": "all functions and argument lists", "why_tests_cant": "all functions", "anchors": ["src/decorators.py: anydice_type_casting"]}
{"id": "C41", "title": "Nested calls never exceed the maximum function depth", "statement": "During any execution of decorated functions, the number of simultaneously active bodies never exceeds \"maximum function depth\"; a call beyond it returns blank without running the body, and recursion terminates. A warning is printed at most once, also while programs run, and never again after it was printed.", "quantifier": "all call trees", "why_tests_cant": "all recursive programs", "anchors": ["src/decorators.py: max_func_depth"]}
{"id": "C42", "title": "The depth counter is restored", "statement": "After an outermost decorated call returns normally the depth counter has its old value, whatever was called inside.", "quantifier": "all call trees without exceptions", "why_tests_cant": "all histories", "anchors": ["src/decorators.py: max_func_depth"]}
{"id": "C43", "title": "A failed call does not poison later calls", "statement": "After a decorated call raised, later calls behave as if it had not happened. (Refuted: the counter is not decremented on exceptions; after ten failures every call returns blank.)", "quantifier": "all histories with exceptions", "why_tests_cant": "needs a history of failures", "anchors": ["src/decorators.py: max_func_depth"]}
{"id": "C44", "title": "Arithmetic on a sequence goes through its sum", "statement": "For every arithmetic operator, seq op x = sum(seq) op x and x op seq = x op sum(seq) for numbers, dice and sequences on the other side.", "quantifier": "all sequences and operands", "why_tests_cant": "all sequences", "anchors": ["src/seq.py: Seq.__add__ ... __rmod__"]}
{"id": "C45", "title": "Comparing a sequence with a number counts matching entries", "statement": "seq < x, seq == x, ... return the number of entries satisfying the comparison, and x < seq counts the entries greater than x; the counts for <, == and > add to len(seq).", "quantifier": "all sequences, numbers", "why_tests_cant": "all sequences", "anchors": ["src/seq.py: Seq._compare_to"]}
{"id": "C46", "title": "Comparing two sequences is entry-wise with padding", "statement": "seq == seq iff same length and equal entries; != is its negation; < (<=, >, >=) holds iff it holds at each position when the shorter one is padded with minus infinity.", "quantifier": "all pairs of sequences", "why_tests_cant": "all pairs", "anchors": ["src/seq.py: Seq._compare_to"]}
{"id": "C47", "title": "Indexing a sequence is one-based and total", "statement": "k@seq is the k-th entry for 1 <= k <= len and 0 otherwise; S@seq is the sum of the entries at the positions in S; seq@n for a non-negative integer n selects decimal digits of n. After set_one_indexed(False) on a sequence, position k of it is the one that was k+1, for numbers and for sequences of positions, and set_one_indexed(True) restores the counting from one.", "quantifier": "all sequences, positions", "why_tests_cant": "all positions", "anchors": ["src/seq.py: __getitem__, __matmul__, __rmatmul__", "src/utils.py: mymatmul"]}
{"id": "C48", "title": "get_seq flattens completely and preserves order", "statement": "get_seq of arbitrarily nested iterables gives the non-dice leaves in left-to-right order followed by the values of the dice leaves in order; blanks vanish; flattening is idempotent.", "quantifier": "all nested structures", "why_tests_cant": "unbounded nesting", "anchors": ["src/factory.py: get_seq", "src/utils.py: flatten", "src/seq.py: Seq.__init__"]}
{"id": "C49", "title": "Boolean operators on sequences, numbers and dice are 0/1 truth functions", "statement": "seq & x, seq | x, X & Y, X | Y, myand, myor, myinvert return truth values of (sum or value) != 0 conjunction/disjunction/negation.", "quantifier": "all operands", "why_tests_cant": "all operands", "anchors": ["src/seq.py: __or__, __and__", "src/randvar.py: __or__, __and__", "src/utils.py: myand, myor, myinvert"]}
{"id": "C50", "title": "Blank is neutral for + and absorbing for * and comparisons", "statement": "For the plain blank b: b+x = x+b = x and x-b = x, b-x = -x for numbers and dice x; b*x, x*b, b//x, b**x, b%x and comparisons are blank; b|x = x and b&x is blank. For the special blank every arithmetic operator returns it and comparisons/booleans return 1.", "quantifier": "all operands", "why_tests_cant": "all operands and both blanks", "anchors": ["src/blackrv.py: BlankRV"]}
{"id": "C51", "title": "Adding blank to a sequence gives the same result on both sides", "statement": "blank + seq equals seq + blank. (Refuted: one side is the sequence, the other its sum.)", "quantifier": "all sequences", "why_tests_cant": "particular operand order", "anchors": ["src/blackrv.py: __add__, __radd__", "src/seq.py: __add__"]}
{"id": "C52", "title": "highest / lowest / middle N of dice", "statement": "highest_N_of_D(k, roll(n,d)) is the distribution of the sum of the k largest of n dice, lowest_N_of_D of the k smallest, middle_N_of_D of the k middle ones (rounding towards the highest), for all 1 <= k <= n; a die-valued k gives the mixture.", "quantifier": "all n, k, integer dice", "why_tests_cant": "all n and k", "anchors": ["src/funclib.py: highest_N_of_D, lowest_N_of_D, middle_N_of_D"]}
{"id": "C53", "title": "explode re-rolls exactly the maximum, depth times", "statement": "explode(d) with depth k has P(s) determined by: roll d; if the value is not the maximum stop, otherwise add an explode of depth k-1; depth 0 is d itself. All mass is kept and the support is bounded by (depth+1)*max.", "quantifier": "all integer dice and all depths", "why_tests_cant": "all depths", "anchors": ["src/funclib.py: explode, _explode_helper, maximum_of"]}
{"id": "C54", "title": "sort and reverse", "statement": "sort_X returns a non-increasing permutation of its argument and reverse_X the mirror image; the documented slow implementations compute the same results.", "quantifier": "all sequences", "why_tests_cant": "all sequences", "anchors": ["src/funclib.py: sort, sort_VANILLA_SLOW, _sort_helper_add_N_to_S, reverse, reverse_VANILLA_SLOW"]}
{"id": "C55", "title": "contains, count and absolute", "statement": "contains(S, x) is true iff x occurs in S; count_in(V, S) is the number of pairs of equal entries; absolute(x) = |x|; for dice arguments they are the corresponding mixtures.", "quantifier": "all sequences and numbers", "why_tests_cant": "all sequences", "anchors": ["src/funclib.py: contains, count_in, absolute"]}
{"id": "C56", "title": "maximum_of and highest/lowest of two", "statement": "maximum_of(d) is the largest listed outcome of d; highest_of_N_and_N and lowest_of_N_and_N are max and min, and for dice the distribution of the max/min of independent outcomes.", "quantifier": "all dice", "why_tests_cant": "all dice", "anchors": ["src/funclib.py: maximum_of, highest_of_N_and_N, lowest_of_N_and_N"]}
{"id": "C57", "title": "gwf re-rolls once", "statement": "gwf(n, d, m) is the sum of n independent dice each of which is d re-rolled once when its first roll is at most m.", "quantifier": "all integer dice, n, m", "why_tests_cant": "all dice", "anchors": ["src/funclib.py: gwf, _gwf_helper"]}
{"id": "C58", "title": "Settings stay valid over every history", "statement": "After any sequence of settings_set and settings_reset calls (including failing ones) every setting is valid: position order is one of the two orders, depths and width are positive, flags are booleans; a failing call changes nothing and a succeeding call changes exactly the named setting; reset restores all defaults. Programs keep all settings valid too, except that the position order can become a blank (refuted by the text of a program: the blank that a call with a blank argument gives equals everything).", "quantifier": "all histories of calls with arbitrary names and values", "why_tests_cant": "all histories", "anchors": ["src/settings.py: settings_set, settings_reset"]}
{"id": "C59", "title": "Label values are totally ordered after all numbers", "statement": "The comparison of label values is a total order consistent with ==, every number is below every label, and addition of labels is commutative and associative with the counts adding up per label.", "quantifier": "all label combinations", "why_tests_cant": "all triples", "anchors": ["src/string_rvs.py: StringVal"]}
{"id": "C60", "title": "Equal labels have equal hashes", "statement": "a == b implies hash(a) == hash(b) for labels. (Refuted: the hash depends on insertion order.) Convolution of dice with labels is nevertheless correct (C07).", "quantifier": "all label pairs", "why_tests_cant": "needs two insertion orders", "anchors": ["src/string_rvs.py: StringVal.__hash__, __eq__", "src/randvar.py: _rdict"]}
{"id": "C61", "title": "Adding zero does not change a label", "statement": "x + 0 == x for every value. (Refuted for labels: an explicit constant 0 is kept.)", "quantifier": "all values", "why_tests_cant": "specific value kind", "anchors": ["src/string_rvs.py: StringVal.__add__"]}
{"id": "C62", "title": "factorial is n! whatever was computed before", "statement": "utils.factorial(n) = n! for n >= 0 in every state of its memo table.", "quantifier": "all n, all histories", "why_tests_cant": "all histories", "anchors": ["src/utils.py: factorial"]}
{"id": "C63", "title": "Operators on plain integers follow decimal digits and truth values", "statement": "myMatmul(k, n) is the k-th decimal digit of n >= 0 from the left (0 out of range), myLen(n) the number of decimal digits of |n|, myInvert is logical negation.", "quantifier": "all integers", "why_tests_cant": "all integers", "anchors": ["src/utils.py: mymatmul, mylen, myinvert"]}
{"id": "C64", "title": "roller only returns possible outcomes with the right frequencies", "statement": "For every value of the underlying uniform random number the outcome has positive weight, and the random numbers leading to v form an interval whose share of all random numbers is P(v) up to 5/2^53.", "quantifier": "all RVs with positive total, all u in [0,1)", "why_tests_cant": "all u", "anchors": ["src/roller.py: roller"]}
{"id": "C65", "title": "The lexer accounts for every character", "statement": "On any input the tokens, ignored blanks, comments, string delimiters and reported illegal characters partition the text in order; if nothing is reported illegal, no character was dropped outside blanks, newlines, comments and quotes.", "quantifier": "all input texts", "why_tests_cant": "all texts", "anchors": ["src/parser/myparser.py: t_* rules", "src/parser/ply/lex.py: Lexer.token"]}
{"id": "C66", "title": "Reserved words and d are never names", "statement": "A lower-case word is a keyword token iff it is one of the ten reserved words, the d operator iff it is exactly d, and a name otherwise; the word is maximal.", "quantifier": "all words in all contexts", "why_tests_cant": "all words", "anchors": ["src/parser/myparser.py: t_LOWERNAME, reserved"]}
{"id": "C67", "title": "Function names are mangled injectively", "statement": "Two function headers (or a header and a call) get the same Python name iff they have the same sequence of words and parameter positions; hence a call always reaches the definition with its shape and passes exactly as many arguments as it has parameters.", "quantifier": "all headers and calls", "why_tests_cant": "all pairs of names", "anchors": ["src/parser/python_resolver.py: resolve_node FUNCTION, CALL"]}
{"id": "C68", "title": "Successful compilation leaves no undefined function call", "statement": "If compile_anydice succeeds with default flags then every called function is defined in the program or in the library, and at least one output statement is present; otherwise it raises.", "quantifier": "all programs", "why_tests_cant": "all programs", "anchors": ["src/parser/python_resolver.py: resolve"]}
{"id": "C69", "title": "User functions never capture the names the generated code relies on", "statement": "A user-defined function never replaces a helper used by generated code. (Refuted: get_seq and len are not protected.)", "quantifier": "all function names", "why_tests_cant": "needs specific names", "anchors": ["src/parser/python_resolver.py: _FUNCS_MAY_COLLIDE, resolve"]}
{"id": "C70", "title": "A program whose function is called output/roll still compiles", "statement": "Defining a function whose name collides with a helper only renames it. (Refuted: in collision mode calls to the function library are renamed too and rejected as unknown.)", "quantifier": "all programs", "why_tests_cant": "needs a collision plus a library call", "anchors": ["src/parser/python_resolver.py: resolve, resolve_node CALL"]}
{"id": "C71", "title": "Generated expressions keep the source structure", "statement": "Parsing a generated expression with Python precedence gives the tree of the source expression. (Refuted for left-nested ^, chained comparisons, & and | next to comparisons, and unary minus under ^; proved for expressions without those patterns, and for all expressions when grouped.)", "quantifier": "all expressions", "why_tests_cant": "all expression trees", "anchors": ["src/parser/python_resolver.py: resolve_node EXPR_OP, UNARY", "src/parser/myparser.py: precedence"]}
{"id": "C72", "title": "String contents stay inside their Python literal", "statement": "Whatever text a source string contains, the generated f-string literal ends exactly where the generator ends it. (Refuted: backslashes are not escaped, which permits arbitrary code injection; proved for strings without backslash.)", "quantifier": "all string contents", "why_tests_cant": "adversarial strings", "anchors": ["src/parser/python_resolver.py: resolve_node STRING", "src/parser/myparser.py: t_instring_*"]}
{"id": "C73", "title": "Braces in strings are literal and variables are substituted", "statement": "Formatting the generated f-string gives the source text with each [VAR] replaced by the variable value.", "quantifier": "all strings without backslash", "why_tests_cant": "all strings", "anchors": ["src/parser/python_resolver.py: resolve_node STRING, STRVAR"]}
{"id": "C74", "title": "Block structure survives indentation", "statement": "Re-reading the generated text by indentation gives the nesting of functions, loops and conditionals of the source; removing repeated blank lines never removes code.", "quantifier": "all programs", "why_tests_cant": "all nestings", "anchors": ["src/parser/python_resolver.py: _indent_str, resolve, resolve_node"]}
{"id": "C75", "title": "Duplicate parameter names are made distinct", "statement": "After fix_dups_in_args all parameter names of a function are distinct, the first occurrence keeps its name and types are kept. (Refuted for untyped parameters, which raise; proved for typed ones.)", "quantifier": "all parameter lists", "why_tests_cant": "all lists", "anchors": ["src/parser/python_resolver.py: has_dups, fix_dups_in_args"]}
{"id": "C76", "title": "Operator precedence and associativity of the source language", "statement": "The parser groups binary operators by the documented precedence table, left to right within a level, with d and unary operators binding tighter; parsing the fully parenthesised rendering of any tree gives back the tree.", "quantifier": "all token sequences", "why_tests_cant": "all expressions", "anchors": ["src/parser/myparser.py: precedence, p_expression_*, p_term_*"]}
{"id": "C77", "title": "A call that starts with a nested call compiles", "statement": "[[f] g] is a call of \"X g\" with the result of f. (Refuted: the grammar action raises IndexError.)", "quantifier": "all calls", "why_tests_cant": "needs a specific shape", "anchors": ["src/parser/myparser.py: p_call_elements_expr"]}
{"id": "C78", "title": "The parser stops on every input", "statement": "Parsing ends after a number of steps linear in the number of tokens, whatever the tokens are, and gives one answer.", "quantifier": "all token sequences", "why_tests_cant": "all inputs", "anchors": ["src/parser/myparser.py: yacc grammar", "src/parser/ply/yacc.py: LRParser.parse"]}
{"id": "C79", "title": "The accepted language is exactly the documented one", "statement": "A text is accepted iff it is the text of a well-formed program, and the result is the tree of that program; no text has two readings.", "quantifier": "all texts and all programs", "why_tests_cant": "all texts", "anchors": ["src/parser/myparser.py: p_*"]}
{"id": "C80", "title": "Every accepted program compiles to valid Python", "statement": "If the compiler accepts a text, Python accepts the generated program. (Refuted: result: outside a function, a Python keyword as the word of a function or the type of a parameter, and numbers with leading zeros are accepted and give programs that Python rejects, and so do strings that end in a backslash (C72). Proved: for programs whose strings hold no backslash, carriage return or NUL the first three are the only reasons; all other accepted programs are valid Python.)", "quantifier": "all source texts", "why_tests_cant": "all programs, checked against the grammar of Python rather than by running samples", "anchors": ["src/parser/python_resolver.py: resolve, resolve_node", "src/parser/parse_and_exec.py: compile_anydice"]}
{"id": "C81", "title": "A compiled program does what the dice program says", "statement": "Executing the generated Python has exactly the effect of the dice program: the same outputs in the same order with the same names, the same failures, whatever the operators and library functions compute. (Refuted for names: a variable of the program that a function also assigns to, functions named like a Python builtin, and functions whose name is only a parameter next to the variable X; proved for all other accepted programs whose expressions keep their structure.)", "quantifier": "all accepted programs, all runtimes", "why_tests_cant": "all programs and all behaviours of the library", "anchors": ["src/parser/python_resolver.py: resolve, resolve_node", "src/parser/parse_and_exec.py: unsafe_exec, _get_lib"]}
{"id": "C82", "title": "Every program stops", "statement": "Running a program always comes to an end, with a result or an exception, however its functions recurse, because the function depth is limited. (Refuted when a function raises the maximum function depth in each call; proved for all programs whose functions do not set it.)", "quantifier": "all programs, all states of the settings", "why_tests_cant": "termination of all programs", "anchors": ["src/decorators.py: max_func_depth, anydice_casting", "src/parser/parse_and_exec.py: unsafe_exec", "src/settings.py: settings_set"]}
{"id": "C83", "title": "The outputs of a program have the probabilities its text says", "statement": "Read as elementary probability (dice are independent, a die is a list of values with exact rational probabilities, a function given a die is called with each value and the results are weighed), a program has outputs with certain exact probabilities; running it gives outputs with exactly these probabilities, names and order, and no failure. (Refuted when denominators exceed 10^30, where weights are cut off; and, unless operators on numbers are switched on, for ! & | # @ of plain numbers.)", "quantifier": "all programs of whole numbers, texts, sequences, dice and blanks that use operators, rolls, selections, loops, conditions, settings, functions of their own and functions of the library, with denominators up to 10^30", "why_tests_cant": "all programs", "anchors": ["src/randvar.py: RV", "src/roller.py: roll", "src/decorators.py: anydice_casting, max_func_depth", "src/utils.py: mymatmul, mylen, myinvert, myand, myor", "src/funclib.py", "src/parser/parse_and_exec.py: unsafe_exec"]}
{"id": "C84", "title": "Tokens are as long as possible; blanks and comments only separate", "statement": "Every token reaches as far as it can and is read wherever its text stands and ends; blanks, newlines and comments between tokens separate them and do nothing else, so changing them never changes the compiled program or whether it is refused; every program of the grammar can be written down and is read as what it is. Nor do they change what a run of the command prints and raises. (Refuted for texts without tokens: a blank one is passed over, one that consists of a comment ends the run.)", "quantifier": "all texts, all places outside of strings, all blanks and comments", "why_tests_cant": "all texts and all layouts", "anchors": ["src/parser/myparser.py: t_*, tokens, states", "src/parser/parse_and_exec.py: do_lex, compile_anydice"]}
{"id": "C85", "title": "The standard deviation of a die is its standard deviation", "statement": "std() is the square root of the mean squared distance of the outcomes from the mean, up to a bounded rounding error: its square differs from the exact variance by at most 2^-48 of the mean square of the outcomes.", "quantifier": "all dice with integer outcomes of absolute value up to 2^400 and total weight up to 2^400; every squaring of floats with an error of at most a unit in the last place", "why_tests_cant": "all dice; rounding errors and cancellation", "anchors": ["src/randvar.py: RV.std, RV.mean, RV.__pow__"]}
{"id": "C86", "title": "A printed report says what the die is", "statement": "output writes the name, the mean and standard deviation rounded to two decimals (NaN when there are labels), then for every outcome in order one right-aligned line with its probability in percent, right to the second decimal, and a bar of proportional length that never exceeds the width, then a rule; cdf_cut leaves exactly the lines of the outcomes that get_vals_probs leaves; the percentages add up to 100 except for half a hundredth a line; nothing, blanks and empty sequences give an empty report; the text is printed with the given or default function or returned.", "quantifier": "all dice with weights, all objects output accepts, all names, widths up to 2^53, cuts from 2^-500 to 99 percent", "why_tests_cant": "all dice, widths and cuts", "anchors": ["src/output.py: output, _output_blank", "src/randvar.py: RV.get_vals_probs, RV.mean, RV.std"]}
{"id": "C87", "title": "n * D * m rolls", "statement": "D * m is roll(m) and n * D * m is roll(n, m), with the same result, error and memory of rolls.", "quantifier": "all m; all n", "why_tests_cant": "all operands; Python decides who multiplies by operand types", "anchors": ["src/altcast.py: D", "src/roller.py: roll", "src/seq.py: Seq.__mul__", "src/randvar.py: RV.__mul__"]}
{"id": "C88", "title": "The text of a label tells it from numbers and other labels", "statement": "The text of a label is the label, in quotation marks if it reads as a number; it is never the text of an integer, and different labels have different texts.", "quantifier": "all labels, all integers", "why_tests_cant": "all texts", "anchors": ["src/string_rvs.py: StringVal.__repr__, StringVal.is_number", "src/randvar.py: RV.get_vals_probs"]}
{"id": "C89", "title": "With the option for non-local variables, functions work on a copy of the variables of their caller", "statement": "Compiled with the option for non-local variables, a program does exactly what it means when every function sees the variables that its caller sees, with its parameters set, and its assignments are invisible to the caller; programs whose functions use only their parameters do the same with and without the option. (Refuted for the division of the library, which always fails with the option.)", "quantifier": "all accepted programs, all runtimes with functions that ignore a further argument", "why_tests_cant": "all programs and all behaviours of the library", "anchors": ["src/parser/python_resolver.py: resolve, resolve_node", "src/decorators.py: anydice_casting", "src/utils.py: true_div", "src/funclib.py"]}
{"id": "C90", "title": "Variables given to a program are its variables", "statement": "Executed with variables given from outside, a program does what it does when it starts with assignments of these values; only the variables that occur in its text count, nothing given is nothing done, it still stops, and the outputs have the exact probabilities that follow from the given values. (Refuted for given variables that a function assigns to, and with the option for non-local variables, under which given variables are invisible.)", "quantifier": "all accepted programs, all names of variables, all values", "why_tests_cant": "all programs and all values of the variables", "anchors": ["src/parser/parse_and_exec.py: unsafe_exec", "src/parser/python_resolver.py: resolve"]}
{"id": "C91", "title": "Programs executed one after another have the outputs they have alone", "statement": "Executing programs one after another in one process gives for each the outputs, in its own list, that it has when executed alone, whatever was computed and remembered before. A program without a set statement leaves all settings as they were, even when it fails. With set statements the outputs are those that follow from the settings as the programs before left them. (Refuted: settings stay set for later programs, and a program that fails inside a function leaves the call depth raised, so that after ten failures functions of later programs have no value.)", "quantifier": "all finite sequences of programs that the exact meaning covers (C83), with and without the options", "why_tests_cant": "all histories of executions in one process", "anchors": ["src/parser/parse_and_exec.py: unsafe_exec", "src/settings.py: SETTINGS, settings_set", "src/roller.py: _MEMOIZED_ROLLS", "src/decorators.py: max_func_depth"]}
{"id": "C92", "title": "Reports about refused texts point at the fault", "statement": "A text that cannot be compiled is refused with a report. Illegal characters and a string left open are all listed, in the order of the text, each with its position and column. Of a text whose characters are legal, the first token listed is the first one with which no program can go on: what stands before it begins some program, and together with it begins none. Later tokens are listed if the text after the previous fault, read as a new program, has at least three tokens before them. The list is empty exactly if the text ends too early. The recovery from faults never makes the compiler accept a faulty text or change the result for a good one. In a text without comments the first illegal character is listed with its line. (Refuted: the line listed for a token is too large by the number of line breaks of the whole text; and a crash can replace the report.)", "quantifier": "all texts, and all option flags", "why_tests_cant": "every text and every position of a fault; the automaton has 183 states and faults can occur in each", "anchors": ["src/parser/myparser.py: t_ANY_error, t_ANY_eof, find_column, p_error", "src/parser/ply/yacc.py: LRParser.parse", "src/parser/ply/lex.py: Lexer.token, Lexer.input", "src/parser/parse_and_exec.py: compile_anydice"]}
{"id": "C93", "title": "Texts are cut into tokens by the patterns in the code", "statement": "The lexer that is built from the named rules of the grammar module (found by name, functions by line, then patterns by decreasing length, joined to one pattern for each state) is built without error, and for every text, matching with Python's regular expressions, hands out exactly the tokens of that text, each with its kind, line and position, and records exactly the illegal characters and the string that is left open. Reading an accepted text again for the parser gives the same tokens at the same positions.", "quantifier": "all texts (8-bit characters)", "why_tests_cant": "Which rule wins depends on the order of all rules and on backtracking inside of each pattern; tests run a few texts through it.", "anchors": ["src/parser/ply/lex.py: lex, LexerReflect.get_rules, _form_master_re, Lexer.token", "src/parser/myparser.py: t_* rules"]}
{"id": "C94", "title": "The parser is the one generated from the grammar in the code", "statement": "From the texts of the grammar functions, the precedences and the token names, the parser generator builds a parser without error and without anything unused or out of reach. Its rules and tables are those of the grammar that the other properties speak about, with other numbers for the states. On every list of tokens its loop ends, with the same value, the same refused tokens or the same exception. So compiling any text with the generated lexer and the generated parser gives exactly the program or report that the other properties describe.", "quantifier": "all texts, all lists of tokens, any settings of the compiler", "why_tests_cant": "The tables have thousands of entries that come out of fixpoint computations and conflict resolutions over the whole grammar; tests visit few of them.", "anchors": ["src/parser/ply/yacc.py: yacc, Grammar, LRTable, LRParser.parse", "src/parser/myparser.py: p_* functions, precedence, build_lex_yacc", "src/parser/parse_and_exec.py: compile_anydice"]}
{"id": "C95", "title": "From the text of a program to the printed tables", "statement": "Reading a program text with the lexer and parser, generating Python, executing it and printing its outputs gives exactly one text per output of the program, in order: its name, the mean and standard deviation of the exact law to hundredths, and for every value from the lowest to the highest a row with its exact probability in percent to two decimals and a bar of proportional length; numbers and sequences as the dice they stand for, nothing and blanks as a bare rule. A text that is refused prints nothing.", "quantifier": "all accepted program texts whose exact meaning is covered by C83, with values up to 10^12 and common denominators up to 2^400", "why_tests_cant": "all programs, through lexer, parser generator, compiler, interpreter, library and report at once", "anchors": ["src/parser/example_parse.py: main", "src/parser/parse_and_exec.py: do_lex, do_yacc, do_resolve, unsafe_exec", "src/output.py: output"]}
{"id": "C96", "title": "The functions that compare values as a whole decide equality", "statement": "RV.dices_are_equal on any mixture of numbers, texts, nested lists, sequences and dice answers whether the two stand for the same law (a list for one of its entries, all equally likely, and 0 if it is empty); a blank equals only blanks. Seq.seqs_are_equal on numbers, nested lists and sequences answers whether the entries are equal one by one, in order, and refuses dice.", "quantifier": "all values", "why_tests_cant": "all pairs of kinds of values and all nestings", "anchors": ["src/randvar.py: RV.dices_are_equal", "src/seq.py: Seq.seqs_are_equal", "src/factory.py: get_seq"]}
{"id": "C97", "title": "An equal die is found in a list or dictionary", "statement": "Equal dice have equal hashes, so that a die kept in a list or as a key of a dictionary is found again with an equal die. (Refuted: only the same object is found. With another object of equal hash the lookup raises, because == of dice is a die, which has no truth value.)", "quantifier": "all dice with numbers, all hash functions", "why_tests_cant": "all dice and all hash functions", "anchors": ["src/randvar.py: RV.__hash__, RV.__eq__, RV.__bool__"]}
{"id": "C98", "title": "Several texts in one run of the command", "statement": "Given several program texts, the command prints for each accepted text, in order, the tables of its outputs, with the exact probabilities that follow from the settings as the texts before left them. Texts that are refused are passed over without any influence on the others. When a text fails, what was printed before stays printed and nothing is printed for the texts after it. Texts without a set statement are printed as in a run of their own. (Refuted with set statements: settings stay set for the later texts.)", "quantifier": "all finite sequences of texts, refused, failing or with a meaning covered by C83", "why_tests_cant": "all histories of texts in one process", "anchors": ["src/parser/example_parse.py: main", "src/parser/parse_and_exec.py: do_lex, do_yacc, do_resolve, unsafe_exec", "src/settings.py: SETTINGS", "src/output.py: output"]}
{"id": "C99", "title": "Texts beside operators are texts, never numbers", "statement": "A text beside an operator is never read as a number: two texts are joined by + and compared as in a dictionary, an integer (or the sum of a sequence) repeats a text, a number and a text are never equal, and dice and comparisons of sequences refuse texts with an exception. As an output a text is shown as the fair die of its characters. (Refuted: the empty text counts as 0 beside dice, and an entry of a sequence of texts cannot be shown.)", "quantifier": "all texts of 8-bit characters, all operators except text % value, all dice, sequences and numbers", "why_tests_cant": "all texts and all combinations of kinds", "anchors": ["src/randvar.py: RV._convolve, RV._rconvolve", "src/seq.py: Seq._compare_to", "src/factory.py: get_rv, get_seq", "src/output.py: output"]}
{"id": "C100", "title": "A variable inside a string shows its value", "statement": "A string of a program is its own characters with each [VARIABLE] replaced by the text of the value: the decimal digits of an integer, a text itself, a label as the sum of its names in alphabetical order with coefficients other than 1 in front (2*a + b + 5), {?} for a sequence, d{} or d{?} for a blank. Reading it has no effect, output ... named shows the value under it, and it does not depend on the order in which a label was summed. A variable without a value is an error.", "quantifier": "all strings, places in a program, values except dice and floats", "why_tests_cant": "all strings, values and orders of summation", "anchors": ["src/string_rvs.py: StringVal.__repr__, __format__", "src/seq.py: Seq.__str__", "src/blackrv.py: BlankRV.__str__", "src/parser/python_resolver.py"]}
{"id": "C101", "title": "The names of variables do not matter", "statement": "A program in which the variables and parameters have other names, different ones for different ones, also inside strings, does the same: the same tables are printed and the same exceptions raised, in a new process and after any other texts, as long as no name is one that the generated code needs (C81).", "quantifier": "all programs, all injective renamings, all states of the process, any library", "why_tests_cant": "all programs and renamings at once; the names of a program share one Python namespace with those of the generated code and the library", "anchors": ["src/parser/python_resolver.py", "src/parser/parse_and_exec.py: unsafe_exec", "src/parser/example_parse.py: main"]}
{"id": "C102", "title": "Unused functions and the order of functions do not matter", "statement": "Leaving out functions that nothing in the rest of the program calls makes no difference to what is printed or raised. Neither does the order of definitions of different functions at the start of a program, even if one calls the other.", "quantifier": "all programs, all sets of functions that are not called, all orders of definitions, all states of the process", "why_tests_cant": "all programs and all subsets and orders of definitions", "anchors": ["src/parser/python_resolver.py", "src/parser/parse_and_exec.py: unsafe_exec", "src/decorators.py: anydice_casting"]}
{"id": "C103", "title": "Other ways to write the same do the same", "statement": "Anywhere in a program, also inside functions, loops and branches: a loop over numbers and ranges of numbers can be written out as its body once for each number with the variable set before, a loop over a text once for each character, a condition that is a number can be decided, else if is an if inside of else, an empty else can be left out, statements after a result are not reached, and parentheses that do not change the tree of an expression can be added or removed. The same tables are printed and the same exceptions raised.", "quantifier": "all programs, all sequences of such changes at any places, all states of the process", "why_tests_cant": "all programs and all rewritings at any depth", "anchors": ["src/parser/python_resolver.py", "src/parser/parse_and_exec.py: unsafe_exec", "src/factory.py: get_seq", "src/roller.py: myrange"]}
{"id": "C104", "title": "The text of dice is true and can be rolled", "statement": "After any history of rolls, an object whose text is dice notation (2d6, d20, -3d4) has the distribution of that roll, and roll(str(X)) is equal to X, although objects are shared and renamed. The text of roll(n, m) is the number of dice if there is more than one, d and the sides, with a minus sign if the outcomes are negative. (Refuted for texts that are not notation: a random number of dice is called d{0..0}, and roll(-1, 6) is called -d6.)", "quantifier": "all histories of rolls of integer dice and other random variables made, under any settings without truncation", "why_tests_cant": "histories with sharing and renaming", "anchors": ["src/roller.py: roll, _roll_int_rv, _setup_str_LHS_RHS, _parse_from_str", "src/randvar.py: RV.__str__"]}
{"id": "C105", "title": "Programs output numbers, labels, texts, sequences, dice and blanks only", "statement": "Whatever a program does, also if it raises an exception, each value that it has output until then is a number, label, text, sequence, die or blank, and each name a text: never None, a list or a function. A function that ends without a result has a blank as its value, also inside sums and sequences, and so has a call beyond the maximum depth.", "quantifier": "all programs, settings, library functions and histories of other programs", "why_tests_cant": "every program", "anchors": ["src/decorators.py: anydice_type_casting, max_func_depth", "src/randvar.py: RV operators", "src/seq.py: Seq operators", "src/blackrv.py: BlankRV", "src/output.py: output"]}
{"id": "C106", "title": "A call can be replaced by the result of the function", "statement": "If a function without types consists of a result (numbers, variables, operators, dice and sequences) then a call of it with numbers and variables can be written as that result in parentheses, with the arguments for the parameters, anywhere in an expression of the program: the same is printed and the same exceptions are raised. Parameters hide variables of the program with the same name; other variables are those at the call. (Refuted for parameters with types, for calls at the maximum function depth, and for functions defined again in between.)", "quantifier": "all programs, functions, calls and places", "why_tests_cant": "every program and place", "anchors": ["src/decorators.py: max_func_depth, anydice_type_casting", "src/parser/python_resolver.py: PythonResolver"]}
{"id": "C107", "title": "Statements added at the end do not change what comes before", "statement": "The outputs of a program are never taken back: a program with statements added at its end has the outputs of the program first, in the same order. If the program raises an exception the longer one raises the same. If nothing is set, what the longer text prints starts with what the shorter text prints, unless the longer one raises an exception while it runs, in which case nothing is printed. (Refuted if settings are changed at the end: tables are printed when the program has ended, with the settings of that moment.)", "quantifier": "all programs and statements added", "why_tests_cant": "every program", "anchors": ["src/parser/parse_and_exec.py: unsafe_exec", "src/parser/example_parse.py: main", "src/output.py: output"]}
{"id": "C108", "title": "A variable with one value can be replaced by its value", "statement": "If a program starts with an assignment of a number or a sequence of numbers and ranges to a variable, and the variable gets no other value and is no parameter, then the value can be written wherever the variable is read, in the program and in its functions: the same is printed and the same exceptions are raised. Assignments of numbers to variables that nothing reads can be left out. (Not so for dice: what they are depends on the settings where they are written.)", "quantifier": "all programs, variables and constants", "why_tests_cant": "every program and place", "anchors": ["src/parser/python_resolver.py: PythonResolver", "src/decorators.py: max_func_depth, anydice_type_casting", "src/parser/parse_and_exec.py: unsafe_exec"]}
{"id": "C109", "title": "Means and variances of sums, products and rolls are those of the dice", "statement": "As long as the weights stay below the rescaling threshold: the mean of X+Y, X-Y and X*Y is the sum, difference and product of the means, the variance of X+Y and of X-Y is the sum of the variances, a factor k multiplies the variance by k^2 and adding a number or negating does not change it; the mean of roll(n, d) is n times the mean of d, which mean() gives correctly rounded, and its variance is |n| times that of d; if the number of dice is random, the mean is the product of the means and the variance is E|N| Var(d) + Var(N) E(d)^2.", "quantifier": "all dice with integer outcomes, all counts (also negative and random), settings without truncation and histories of rolls", "why_tests_cant": "all dice and counts", "anchors": ["src/randvar.py: RV operators, RV.mean, RV.std, RV.from_rvs", "src/roller.py: roll, _roll_int_rv"]}
{"id": "C110", "title": "The chance that the k-th best die of a roll reaches a mark is the binomial one", "statement": "For a roll of n independent dice, the chance that the k-th highest of them shows m or more is the chance that at least k of n tries succeed, each with the chance that one die shows m or more: the sum of n!/(j!(n-j)!) p^j (1-p)^(n-j) for j from k to n. If the settings count from the lowest, it is at least n+1-k. In particular the best die reaches m with chance 1-(1-p)^n and the worst with chance p^n. A lower position never reaches a mark more often. Dice with the same law give every event the same chance.", "quantifier": "all dice with integer outcomes, numbers of dice, positions, marks, settings without truncation and histories of rolls", "why_tests_cant": "all dice, counts, positions and marks", "anchors": ["src/randvar.py: RV.__rmatmul__, RV._get_kth_order_statistic", "src/roller.py: roll"]}
{"id": "C111", "title": "Pools of dice that count successes follow the binomial law", "statement": "If d is compared with a mark (=, !=, <, <=, > or >=), the result is a die that shows 1 where the comparison holds, and rolling it n times gives j with chance n!/(j!(n-j)!) p^j (1-p)^(n-j) for j from 0 to n, and never more than n, where p is the chance that the comparison holds of one die.", "quantifier": "all dice (with any outcomes, also labels), marks, comparisons, counts, settings without truncation and histories of rolls", "why_tests_cant": "all dice, marks and counts", "anchors": ["src/randvar.py: RV comparison operators", "src/roller.py: roll, _roll_int_rv"]}
{"id": "C112", "title": "Counting values in a roll follows the binomial law", "statement": "Counting how many of n rolled dice show one of some different values gives j with chance n!/(j!(n-j)!) p^j (1-p)^(n-j), where p is the chance that one die shows one of them. A value that is listed twice is counted twice.", "quantifier": "all dice with integer outcomes, numbers of dice, lists of different numbers, settings without truncation and histories of rolls", "why_tests_cant": "all dice, counts and values", "anchors": ["src/funclib.py: count_in", "src/decorators.py: anydice_casting", "src/randvar.py: RV._get_expanded_possible_rolls", "src/roller.py: roll"]}
