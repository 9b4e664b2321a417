# Formal model of PythonDice (dice_calc) in Rocq / Coq 8.16.1

Source modelled: `/repo/src` (Python, target runtime CPython 3.9, see `environment.yml`).
Everything lives in `rocq/theories/`; the logical prefix is `Verif`.

## 1. Shape of the model

Four kinds of files, in this order of dependency:

* model files mirror the code, function by function; every definition cites file and lines;
* specification files say what should hold, without using the model's helpers;
* `*Facts.v`, `*Laws.v` and the other proof files connect the two;
* `Prop*.v` hold the property theorems only: statement, proof by a named lemma, `Print Assumptions`, and an example that meets the hypotheses.

### Model files

| file | models |
|------|--------|
| `PyBase.v` | Python exceptions as values (`res A = Ok a \| Err e`) |
| `Num.v` | `int` (as `Z`) and finite `float` (dyadic numbers, correct rounding to 53 bits) |
| `Sorting.v` | `sorted` |
| `Val.v` | outcome values: numbers and labels, their order, equality and operators |
| `RVModel.v` | `randvar.RV`: constructor, mixture, convolution, order statistics, expansion, weight limit, cdf, filter |
| `OutModel.v` | `RV.get_vals_probs` |
| `UtilModel.v` | number-to-text helpers, `utils.py` |
| `Obj.v` | the objects a user passes around; `factory.py`, `utils.flatten` |
| `RollModel.v` | `roller.roll` with its memo table and the settings as explicit state |
| `NameModel.v` | object identity in `roller.py`, `RV.__str__` |
| `AtModel.v` | `selector @ die` |
| `CastModel.v` | `decorators.anydice_type_casting` and `max_func_depth` |
| `DispModel.v` | Python's operator dispatch on numbers, sequences, dice, blanks, texts, None: `seq.py`, `blackrv.py`, `utils.py` |
| `BaseModel.v` | sequences that count from zero: `seq.py` `set_one_indexed` |
| `LibModel.v` | `funclib.py` |
| `SettingsModel.v` | `settings.py` |
| `LabelModel.v` | `string_rvs.StringVal` as an object |
| `RollerModel.v` | `roller.roller`, `roller.myrange` |
| `LexModel.v` | the lexer of `parser/myparser.py`, run by `ply/lex.py` |
| `PlyLexModel.v` | how `ply/lex.py` builds the lexer from the rules of `parser/myparser.py`, and `Lexer.token` |
| `GramModel.v` | the grammar rules, and the LALR tables that `ply/yacc.py` builds from them |
| `ParseModel.v` | grammar actions and the engine of `ply/yacc.py` |
| `PlyYaccModel.v` | the parser generator of `ply/yacc.py`, from the docstrings of `parser/myparser.py` to its tables |
| `PlyParseModel.v` | `LRParser.parse` of `ply/yacc.py` on those tables; `compile_anydice` with the lexer and the parser of `ply` |
| `PipeModel.v` | `main` of `example_parse.py` for one text: what is printed |
| `MainModel.v` | `main` of `example_parse.py` for several texts in one process |
| `RoundToModel.v` | `round` of numbers and dice to digits; abs, round, floor, ceil and trunc of every kind of value |
| `EqModel.v` | `dices_are_equal` and `seqs_are_equal` on every kind of value; hashes of dice and lookups |
| `ReportModel.v` | the places recorded by lexer and parser, `find_column`, the error recovery of `ply/yacc.py`, the lists in the messages of `compile_anydice` |
| `ResolveModel.v` | `parser/python_resolver.py`, `compile_anydice` |
| `Runtime.v` | the interface between a running program and the library |
| `PySem.v` | execution of the fragment of Python that generated programs use |
| `ExecModel.v` | `unsafe_exec`, `_get_lib` |
| `PrintModel.v` | `output.py`, `RV.std`, Python's rounding to two decimals |
| `AltModel.v` | `altcast.py`, the text of `StringVal` |
| `RunModel.v` | the modelled library as a runtime: settings, memo table, outputs, decorated functions |

### Specification files

| file | says |
|------|------|
| `Spec.v` | weighted laws, probabilities, tuples of independent outcomes |
| `RollSpec.v` | histories of rolls, integer arguments |
| `CastSpec.v` | what each parameter of a decorated function receives; the law of the result |
| `SeqSpec.v`, `LibSpec.v` | sequences and blanks; the function library |
| `LexSpec.v` | what the pieces of a program text look like |
| `SynSpec.v` | the dice language as abstract syntax: its tokens, trees, well-formedness |
| `NameSpec.v` | which functions a program defines and calls; when it is acceptable |
| `PySpec.v` | a reference reader for the fragment of Python that generated programs use (tokens, expressions by precedence, indentation, statements), from the Python 3.9 reference |
| `PyTrans.v` | the Python program that a dice program should become, and when the text can keep it |
| `StrSpec.v` | strings with substituted variables |
| `MeanSpec.v` | what a dice program means, over any runtime |
| `RunSpec.v` | the programs whose names cannot get in the way of generated Python |
| `IdealSpec.v` | the meaning of programs in exact probabilities: a runtime of rational numbers |
| `ReadSpec.v` | how far tokens reach, blanks and comments, a way to write tokens |
| `PrintSpec.v` | variance; what a printed report looks like |
| `FloatSpec.v` | how Python writes a float: the shortest decimal that reads back as it |
| `PipeSpec.v` | what should be printed for a table of exact probabilities |
| `RoundToSpec.v` | rounding to a number of decimals |
| `EqSpec.v` | the law that a value stands for |
| `NumSpec.v` | numbers and dice as they are written |
| `ScopeSpec.v` | the meaning of programs when functions see a copy of the variables of their caller |
| `StartSpec.v` | `unsafe_exec` with variables given from outside; programs that start with variables |
| `SessSpec.v` | programs executed one after another: what stays in the process |
| `ReportSpec.v` | line and column of a position, tokens that begin a program, the tokens at fault in a text |
| `ReSem.v` | Python's regular expressions, as far as they are used: reading a pattern, matching by backtracking |
| `PlySpec.v` | names of the kinds of tokens, tokens with their places |
| `PlyYaccSpec.v` | names of the symbols and functions of the grammar, entries of tables |
| `StopSpec.v` | the programs whose functions do not change the depth limit |

### Modelling principles

* exceptions are values: every function that can raise returns `res`;
* Python `bool` is identified with the integers 0 and 1 (the constructor converts it; `isinstance(True, int)` holds);
* `float` is modelled by finite dyadic numbers with correct rounding (nearest even, 53 bits, subnormals, overflow). An operation that would produce inf or NaN, and `pow` on floats, return the error `Unmodelled`, so no theorem says anything about them. The `sqrt` in `RV.std` is correctly rounded; the square in it is a parameter. `-0.0` is identified with `0.0`;
* global state (settings, memo tables, depth counter) is passed explicitly;
* object identity is modelled only where it is observable (the `str` of a die, `NameModel.v`);
* the text of a program is a list of 8-bit characters; letters, digits and blanks are those of ASCII;
* `ParseModel.v` ends the parse at a syntax error; `ReportModel.v` has the error recovery of `ply`, and C92 proves that it accepts the same texts. The wording of messages beyond the lists of entries is not modelled;

## 2. Plan per property

Each line says what is modelled and how it is proved. "refuted" means that the code violates the claim. The refutation is a theorem about the model, for a whole class of inputs where that is possible and with a concrete witness otherwise, and the largest true part is proved beside it.

* C01-C06 constructor: `mk_rv` mirrors `RV.__init__`/`_sort_and_group` step by step. Generic lemmas: the sort is a permutation, grouping preserves the mass of every value, gcd division scales all masses by one factor. Canonicity: sorted, distinct, gcd 1 lists with proportional masses are equal.
* C07-C10 operators: `convolve` mirrors `fast_convolve` (dict accumulation with the hash/eq behaviour of the keys), `mk_rv`, limit. Mass of the dict = mass of the list of all pairs.
* C11 mean: exact rational expectation in the spec; `mean` is the rounded quotient; linearity from C07.
* C12 unary operators: pointwise images. `RoundToModel.v` has `round` to any number of digits, as CPython does it, and these functions on every kind of value; `RoundToSpec.v` says what rounding is.
* C13, C14 limit: `prob_limit` mirrors the float computation of the constant; bounds by integer arithmetic. C14 refuted.
* C15, C16 mixtures: `from_rvs` mirrors the product-of-denominators computation. C16 refuted.
* C17-C20 cdf, filter, get_vals_probs. C20 refuted when 0 is an outcome and proved in full otherwise; the behaviour with 0 is proved exactly as well.
* C21-C28 rolls: state monad over the memo table, invariant "every memo entry is the value a fresh computation gives"; induction over `n` by halving; spec = sum over all ordered n-tuples. C26 refuted by explicit histories.
* C29 a heap of dice objects with names. The renaming is refuted.
* C30-C36 order statistics: binomial identity between the closed formula and counting of n-tuples; multinomial counting for the expansion. C31 refuted; C30, C34, C36 partly.
* C37-C40 casting: the function under the decorator is an arbitrary function from argument lists to results.
* C41-C43 depth limiter: programs of decorated functions with an arbitrary body, induction over their runs. C43 refuted.
* C44-C51 sequences and blanks: case analysis on the dispatch. C51 refuted, C49 partly.
* C52-C57 function library: corollaries of C30-C40. C52 refuted under `lowest first`.
* C58 settings: invariant over histories. Refuted in one place: the position order does not reach rolls.
* C59-C61 labels. C60 and C61 refuted in part.
* C62-C64 utilities and `roller`.
* C65, C66 lexer: the run of `ply/lex.py` over the rules is a function on character lists; the specification says what each piece may be; every text is partitioned into pieces.
* C76-C79 parser: the LALR tables are computed inside Coq from the grammar rules (GramModel.v), the engine of `ply/yacc.py` is run on them. A certificate computed once (`vm_compute`) says that the automaton's paths spell right-hand sides and bounds the reductions between shifts; from it soundness, termination in linear time, and completeness by induction over abstract syntax. C77 refuted.
* C67, C68, C70, C75 code generator: the text and the recorded names as functions of the abstract syntax; acceptance as an equivalence. C70 and C75 refuted in part.
* C69, C71-C74, C80 generated Python: `PySpec.v` reads the text; determinism of the reader (PyDet.v); the text of a program is read as its translation (PyLexFacts .. PyCompile), by induction over abstract syntax. For C80 the conditions on the text are relaxed to what is needed for any reading at all: operands in a flat row of operators can always be read (PyFlat.v), so a program is readable even where C71 fails (PyAny.v), and conversely a reading of the text forces the conditions on words and numbers (PyWords.v); together an equivalence (PyValid.v). C71, C72, C69, C80 refuted for the patterns named in the theorems.

* C81 execution: `PySem.v` executes the Python statements that the reference reader finds (scopes of module and function, decorators, f-strings, loops); `MeanSpec.v` gives the meaning of the dice syntax directly. Both are parametrised by a runtime, so the proof (SemFacts .. SemLaws, induction over syntax and over the depth of calls) holds for every behaviour of the library. Refuted for names outside `tame`.
* C82 termination: over the runtime of `RunModel.v`, induction on the distance between the depth counter and the limit. Refuted if functions set the limit.
* C83 exact probabilities: `IdealSpec.v` is a runtime of rational probabilities. `RefineFacts.v`: if one runtime is simulated by another part by part, every program on the first is followed on the second. The parts are the exactness theorems of C01-C64 restated against `IdealSpec.v` (IdealFacts .. IdealLaws; IdealLib for the functions of the library). Refuted above denominators of 10^30 and, without COMPILER_FLAG_OPERATOR_ON_INT, for `! & | # @` of plain numbers.
* C84 layout: `ReadSpec.v` says which character would lengthen a token; each step of the lexer is characterised in both directions, and reading is shown to split at every blank or comment outside of strings. What is printed depends on the tokens only, because the parser, with its error recovery, does (`LayoutFacts.v`); refuted for texts without tokens.
* C85 standard deviation: error analysis of the float computation over rationals; the squaring is a parameter of bounded error.
* C86 reports: the text is a function of the die; each line is shown to be a row as `PrintSpec.v` describes it, with bounds on the rounding of percentages and bars; the cut by C20. `FloatSpec.v` states how Python writes a float (the shortest decimal that reads back as it); decimals of at most 15 digits that read as the same double are equal, so a number rounded to hundredths is written as those hundredths. Refuted in two corner cases.
* C87 the notation `n * D * m`: case analysis on who multiplies. Refuted for dice as `n`.
* C88 texts of labels: a label that reads as a number is quoted, hence distinct from numerals. Refuted for sums of labels.
* C89 the option for non-local variables: the same simulation as for C81, with the dictionary `vars` of the generated program kept equal to the variables in scope. `ScopeSpec.v` gives the meaning. Refuted for the division of the library.
* C90 given variables: the simulation of C81 started from globals that hold the given values (StartLaws); only variables that occur count, by a relation between places that agree on them (StartSame); C83 from related starting variables (SessFacts). Refuted for variables that a function assigns to, and with the option for non-local variables.
* C91 executions in turn: the simulation of C83 relates arbitrary states, so it can be repeated; a program without `set` leaves the settings of the exact meaning and of the library as they were (QuietFacts, for any property of states that the operations keep). Refuted with `set`, and after failures inside functions.
* C92 error reports: a table of completions, computed once for each state of the automaton and checked by the kernel, shows that whatever the parser has shifted begins a program (ViableFacts); determinism of the parser shows that no program goes on with the token at which it stops; induction over restarts gives all reported tokens (ReportFacts); positions, lines and columns by the partition of the text of C65 (ReportLaws). Refuted for the lines of tokens.
* C93 lexer as built: the tables are computed from the definitions (`vm_compute`); each pattern is shown to find first what the corresponding matcher of `LexModel.v` finds (ReFacts: greedy and lazy repetition, alternatives); induction over the text (PlyLexFacts).
* C94 parser as built: the tables are computed from the docstrings as `ply` does (`vm_compute`), and compared with those of `GramModel.v` under a renumbering of the states that is found by walking both automata. One step of the model is one turn of `ply`'s loop, or, at an error, the turns that go back to the first state (simulation, PlyYaccFacts).
* C95 from text to printed tables: `PipeModel.v` is the loop of `example_parse.py` for one text; C94, C81, C83 and C86 are composed. The reports are described from the exact tables of C83 alone (`PipeSpec.v`).
* C96 comparing values as a whole: `EqModel.v` has the two functions on every kind of value; `EqSpec.v` gives the law that a value stands for.
* C97 dice in lists and dictionaries: lookups are identity, then hash, then `==` and its truth value; hashes are a parameter.
* C98 several texts in one run: `MainModel.v` is the loop of `example_parse.py` over its texts; `MainSpec.v` says what a list of texts means exactly, one after another. By induction on the list, from C95's pieces and the persistence results of C91.
* C100 variables inside strings: the meaning of strings (`MeanSpec.v`) over the library; the text of labels by uniqueness of sorted lists (`ShowSpec.v`, `ShowFacts.v`).
* C101, C102 changes that make no difference: `SameSpec.v` defines the changed programs on their syntax; one simulation between a program and its changed form, over any runtime (`SameFacts.v`), gives both; C81 and C94 carry it over to texts (`SameText.v`).
* C103 other ways to write the same: `WriteSpec.v` is a congruence on blocks of statements; soundness by induction on it, relating places whose functions have bodies that say the same, and on the depth of calls (`WriteFacts.v`).
* C104 texts of dice: on the heap of C29, the invariant that an object named (n, m), n not 0, has the distribution that `roll(n, m)` computes; kept by every allocation, shared result and renaming (`DiceTextFacts.v`). Reading the text back is C28; mirrored dice by C22.
* C105 kinds of values: `KindSpec.v` says what a value that users know is; an invariant over the meaning of programs (`KindFacts.v` for operators, casting and library functions, `KindRun.v` for statements and calls).
* C106 calls written out: `InlineSpec.v` says where a call is replaced by what; proved by substitution (`put_means`), that plain expressions do not look at the depth of calls (`plain_level`), and that the statements before keep the function, the variables and the depth (`st_all`, `library_ready`) (`InlineFacts.v`).
* C39, which arguments are cast: `ExpectSpec.v` says which type is written at the parameter of an argument; `C39_expected` ties the `annotation` of the other casting theorems to it.
* C107 statements added at the end: any relation between worlds that is reflexive, transitive and holds for each operation of the library holds for programs (`StepFacts.v`); used for outputs that only grow and for settings that stay valid (`MoreFacts.v`, C58_programs).
* C108 constants in the place of variables: runs side by side, where functions have the same parameters and bodies with the value written in (`StandFacts.v`); `StandText.v` has constants of the library, variables that nothing reads, and texts.
* C109 moments: weighted sums of the outcomes and of their squares over independent pairs, ordered rolls (by induction on the number of dice) and mixtures (`MomentFacts.v`).
* C110 marks reached by a position: the k-th entry of a sorted list is on one side of a mark exactly when enough entries are, and ordered rolls with a given number of such entries are counted by induction (`OrderFacts.v`, `ChanceFacts.v`); the binomial chances are in `ChanceSpec.v`.
* C111 pools of successes: the total of dice with 0 and 1 is a count, counted as for C110 (`ChancePool.v`).
* C112 counting in rolls: pairs of equal entries are a count of dice when the values differ (`CountFacts.v`), then as for C110.
* C99 texts beside operators: `DispModel.v` asks the operands as Python does, also for texts; by cases on operator and operands, with the order of texts as an inductive definition (`TextSpec.v`).

## 3. What is not modelled

* matplotlib and README tooling, logging text, the console, `inspect` reflection (the annotations are an explicit argument of the decorator);
* `safe_exec` and RestrictedPython;
* while programs run: the text of floats, of labels with floats and of dice inside strings, and settings given values that their readers cannot use (`Unmodelled`);
* in `ply`: debug output, warnings and the wording of messages, the FIRST and FOLLOW sets (computed by `ply` and not used for LALR tables), type checks of the definitions;
* in reports: the text of floats (a parameter, with what `FloatSpec.v` says where the text matters) and the display width of characters outside ASCII; libm's `pow` (a parameter with an error bound);
* Python's recursion limit, nesting limits of the Python parser, memory limits, running time;
* non-ASCII letters in program texts.

## 4. Trusted base

* Coq 8.16.1 kernel (plus `vm_compute`).
* Under every property theorem `Print Assumptions` answers `Closed under the global context`: no axiom is used, neither our own nor the standard library's. (Some imported standard library modules load `Coq.ssr.ssrunder`, whose module parameters a checker may list; no theorem depends on them. No module of `Coq.Reals` is imported.)
* The correspondence between `/repo/src` and the model, by reading (each definition cites file and lines).
* The reference reader of Python in `PySpec.v` for C69, C71-C74, C80 and C81, and the semantics of Python in `PySem.v` for C81 and C89-C91.
* The semantics of Python's regular expressions in `ReSem.v` for C93.

## 5. Tests of the theorems

`seeded/LOG.jsonl` lists wrong versions of the model, one per line: the definition edited, the edit, the claim it breaks, the theorems that then failed, and those that had to be tightened.
