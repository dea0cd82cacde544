# Design of the formal model of `neutrinomass`

The model is written in Rocq (Coq 8.16.1), under `rocq/theories/`, logical name `Verif`.

## 1. Method

* **Shallow, executable, branch by branch.**  Every Python function that is modelled becomes a total
  Gallina function with the same branches.  A comment above each definition cites the file and the lines
  it models and states every simplification.
* **Exceptions are values.**  `res A := Ok a | Err e`, where `e` names the Python exception class.
  An `assert` that fails is `Err AssertionError`, a missing key is `Err KeyError`, and so on.
* **Loops.**  `for` loops are folds.  `while` loops are recursion on explicit fuel; running out of fuel is
  a distinct error (`Err OutOfFuel`) and the theorems show it does not happen.
* **Mutable state** (in-place lists, dictionaries, default arguments, the shared Standard Model fields) is
  threaded explicitly.  Dictionaries are association lists with Python's insertion-order semantics.
* **Sets and hash order.**  Where the code iterates a `set`, the model takes the enumeration as an extra
  argument and the theorems quantify over all of them.
* **External libraries** (sympy tensors, `canon_bp`, basisgen, networkx, matchpy, pandas, re) are modelled
  only by the interface the code uses.  What is assumed of them is listed in section 4.
* **Model, specification and proofs are kept apart.**  `Model*.v` holds the model, `Spec*.v` holds the
  notions used in statements (sub-multiset, divisibility, perfect matching, ...) which do not mention the
  model's helpers, `Proofs*.v` the proofs, `Props*.v` the theorems listed in `MANIFEST.json` with
  `Print Assumptions` and one or more worked examples beside each theorem.

When the property a user would expect is **false** of the code, the file proves the negation with a concrete
witness (suffix `_refuted`).  The statement in `properties.jsonl` is then restated to what is true (with the
deviation named in it) and that is proved.  A theorem that proves only part of its statement has the suffix
`_partial`.

## 2. Properties: what is modelled and how it is proved

Theorems are named after the property (`C35_...`); the exact list per property is in `MANIFEST.json`, the
findings (what is false of the code) in section 5.

| id | model | proof |
|----|-------|-------|
| C01 C02 | `remove_equivalent`, `remove_equivalent_nopop`, `dropped_vals` as index loops with fuel | loop invariant against a recursive keep-first specification; the nopop loop by an invariant on the removed index set |
| C03 | `chunks`, `flatten` | induction on length / on the nested structure |
| C04 C05 | `negate_u1`, `conjugate_field`, `conjugate_term` on character lists, `split(",")` included | case analysis on a grammar of well-formed strings; uniqueness of sorted permutations |
| C06 C07 | `pattern_match` and helpers on nested lists/tuples/atoms; recursion on fuel (the recursion limit) | induction on fuel and pattern size, against an inductive instance relation |
| C08 | `factors` with the integer-root estimate as a parameter | divisor pairing |
| C09 | `multiple_replace` as leftmost, first-alternative scanning | induction on the text |
| C10 C11 | `prime_registry`, `model_registry`, `filter_completions` with `sympy.prime` as the n-th prime | unique factorisation: products of primes divide iff multisets are included |
| C12 C13 | `cons_term_prime_dict`, `completion_characteristic_number`, `clean_completions` | same, modulo the conjugation involution; dictionary last-write semantics; stable sort |
| C14 | `collect_completions` with `itertools.groupby` | groups of `groupby` are the maximal runs; a dictionary keeps the last writer |
| C15 C64 | the two prime tables of `ModelDatabase.__init__`, both model numbers, the inverse tables | table invariant for every enumeration order; unique factorisation |
| C16 C17 C65 | `filter_by_mass`, `filter_by_dimension` as folds over a shrinking dictionary, `filter_data` | invariant + well-founded choice of a minimal sieving model (transitivity of divisibility); counting |
| C18 C19 C20 C66 C67 | `remove_equivalent_models`, `force`, `order_by_*`, `filter`, `process` | C01; sorting lemmas; composition |
| C21 C60 | `related_models`, `subsets` | power-set lemma; counterexample for `list.remove` |
| C22 C23 C73 | `Index` (label, name, type, height), `fresh`, `fresh_indices` with the per-type counters of sympy | string lemmas; counter invariant over call histories |
| C24 C25 C26 C27 C28 C70 C71 C72 | `Field`, `IndexedField`, `get_dynkin`, `assert_consistent_indices`, `D`, `strip_derivs*`, `substituted_indices`, `get_symmetry` | computation on records, induction on index lists and derivative chains |
| C29 | `pickle_form`, `from_pickle_form` | round trip with parsing of index strings; counterexample for deltas |
| C30 | `Field.__mul__`, `decompose_product`, `walked`, with the irrep product as a parameter | induction on the list of fields |
| C31 C32 C33 | `colour_singlets`, `epsilon_combos`, `su2_singlets_type`, `lorentz_singlets`, `contract_su2*` on lists of tensors | permutation / perfect-matching combinatorics |
| C34 C74 | `construct_operators` with the default-argument stack as state | stack-machine invariant; counterexample after an exception |
| C35 C36 C75 | `replace`, `replace_fields`, `distribute_fields`, `indexed_fields_with_counters`, `node_dictionary`, `set_external_fields` | induction on trees; permutations |
| C37 C50 | `get_connecting_edge`, `get_topology_data`; the shipped topology files as text | graph lemma; parser and checker with soundness proofs, the checker evaluated on the data; order of file names |
| C38 C39 C40 | `get_lorentz_epsilons`, `drop_scalar`, `separate_gauge_epsilons`, `check_singlet`, `exotic_field_and_term`, `contract`, `lower_indices` | parity and multiset arguments on indices |
| C41 C76 | `reduced_row`, `replace_and_mutate`, `reduce_row`, `reduce_partition`, `construct_completion` | induction on partition trees with an invariant on the vertex operator; C76 shows that no exception is possible for an invariant operator |
| C42 C43 C44 C45 C77 | `RULES` as multiset rewriting, `apply_rules`, `fixed_point`, `neutrino_mass_estimate` | linear invariants checked rule by rule and lifted to all operators; termination measure |
| C46 | `parse_operator` and the SU(2) expansion | parsing lemmas on strings; expansion of epsilons as a sum over assignments |
| C47 C48 | `term_to_row`, `clean_fields`, `u1_symmetries`, `mass_term` | linear algebra by induction on terms |
| C49 C79 | `npoint_fieldstrings`, `generate_fieldstrings`, `prod_mass_dim`, with the mutated Standard Model fields as state | induction on the combinations; invariance of the state |
| C51 C83 C84 C85 C86 | `deriv_possibilities`, `proc_term`, `distribute_derivatives`, `parse`, `remove_unwanted_deriv_structures`, `label_operators`, `deriv_operator_names` | induction on the number of derivatives and on the product |
| C52 | `operator_strip_derivs`, `construct_operator`, `derivative_combinations`, `allowed_lor_dyn` | parsing of index strings; distinct permutations; freshness of indices |
| C53 C54 C80 | `mass_dimension`, `BL_classification`, `contains_derivative`, `topology_type` | parity; sorting |
| C55 C56 C81 | `format_quantum_numbers`, `exotic_info`, `exotic_numbers`, `Model.__repr__` | printing lemmas (injectivity of decimal numerals, of fractions) |
| C57 C82 | `field_options`, `one_loop_democratic_nums`, `generate_models`, the tables of `heavyloops.py` | grammar of field strings; induction on the size of the loop |
| C58 C62 C68 C69 | `match`, `matches_in`, `contains_field`, `contains_interaction`, `no_seesaws`, `read_completions`, `filter_one_loop_weinberg` | grammar of field strings; dictionary update |
| C59 | `keep_longest_invariants` | induction |
| C61 | `compare_terms`, `check_remapping_on_terms`, `are_equivalent_completions`, `slow_remove_equivalent_completions` | lists of texts; permutations |
| C63 | `foldr`, `fixedpoint`, `multiset_equality` | induction; unfolding |
| C87 C88 C89 | `EFF_OPERATORS`, `DERIV_EFF_OPERATORS`, `partitions`, `partition_completion`, `operator_completions` run to the end, `get_leading_mv` of the shipped operators | C31, C35, C36, C37, C75 and C76 put together; checkers with soundness proofs evaluated on the shipped operators |
| C90 | `process_derivative_term`, `check_singlet`, the terms of `contract` and `construct_completion` | sorting as a relation with one rule per branch, shown equal to the loop by induction; product as the unique ordering by class; invariant of the reduction for the checked terms |
| C91, C92 | `export.py`, `LazyCompletion`, the names of `database.py`, `ExoticField` | `eval` as a recursive descent parser and an evaluator (`py_eval`); a relation `reads` between a text and its value, compositional in calls, brackets and products, two levels of quoting by a relation between raw text and denoted text; induction on partitions, graphs, sets and terms |
| C93, C94 | `unsimplified_invariants`, `clean_operators`, `extract_relabellings`, `compare_singlets`, `is_identity_mapping`, `remove_relabellings`, `invariants`, `by_structures`, `duplicate_fields` | the irreps on the way to a singlet by induction on the product, which gives the hypotheses of C74; renamings as a relation between lists of pairs, removal by positions; groups of equal heads from a sorted list; refutations by evaluating operators as sums over the values of indices |
| C95 | `npoint_terms`, `generate_uv_terms`, `generate_full` | induction over the products with C93 for each; dimension, exotic content and equivalence as selections from the list of all operators; parity of spinor indices gives the kinds of terms; triality shows that triplets never clash; refutations with the Standard Model and one exotic field |
| C96 | JSON objects (`export_tensor`, `export_completion`), lines of a diagram | the objects are values of an inductive type; equality of objects is characterised in both directions; refutations with two scalars, with two orders of indices, and for every graph with an edge |
| C97 | `hs.py`, `parse` of the series | the summands as data; soundness by a checker over the terms; completeness by enumerating all vectors of multiplicities of the given dimension, with a proof that the enumeration is complete, for every product as a function from names to numbers; parsing by C85; comparison with the shipped operators by vectors |
| C98 | `deriv_operator_completions`, `completions`, `collect_models` | the placements by C52, the search as a fold; a simulation between the searches for two answers of sympy shows that completions can only be removed; an invariant of the reduction shows which terms were tested; witnesses by computation on D2a |
| C99 | `latex_and_pop`, `Operator.latex` | an invariant of the dictionary of letters and of the remaining lists: the k-th name of a type has the k-th letter; stable sorting; the shipped operators by computation |
| C100 | `UnitaryMatrix`, `x`, `Z`, `z22` of `run_point` | identities in every field with an involution, by `ring` and `field`; exact numbers stand for floats |
| C101 | `generate_operators` and the import of smeft.py | characterisation of the list through the combinations (C49) and `decompose_product` (C30); the two objects of a field and its conjugate are kept apart to follow the charges |
| C102 | `contract` of vertices with derivatives | C40 up to the interaction, then C90 for `process_derivative_term`; every field of the interaction is shown to be replaced by one with the same gauge indices and charges and one spinor index, so the result is a singlet again; the fermions are even in number because the spinor indices of the interaction are all contracted |
| C103 | `print_paper_table`, `format_primes` and the dictionary `operator_latex` (`DataPaper.v`) | induction over the rows with the value of the variable `op` as invariant; LaTeX is read by a small separate reader into a picture (names of the factors, pairs joined by epsilons), that an operator has the same picture is found by search and checked by a sound test for each row |
| C104 | `EFF_OPERATORS`, `DERIV_EFF_OPERATORS`, `bl_list` | two pairings with the same factors are the same up to the order of equal factors iff they join the same kinds of factors equally often (both directions proved for all pictures); the list of all pairings is complete (induction); with these a test over the shipped operators is sound |
| C105 | `unsimplified_invariants`, `construct_operators`, `contract_su2` | an operator under construction is described by the pairs of positions its metrics join; one contraction adds to them nothing or a pair of the new field with an open one, and every such pair is added by some result (exact form of `contract_su2`); for given pairs the number of open positions prescribes the irreps, which satisfy the triangle rule, so that a complete product has a way through them ending in a singlet |
| C106 | topology_data, `get_topology_data`, `distribute_fields`, `operator_completions` | every diagram can be drawn from the vertex of a leg; the branches with given legs are enumerated up to order by number of legs (complete by induction), and each is found among the branches seen from the legs of the shipped topologies (one computation for all kinds); a sum over the vertices that does not depend on the drawing tells the topologies apart; drawings of the kinds of legs lift to drawings with fields |
| C107 | `contract`, `exotic_field_and_term`, `separate_gauge_epsilons`, `construct_completion`, `operator_completions` | specification from the operator alone (`inside`, `crossing`: fields beyond a line, epsilons contracted with two of them, indices without counterpart among these); one step: the free indices of the product at a vertex are those that cross the line out of it, if this holds for the lines into it (uses that dead epsilons are not contracted with what is left, from C76); induction over the partition together with what is recorded in the dictionary of exotic fields |
| C108 | database/pickler: `get_scalars_fermions`, `data_dict`, the script; `fill_scale_dict` (symbolic part), `democratic_remove_equivalent_models` | rows as records, a table is the columns of a list of rows; one row for each model by induction over the data; the filters through C66, C69, C20 and C15, translated from models to rows (equal numbers, divisibility) |
| C109 | `exotic_field_and_term` (3b of the exotic field and of its partner), `construct_completion` | `quiet`: no fields of the operator are neutral but for the baryon number; `carries_from` gives the sum of 3b for quiet lines, by the induction of C107 over the diagram; a term adds up to zero because its partner has the opposite charge, or none if the representation is real, and then nothing flows; all shipped operators are quiet by computing the sums over all subsets |
| C110 | completions/d9.py | both loops by structural recursion, the namespace as an option; the loop stops at the first heavy operator (induction), the shipped list is split by computation; the sieve through C11 |
| C111 | `fill_free_indices`, `simplify(fill=True)`, `clean_operators` | the counters by letter as a dictionary, sympy's `fun_eval` as the first pair that fits; positions and counts by induction, the two directions of the relabelling separately |
| C112 | `contract`, `exotic_field_and_term`, `construct_completion`, `operator_completions` | the models of C39 to C88; the fields of the terms as a multiset by induction on the run of a partition (C41), labels through the constructors of the exotic fields; the lepton numbers of the shipped operators by computation |
| C113 | `numerical_mv`, the equation of `numerical_np_scale_estimate`, `get_leading_mv`, `table_data` | rational functions of Λ (floats, and the roots sympy finds, are not modelled); monotone products, a checker with interval bounds for pairs of estimates, proved sound for all Λ and all loop factors of the interval, run on the estimates of the 243 operators |
| C114 | `get_leading_mv`, `table_data` with rounding | as C113, with rounding as a relation between an estimate and a whole number (C114_rounds gives a function that satisfies it); a checker brackets the scales between rational numbers, with a table of separating numbers that need not be trusted |
| C115 | `get_leading_mv` on the operators made with `prime` | as C113, with the fields compared as multisets of labels |
| C116 | `Operator.safe_simplify` | `simplify` as a parameter that may raise; a meaning of operators as a record of its laws; induction on the tensors without indices |
| C78 | `get_leading_mv`, `loop_data`, `table_data` | maximum of a list under a parameter valuation |

Everything listed is expressible; no property was found inexpressible.  Floating-point results (numerical
masses, scales) are not modelled as floats: where they matter they are parameters (C69, C78) or multiples of
1/2 or integers below 2^53, on which floating-point arithmetic is exact (C53, C55), or exact numbers that stand for
them (C100).

## 3. Files

`Base.v`, `BaseFacts.v`, `Show.v`, `Primes.v`, `Spec.v`: errors as values, dictionaries, sorting, printing of
numbers, primes, general notions.  Then per topic `Model*.v` (model), `Spec*.v` (notions used in statements),
`Proofs*.v` (lemmas), `Props*.v` (theorems, examples, `Print Assumptions`):

| topic | source files |
|-------|--------------|
| Functions, Match | utils/functions.py, utils/match.py, completions/utils.py |
| Registry | completions/completions.py (prime labels, cleaning, collecting) |
| Database | database/database.py, database/utils.py (subsets) |
| Index, Field, Contract | tensormethod/core.py, tensormethod/contract.py, tensormethod/utils.py |
| Partition, Topology (`DataTopology.v`) | completions/completions.py, completions/topologies.py, completions/topology_data |
| Exotic, Completion | completions/core.py, completions/completions.py (311-728, 843-986) |
| Compare, Place | completions/completions.py (988-1075, 1168-1250) |
| Info | completions/core.py (356-391, 453-528), tensormethod/core.py (917-943) |
| Closures, Parse, Text | database/closures.py, database/utils.py |
| Lagrangian | tensormethod/lagrangian.py, tensormethod/sm.py |
| Smeft | tensormethod/smeft.py |
| Heavy | database/heavyloops.py, database/pickler |
| Deriv | tensormethod/parse_hs.py, tensormethod/deriv_operators.py |
| Invariants, Relabel | tensormethod/contract.py (250-437), tensormethod/core.py (985-1028) |
| Generate | tensormethod/lagrangian.py (101-109, 163-166, 186-201) |
| Json | database/json_serialiser.py, completions/tikzfeynman.py (46-104) |
| Series | tensormethod/hs.py, tensormethod/parse_hs.py (17-65, 196-224) |
| DerivOps | completions/completions.py (1253-1288) |
| Latex | tensormethod/core.py (833-860, 1108-1176), tensormethod/utils.py (7-33) |
| Analysis | analysis/utils.py (22-138), analysis/flavour_anomalies.py (7-26, 47-48) |
| DerivVertex | `contract` with derivatives, completions/completions.py |
| Paper (`DataPaper.v`) | database/operators.py |
| Pairing | completeness of tensormethod/contract.py |
| Trees | completeness of completions/topology_data |
| Cuts | quantum numbers of the lines in completions/completions.py |
| Pickler | tables of models of database/pickler |
| Baryon | baryon number through a completion |
| Nine | script completions/d9.py |
| Fill | numbering of free indices |
| Charge | charges of the terms of a completion |
| Scale | estimates as functions of Λ |
| Rounded | rounded scales and the table of operators |
| Primed | operators with a further pair of Higgs fields |
| Safe | simplification in the presence of fields without indices |
| OperatorList | completeness of completions/operators.py and tensormethod/lnv.py |
| Export, ShowRead | database/export.py, database/database.py (29-65) |
| Operators (`DataOperators.v`) | completions/operators.py, operators.p, deriv_operators.p, completions/completions.py (207-264, 923-985) |

`DataTopology.v` is generated: it contains the text of the shipped files, unchanged.  `DataOperators.v` is
generated from the two pickle files of operators.  Seeded faults and what
they broke are in `seeded/LOG.jsonl`.

## 4. Trusted base

* **Coq's kernel**, including its virtual machine (`vm_compute` is used for examples, refutation witnesses and
  the checks of the topology data and of the shipped operators).
* **Assumptions.**  `Print Assumptions` answers "Closed under the global context" for every theorem listed in
  `MANIFEST.json`; no axiom is used, neither of the standard library nor of our own.  (`vcheck` counts seven
  axioms: they come with the standard library's `ssreflect` files, which some `Require` loads; no theorem
  depends on them.)
* **The correspondence between the Python text and the model**, stated definition by definition in the comments
  with file and lines.
* **What is taken of Python and its libraries.**  These enter either as part of the model or as parameters with
  hypotheses that are visible in the theorem:
  * integers unbounded, `Fraction`/sympy `Rational` as canonical rationals (`Qc`); floats only where exact;
  * strings as lists of 8-bit characters, non-ASCII characters of the labels as codes above 127; string order as
    order of the codes;
  * dictionaries in insertion order; iteration order of sets as an arbitrary enumeration (quantified over);
    hashes agree exactly when the hashed tuples agree (no collisions);
  * `sorted` stable; `itertools.permutations/combinations/groupby/product` as documented;
  * sympy: `prime(n)` the n-th prime, `factorint` by its specification, `fun_eval` replacing all indices at once by the first pair that fits (C111), free indices of a product in order of
    position, an index that occurs twice with equal height is refused, automatic counters of index names,
    `Matrix.nullspace` as a parameter returning a basis of the kernel (`nullspace_of`), products as lists of
    factors, differentiation and collection of like terms in `parse_hs.py`; simplification of tensors
    (`canon_bp`) is a parameter wherever it decides something (`vanishes`, `survives`, text of a term);
  * basisgen's product of irreps as a parameter (`product_spec`: dimensions conserved, labels bounded; `selection_rule`: SU(2) labels obey the triangle rule; `triality_rule`);
  * whether two terms simplify to the same and whether a term is zero (`same`, `zero`) in C95;
  * the factors sympy keeps for an operator (`args`), equality up to a coefficient and `simplify` as parameters in C94;
  * the numbers of `closures.py` (C113 to C115) as exact decimals, 1/(16π²) as any rational number of a small interval around
    it, the scale of new physics as the Λ below which an estimate exceeds the measured mass; floating point errors and the
    choice among the roots that `sympy.solve` finds are not modelled;
  * networkx graphs as edge lists; isomorphism of graphs not modelled;
  * matchpy: a pattern of a commutative, associative product matches when its operands are among those of the
    subject, and `substitute` leaves the other operands (operators are lists up to order);
  * `eval` only on the component names and literals the code itself builds; for exported completions it is a parser
    and evaluator of the expressions that `export.py` writes (`py_eval`): names, numbers, string literals with the
    escapes of Python except `\N`, `\u`, `\U` (refused), attributes, calls, brackets, products.  Characters above
    127 are printable for `repr`.  `IndexedField` ignores the keywords `dynkin` and `is_unbarred`, as the code does;
  * `re.match` only for literal patterns; `glob` as names with a prefix and suffix;
  * pandas and pickle files only as the values read from them.
* **Not modelled**: LaTeX of tables, plotting and drawing of diagrams, interactive helpers, command line scripts,
  progress bars, caching and timing, numerical evaluation of masses (a parameter, except in C113 to C115), the
  Hilbert series computation itself (only its parser), hash values as numbers.

## 5. Findings

Properties that a user would expect and that are false of the code, each with a proved witness:

* C06 A successful pattern match really matches: `C06_nonground_refuted`
* C07 The pattern matcher finds a match whenever there is one: `C07_empty_string_refuted`, `C07_variable_data_refuted`
* C08 factors returns exactly the divisors: `C08_small_root_refuted`
* C09 Simultaneous relabelling of strings: `C09_prefix_keys_refuted`
* C11 Filtering completions against a sieve is containment of field content: `C11_small_root_refuted`
* C14 What collect_completions returns: `C14_collect_completions_refuted`
* C19 Forcing a lazy database: `C19_force_refuted`
* C21 Related models: `C21_related_models_refuted`
* C22 Index algebra: `C22_neg_refuted`, `C22_conj_refuted`
* C26 Equal fields hash equally: `C26_hash_refuted`
* C28 Stripping derivatives inverts taking them: `C28_strip_derivs_refuted`
* C29 Operators survive pickling: `C29_pickle_refuted`
* C30 Products of fields: `C30_multiplicity_refuted`
* C31 Colour singlets: `C31_all_singlets_refuted`
* C33 SU(2) contraction of two operators: `C33_every_way_refuted`
* C34 Operator construction and its shared stack: `C34_after_error_refuted`
* C35 Distributing fields over a topology: `C35_extra_refuted`
* C36 Counting indexed fields: `C36_three_singlets_refuted`, `C36_second_index_refuted`
* C38 Lorentz structure of a vertex: `C38_total_refuted`, `C38_assertion_refuted`
* C39 Separating contracted from spectator epsilons: `C39_order_refuted`
* C40 Exotic fields carry the right quantum numbers: `C40_label_refuted`, `C40_baryon_refuted`
* C41 Completions reduce to one vertex and fail cleanly: `C41_edge_lost_refuted`
* C43 Closure rules and electric charge: `C43_refuted`
* C44 The number of vacuum expectation values is even: `C44_charged_refuted`
* C45 Rewriting terminates in a normal form: `C45_ten_turns_refuted`
* C46 SU(2) expansion of an operator: `C46_long_names_refuted`
* C48 When u1_symmetries can be computed: `C48_neutral_dirac_refuted`, `C48_mixed_colour_refuted`, `C48_baryon_refuted`
* C49 What generating field strings does to the Standard Model fields: `C49_product_refuted`, `C49_row_refuted`
* C50 Partitions and graphs are paired correctly: `C50_dot_refuted`
* C51 Where a derivative may act: `C51_refuted`
* C52 Placing derivatives: `C52_statistics_refuted`
* C55 Printed quantum numbers: `C55_refuted`
* C56 Exotic info and conjugation: `C56_refuted`
* C57 Field lookup by hypercharge prefix: `C57_refuted`
* C58 Field queries: `C58_contains_field_refuted`, `C58_no_seesaws_conjugate_refuted`
* C59 Invariants kept for the table: `C59_refuted`
* C61 Comparison of interactions under relabelling: `C61_none_refuted`, `C61_twins_refuted`, `C61_anagram_refuted`
* C62 Reading completions: `C62_load_refuted`
* C63 Right folds and fixed points: `C63_fixedpoint_never_returns_refuted`
* C65 filter_data is not a table of counts: `C65_filter_data_counts_refuted`
* C67 filter() needs an explicit order(): `C67_filter_unordered_refuted`, `C67_filter_given_data_refuted`
* C68 Interaction queries: `C68_two_patterns_one_field_refuted`
* C70 Conjugation keeps the symmetry of indices: `C70_conj_symmetry_refuted`
* C77 Power counting of mass estimates: `C77_quark_yukawas_refuted`
* C78 Leading estimate and number of loops: `C78_many_loops_refuted`
* C82 Generated one-loop models: `C82_refuted`
* C83 Labels of derivative operators: `C83_refuted`
* C88 Completions from start to end: `C88_later_refuted`
* C90 Terms with derivatives: `C90_box_refuted`, `C90_vector_refuted`, `C90_majorana_refuted`, `C90_last_refuted`
* C91 Exported tensors and operators are read back: `C91_barred_refuted`, `C91_theta_refuted`, `C91_names_refuted`
* C92 Exported completions are read back: `C92_theta_refuted`
* C93 Operators of a product of fields: `C93_invariant_refuted`
* C94 Duplicates and relabellings: `C94_related_refuted`, `C94_complete_refuted`
* C95 The terms of a Lagrangian: `C95_invariant_refuted`, `C95_octet_refuted`, `C95_state_refuted`
* C96 JSON objects and lines of a diagram: `C96_class_refuted`, `C96_order_refuted`, `C96_completion_refuted`
* C97 The Hilbert series: `C97_counts_refuted`, `C97_tuple_refuted`
* C98 Completions of operators with derivatives: `C98_last_term_refuted`, `C98_name_refuted`, `C98_bare_refuted`, `C98_dispatch_refuted`
* C99 LaTeX of an operator: `C99_sign_refuted`, `C99_generation_refuted`, `C99_label_refuted`, `C99_ignore_refuted`, `C99_letters_refuted`
* C100 Mixing matrices and couplings: `C100_angles_refuted`
* C101 Operators of the SMEFT module: `C101_again_refuted`, `C101_lepton_refuted`
* C102 Vertices with derivatives: `C102_three_refuted`
* C103 The table of operators for the paper: `C103_wrong_refuted`, `C103_stale_refuted`, `C103_missing_refuted`
* C105 Every contraction is constructed: `C105_once_refuted`
* C106 Every tree diagram is considered: `C106_contact_refuted`, `C106_kinds_refuted`
* C107 What the exchanged fields carry: `C107_chained_refuted`
* C109 Baryon number through a completion: `C109_sign_refuted`
* C110 The script for dimension nine: `C110_missed_refuted`, `C110_name_refuted`, `C110_previous_refuted`
* C111 Numbering the free indices: `C111_capture_refuted`
* C113 Leading estimate and scale: `C113_leading_refuted` (operators 37 and 59c)
* C114 Loops in the table: `C114_loops_refuted` (twelve operators)
* C115 A further pair of Higgs fields: `C115_primed_refuted` (operator 76)

What each witness shows is said in the comment above the theorem and, as the deviation, in `properties.jsonl`.
