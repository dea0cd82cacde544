{"claims": [
{"property": "C01", "status": "proved", "theorems": ["C01_remove_equivalent_keeps_first", "C01_remove_equivalent_snoc", "C01_remove_equivalent_order_pairwise_cover"], "note": "full functional characterisation of the in-place loop"},
{"property": "C02", "status": "proved", "theorems": ["C02_nopop_agrees", "C02_dropped_vals"], "note": ""},
{"property": "C03", "status": "proved", "theorems": ["C03_chunks", "C03_chunks_zero", "C03_flatten_leaves_in_order"], "note": ""},
{"property": "C04", "status": "proved", "theorems": ["C04_conjugate_field_prints_conjugate", "C04_conjugate_field_involution", "C04_negate_u1", "C04_not_involutive_on_minus_zero"], "note": "well-formed strings are the printed forms of exotics (any rational charges) and of the SM fields; outside them the involution fails (witness proved)"},
{"property": "C05", "status": "proved", "theorems": ["C05_conjugate_term_sorted", "C05_conjugate_term_order_independent", "C05_conjugate_term_twice", "C05_conjugate_term_content"], "note": ""},
{"property": "C06", "status": "proved", "theorems": ["C06_match_sound", "C06_pmatch_sound", "C06_nonground_refuted"], "note": "also shown: without groundness of the data the claim fails"},
{"property": "C07", "status": "proved", "theorems": ["C07_match_complete", "C07_is_match_decides", "C07_empty_string_refuted", "C07_variable_data_refuted"], "note": "complete under the stated conditions; each condition is shown to be needed by a refuted theorem"},
{"property": "C08", "status": "proved", "theorems": ["C08_factors_are_the_divisors", "C08_factors_sound", "C08_small_root_refuted"], "note": "int(n**0.5) is a parameter; the claim holds for every estimate at least the true root"},
{"property": "C09", "status": "proved", "theorems": ["C09_multiple_replace_scans", "C09_multiple_replace_labelwise", "C09_swap_twice", "C09_prefix_keys_refuted"], "note": "empty keys are not modelled"},
{"property": "C10", "status": "proved", "theorems": ["C10_registry_enumerates", "C10_registry_primes"], "note": "Any type of field information with decidable equality."},
{"property": "C11", "status": "proved", "theorems": ["C11_filter_completions", "C11_small_root_refuted"], "note": "For any integer-root estimate that is not too small; the second theorem shows what a too small estimate does."},
{"property": "C12", "status": "proved", "theorems": ["C12_characteristic_number"], "note": "Fields with five Dynkin digits."},
{"property": "C13", "status": "proved", "theorems": ["C13_clean_completions"], "note": ""},
{"property": "C14", "status": "proved", "theorems": ["C14_collect_completions_exact", "C14_collect_completions_refuted", "C14_collect_completions_sound", "C14_collect_completions_grouped"], "note": "exact contents of the dictionary; the loss is the refuted theorem"},
{"property": "C15", "status": "proved", "theorems": ["C15_model_numbers"], "note": "Both philosophies, every enumeration order of the sets; data whose field strings are well formed."},
{"property": "C16", "status": "proved", "theorems": ["C16_filter_by_mass", "C16_order_independent"], "note": "For databases whose numbers are faithful, which C15 shows of every constructed database; all operators present must have a scale (order_by_mass provides them)."},
{"property": "C17", "status": "proved", "theorems": ["C17_filter_by_dimension"], "note": "Also shows that the additions to column j of filter_data are as many as the models removed from operator j."},
{"property": "C18", "status": "proved", "theorems": ["C18_remove_equivalent_models"], "note": "Stated with content equality instead of numbers."},
{"property": "C19", "status": "proved", "theorems": ["C19_force_last", "C19_force_refuted", "C19_force_partial"], "note": "Defect: every operator but the last is dropped. C19_force_last is the exact behaviour, C19_force_refuted the witness against keeping every operator."},
{"property": "C20", "status": "proved", "theorems": ["C20_order_by_mass", "C20_order_by_dimension", "C20_order_by_dimension_unknown", "C20_fill_scale_dict"], "note": "Operators without an estimate are dropped silently by order_by_mass; order_by_dimension raises KeyError for unknown ones."},
{"property": "C21", "status": "proved", "theorems": ["C21_related_models", "C21_related_models_refuted"], "note": "factorint is a parameter: the distinct primes dividing its argument."},
{"property": "C22", "status": "proved", "theorems": ["C22_accepted", "C22_index_of_label", "C22_neg", "C22_conj", "C22_conj_lorentz", "C22_conj_twice", "C22_print_parse", "C22_neg_refuted", "C22_conj_refuted"], "note": "The accepted labels are characterised exactly; the two _refuted theorems are the labels --c0, U0 and u0d."},
{"property": "C23", "status": "proved", "theorems": ["C23_never_repeated", "C23_kinds", "C23_fresh_indices_string"], "note": "The counters are a state passed along; any sequence of calls."},
{"property": "C24", "status": "proved", "theorems": ["C24_constructed", "C24_conj", "C24_indexed_conj"], "note": "C24_constructed shows that every field made by Field meets the hypothesis field_ok."},
{"property": "C25", "status": "proved", "theorems": ["C25_call", "C25_field_of"], "note": ""},
{"property": "C26", "status": "proved", "theorems": ["C26_hash_iff", "C26_hash", "C26_indexed_hash", "C26_hash_refuted"], "note": "Hash is modelled as the tuple that is hashed; C26_hash_refuted is the pair of charge dictionaries a,b and b,a."},
{"property": "C27", "status": "proved", "theorems": ["C27_D", "C27_mass_dim"], "note": ""},
{"property": "C28", "status": "proved", "theorems": ["C28_strip_derivs", "C28_strip_derivs_with_indices", "C28_strip_derivs_refuted"], "note": "derived is the reachability relation of repeated D."},
{"property": "C29", "status": "proved", "theorems": ["C29_field", "C29_symbol", "C29_pickle", "C29_pickle_refuted"], "note": "Only the tensors are modelled; sympy's canonical form of the product is not."},
{"property": "C30", "status": "proved", "theorems": ["C30_product", "C30_edge_cases", "C30_dimension", "C30_multiplicity_refuted"], "note": "basisgen's product is a parameter; product_spec (dimension conservation, labels bounded by sums) is a hypothesis of the dimension theorems only, shown satisfiable by C30_octets."},
{"property": "C31", "status": "proved", "theorems": ["C31_colour_singlets", "C31_list", "C31_overcomplete", "C31_all_singlets_refuted"], "note": "C31_all_singlets_refuted: three raised indices give results that are not singlets."},
{"property": "C32", "status": "proved", "theorems": ["C32_epsilon_combos", "C32_su2_singlets", "C32_lorentz_singlets"], "note": "The iteration order of the set of sets is a parameter constrained only to enumerate it (iterates)."},
{"property": "C33", "status": "proved", "theorems": ["C33_helper", "C33_contract_su2", "C33_every_way_refuted"], "note": "C33_every_way_refuted: two indices on either side and two to stay; the second left index is never contracted."},
{"property": "C34", "status": "proved", "theorems": ["C34_shared_stack", "C34_after_error_refuted"], "note": "C34_after_error_refuted: after a failing product of three fields, construct_operators of a single field raises and of two doublets gives operators with three fields."},
{"property": "C35", "status": "proved", "theorems": ["C35_distribute", "C35_count", "C35_replace_fields", "C35_extra_refuted"], "note": "C35_extra_refuted: with one boson too many a field is lost without an error."},
{"property": "C36", "status": "proved", "theorems": ["C36_counters", "C36_doublets", "C36_three_singlets_refuted", "C36_second_index_refuted"], "note": "C36_three_singlets_refuted: three copies of an isosinglet raise. C36_second_index_refuted: two triplets contracted crosswise count as different, although the same contraction written in the other order counts as equal."},
{"property": "C37", "status": "proved", "theorems": ["C37_connecting_edge", "C37_raises", "C37_no_error", "C37_labelled_edges", "C37_shipped", "C37_kinds", "C37_never_raises"], "note": "The text of the 447 partition and 447 graph files is embedded in DataTopology.v and parsed inside Coq. contract on two or three fields and the last vertex are parameters assumed not to raise."},
{"property": "C38", "status": "proved", "theorems": ["C38_lorentz", "C38_allowed", "C38_total_refuted", "C38_assertion_refuted"], "note": "C38_total_refuted: a fermion with a derivative in the representation (2,1) next to a fermion raises AttributeError. C38_assertion_refuted: two scalars and one fermion raise AssertionError."},
{"property": "C39", "status": "proved", "theorems": ["C39_split", "C39_partition", "C39_fields_only", "C39_order", "C39_two", "C39_order_refuted"], "note": "C39_order_refuted: two chained colour epsilons, both orders."},
{"property": "C40", "status": "proved", "theorems": ["C40_exotic", "C40_contract", "C40_symbol", "C40_fresh_symbol", "C40_label_refuted", "C40_baryon_refuted"], "note": "C40_exotic is about any product of fields and symbols with at most one free Lorentz index, C40_contract about contract. sympy's safe_simplify is a parameter. C40_label_refuted: L L to a triplet and to a singlet share a label. C40_baryon_refuted: a right-handed Majorana fermion with 3b."},
{"property": "C41", "status": "proved", "theorems": ["C41_once", "C41_completion", "C41_failure", "C41_terms", "C41_operator_completions", "C41_edge_lost_refuted"], "note": "C41_edge_lost_refuted: two equal exotic fields on two internal edges leave one labelled edge."},
{"property": "C42", "status": "proved", "theorems": ["C42_conserved", "C42_neutrino_pairs", "C42_assertion"], "note": ""},
{"property": "C43", "status": "proved", "theorems": ["C43_charge", "C43_neutral", "C43_refuted"], "note": "Conservation by every rule, as first stated, is false: C43_refuted. The statement now says which rules break it and that they are never used in a reduction of a neutral operator."},
{"property": "C44", "status": "proved", "theorems": ["C44_vevs", "C44_estimate", "C44_estimates", "C44_charged_refuted"], "note": "An even number of doublets is not enough: C44_charged_refuted (a charged structure trips the assertion)."},
{"property": "C45", "status": "proved", "theorems": ["C45_fixed_point", "C45_terminates", "C45_order", "C45_ten_turns_refuted"], "note": "C45_ten_turns_refuted: nu nu with 18 Higgs fields is dropped although an eleventh turn reduces it."},
{"property": "C46", "status": "proved", "theorems": ["C46_parse", "C46_choices", "C46_five_epsilons", "C46_other_epsilons", "C46_estimates", "C46_fresh_names", "C46_long_names_refuted"], "note": "The original claim (any number of epsilons, any names) is false: C46_five_epsilons, C46_long_names_refuted."},
{"property": "C47", "status": "proved", "theorems": ["C47_row", "C47_row_stranger", "C47_charge", "C47_symmetries", "C47_conserved", "C47_stored"], "note": "sympy's Matrix.nullspace is a parameter, assumed to return a basis of the kernel (nullspace_of)."},
{"property": "C48", "status": "proved", "theorems": ["C48_mass_term", "C48_clean", "C48_masses_known", "C48_total", "C48_neutral_dirac_refuted", "C48_mixed_colour_refuted", "C48_baryon_refuted", "sm_fields_made"], "note": "The property as first stated (no exclusions) is refuted by the three _refuted theorems. Iteration order of the set of exotics and the text by which fields are sorted are parameters."},
{"property": "C49", "status": "proved", "theorems": ["C49_state", "C49_combinations", "C49_terms", "C49_one", "C49_default", "C49_product_refuted", "C49_row_refuted"], "note": "The property as first stated (no side effects) is refuted; what does hold is proved. basisgen's product is a parameter."},
{"property": "C50", "status": "proved", "theorems": ["C50_pairing", "C50_dot_refuted"], "note": "glob is modelled as the names that start with the prefix, sorted as in the code. C50_dot_refuted: stems 1s2f_a and 1s2f_a.d."},
{"property": "C51", "status": "proved", "theorems": ["C51_possibilities", "C51_result", "C51_one", "C51_refuted", "C51_twice"], "note": "Completeness beyond scalars and Weyl fermions is refuted."},
{"property": "C52", "status": "proved", "theorems": ["C52_structures", "C52_strip", "C52_construct", "C52_fresh", "C52_combinations", "C52_statistics_refuted"], "note": "sympy's simplification to zero is the parameter survives"},
{"property": "C53", "status": "proved", "theorems": ["C53_dimension", "C53_even"], "note": "Mass dimensions are multiples of 1/2, taken as exact."},
{"property": "C54", "status": "proved", "theorems": ["C54_derivative", "C54_table", "C54_content", "C54_listed"], "note": "The first letters of the printed name of a tensor are those of the label of the field, or metric, Eps, KD."},
{"property": "C55", "status": "proved", "theorems": ["C55_format", "C55_missing", "C55_same", "C55_small", "C55_refuted"], "note": "Injectivity on all representations is refuted; what determines the text is proved. Floating-point arithmetic taken as exact below 2^53."},
{"property": "C56", "status": "proved", "theorems": ["C56_info", "C56_conjugate", "C56_refuted", "C56_exotic_info"], "note": "The property without condition on the hypercharge is refuted."},
{"property": "C57", "status": "proved", "theorems": ["C57_lookup", "C57_exact", "C57_refuted", "C57_numbers"], "note": "Exactness for all hypercharges is refuted; the set of fields found is characterised."},
{"property": "C58", "status": "proved", "theorems": ["C58_contains_field", "C58_contains_field_exact", "C58_no_seesaws", "C58_contains_field_refuted", "C58_no_seesaws_conjugate_refuted"], "note": "Patterns are literal strings; regular expressions with operators are not modelled."},
{"property": "C59", "status": "proved", "theorems": ["C59_last", "C59_any", "C59_error", "C59_refuted"], "note": "That the longest list is returned is refuted. invariants is a parameter."},
{"property": "C60", "status": "proved", "theorems": ["C60_subsets"], "note": ""},
{"property": "C61", "status": "proved", "theorems": ["C61_check", "C61_compare", "C61_identity", "C61_none_refuted", "C61_twins_refuted", "C61_anagram_refuted"], "note": "The text of a term (sympy's simplification and printing) is a parameter. Exactness of the comparison is refuted; what is compared is characterised."},
{"property": "C62", "status": "proved", "theorems": ["C62_read_completions", "C62_load_last", "C62_load_disjoint", "C62_load_refuted"], "note": "Defect: the dictionaries of the files are merged by overwriting."},
{"property": "C63", "status": "proved", "theorems": ["C63_foldr_is_right_fold", "C63_fixedpoint_never_returns_refuted"], "note": "foldr is the right fold; fixedpoint and multiset_equality always raise NameError"},
{"property": "C64", "status": "proved", "theorems": ["C64_inverse_exotics", "C64_inverse_terms"], "note": ""},
{"property": "C65", "status": "proved", "theorems": ["C17_filter_by_dimension", "C65_filter_data_counts_refuted"], "note": "Defect."},
{"property": "C66", "status": "proved", "theorems": ["C66_process_mass", "C66_process_dimension"], "note": "by mass, also: no two models left of an operator are equivalent, and the scales have distinct keys"},
{"property": "C67", "status": "proved", "theorems": ["C67_filter_unordered_refuted", "C67_filter_given_data_refuted"], "note": "Defect: is_ordered is never set to False."},
{"property": "C68", "status": "proved", "theorems": ["C68_contains_interaction", "C68_two_patterns_one_field_refuted"], "note": "The second theorem shows that multiplicity is ignored."},
{"property": "C69", "status": "proved", "theorems": ["C69_filter_one_loop_weinberg"], "note": "The one-loop scale is a parameter."},
{"property": "C70", "status": "proved", "theorems": ["C70_conj_symmetry", "C70_conj_symmetry_refuted"], "note": ""},
{"property": "C71", "status": "proved", "theorems": ["C71_conj_strip"], "note": ""},
{"property": "C72", "status": "proved", "theorems": ["C72_substituted"], "note": ""},
{"property": "C73", "status": "proved", "theorems": ["C73_fresh_indices"], "note": ""},
{"property": "C74", "status": "proved", "theorems": ["C74_construct_operators"], "note": ""},
{"property": "C75", "status": "proved", "theorems": ["C75_external"], "note": ""},
{"property": "C76", "status": "proved", "theorems": ["C76_completion", "C76_shipped"], "note": "safe_simplify is a parameter. Names of indices must not clash with those the code makes by adding a caret, and fewer than ten indices of each kind occur. C76_shipped fixes the topologies to those shipped; C76_completion takes every arrangement meeting the branching rules."},
{"property": "C77", "status": "proved", "theorems": ["C77_power_counting", "C77_chirality", "C77_quark_yukawas_refuted"], "note": "C77_quark_yukawas_refuted: separate parity of yu fails when a three-fermion rule with eb is used."},
{"property": "C78", "status": "proved", "theorems": ["C78_leading", "C78_loops", "C78_many_loops_refuted"], "note": "The numerical values (sympy substitution, solving for the scale) are a parameter of the model."},
{"property": "C79", "status": "proved", "theorems": ["C79_strings"], "note": "basisgen's product is a parameter."},
{"property": "C80", "status": "proved", "theorems": ["C80_topology_type"], "note": ""},
{"property": "C81", "status": "proved", "theorems": ["C81_model", "C81_order", "C81_none"], "note": "Iteration order is the order of the list of exotic fields."},
{"property": "C82", "status": "proved", "theorems": ["C82_models", "C82_neutral", "C82_coloured", "C82_refuted"], "note": "That neighbours couple in all generated loops is refuted."},
{"property": "C83", "status": "proved", "theorems": ["C83_unwanted", "C83_labels", "C83_too_many", "C83_refuted"], "note": ""},
{"property": "C84", "status": "proved", "theorems": ["C84_product", "C84_error", "C84_expands"], "note": ""},
{"property": "C85", "status": "proved", "theorems": ["C85_distribute", "C85_parse"], "note": "sympy's derivative of a product and collection of equal terms are part of the model; coefficients are dropped by proc_number."},
{"property": "C86", "status": "proved", "theorems": ["C86_table"], "note": ""},
{"property": "C87", "status": "proved", "theorems": ["C87_operators", "C87_deriv"], "note": "computed on the shipped data by checkers proved sound; records colour_open and lepton_violating in SpecOperators.v"},
{"property": "C88", "status": "proved", "theorems": ["C88_completions", "C88_shipped", "C88_later_refuted"], "note": "the general theorem, its instance for all shipped operators, and the collision of index names after 251 colour indices"},
{"property": "C89", "status": "proved", "theorems": ["C89_masses"], "note": ""},
{"property": "C90", "status": "proved", "theorems": ["C90_terms", "C90_check", "C90_checked", "C90_no_derivs", "C90_box_refuted", "C90_vector_refuted", "C90_majorana_refuted", "C90_last_refuted"], "note": "strip_derivs_with_indices, dirac_partner, conj and lower_su2 are as in C28, C40, C71; the refuted theorems give inputs for which a field is doubled or dropped, an octet Majorana fermion makes the assertion fail, and a vanishing last vertex raises NameError"},
{"property": "C91", "status": "proved", "theorems": ["C91_tensor", "C91_operator", "C91_exotic_equal", "C91_field_equal", "C91_barred_refuted", "C91_theta_refuted", "C91_names_refuted"], "note": "eval is modelled as a parser and evaluator for the expressions that export.py writes; the refuted theorems show the three deviations"},
{"property": "C92", "status": "proved", "theorems": ["C92_eager", "C92_lazy", "C92_head", "C92_graph", "C92_written", "C92_theta_refuted"], "note": "sets are enumerated; networkx graphs are adjacency dictionaries; the refuted theorem shows the difference between the two forms"},
{"property": "C93", "status": "proved", "theorems": ["C93_invariants", "C93_edge_cases", "C93_invariant_refuted"], "note": "basisgen enters through its selection rules (selection_rule); the refuted theorem shows uncontracted copies for three quarks and a lepton, and the error for four triplets and an antitriplet"},
{"property": "C94", "status": "proved", "theorems": ["C94_structures", "C94_extract", "C94_renaming", "C94_compare", "C94_remove", "C94_equal_raise", "C94_clean", "C94_invariants", "C94_related_refuted", "C94_complete_refuted"], "note": "the factors sympy makes of an operator, equality up to a coefficient and simplification are parameters; the refuted theorems evaluate operators with given components"},
{"property": "C95", "status": "proved", "theorems": ["C95_npoint", "C95_uv_terms", "C95_sound", "C95_complete", "C95_triplets", "C95_full", "C95_full_errors", "C95_invariant_refuted", "C95_octet_refuted", "C95_state_refuted"], "note": "basisgen enters through selection_rule and, for C95_triplets, triality_rule; equivalence (same) and sympy taking a term to be zero (zero) are parameters; the refuted theorems use the products SU(3) has for the irreps that occur"},
{"property": "C96", "status": "proved", "theorems": ["C96_exotic", "C96_class", "C96_class_refuted", "C96_order_refuted", "C96_field", "C96_symbol", "C96_operator", "C96_completion_refuted", "C96_graph_nodes", "C96_lines"], "note": "field_text (sympy's text of a field with its indices) is a parameter"},
{"property": "C97", "status": "proved", "theorems": ["C97_sound", "C97_complete", "C97_generations", "C97_counts_refuted", "C97_lookup", "C97_parse", "C97_tuple_refuted", "C97_neutral", "C97_shipped", "C97_derivatives", "C97_products"], "note": "the terms are the summands of the file, generated from its text; that sympy collects summands with equal factors and differentiates products by the product rule is modelled, the order of its terms and factors is not"},
{"property": "C98", "status": "proved", "theorems": ["C98_fewer", "C98_search", "C98_search_fewer", "C98_nonzero", "C98_shipped", "C98_last_term_refuted", "C98_name_refuted", "C98_models", "C98_bare_refuted", "C98_dispatch_refuted"], "note": "sympy's answers are parameters: bool(safe_simplify()), simplify() == 0 (which may raise) and whether a term vanishes"},
{"property": "C99", "status": "proved", "theorems": ["C99_text", "C99_prints", "C99_letters", "C99_shipped", "C99_sign_refuted", "C99_generation_refuted", "C99_label_refuted", "C99_ignore_refuted", "C99_letters_refuted"], "note": "hypotheses of C99_prints: the fields can be conjugated and have a LaTeX name"},
{"property": "C100", "status": "proved", "theorems": ["C100_unitary", "C100_dagger", "C100_shipped", "C100_masses", "C100_point", "C100_angles_refuted"], "note": "exact numbers instead of floating-point numbers: rounding is not modelled; the laws of the numbers are premises, met by complex numbers with rational parts in gaussian_lawful and gaussian_angles"},
{"property": "C101", "status": "proved", "theorems": ["C101_operators", "C101_fields", "C101_again_refuted", "C101_lepton_refuted"], "note": "the product of irreps (basisgen) is a parameter; verbose only prints and is not modelled"},
{"property": "C102", "status": "proved", "theorems": ["C102_contract", "C102_safe", "C102_three_refuted", "majorana_free", "safeb_ok"], "note": "fields with two derivatives contracted among themselves (spin zero) are outside C102_safe, coloured Majorana fermions too (C90_box_refuted, C90_majorana_refuted show what happens); sympy's decision whether a term vanishes is a parameter"},
{"property": "C103", "status": "proved", "theorems": ["C103_primes", "C103_rows", "C103_shown", "C103_wrong_refuted", "C103_stale_refuted", "C103_missing_refuted"], "note": "models.p is not in the repository: its content is a parameter, and so are the column op of MVDF and table_data (C89); C103_shown is about the rows other than 27d, 32e, 32f, 59c, D15 (C103_wrong_refuted)"},
{"property": "C104", "status": "proved", "theorems": ["C104_complete", "C104_complete_deriv", "C104_distinct", "C104_numbers", "kinds_same", "same_labels", "pairings_all"], "note": "the content of operators.p and deriv_operators.p is data (DataOperators.v); the colour indices, which the operators leave open, and the spinor indices are not compared"},
{"property": "C105", "status": "proved", "theorems": ["C105_contractions", "C105_once_refuted", "step_exact", "consume_in", "plan_ok", "path_exists"], "note": "basisgen's product is a parameter: selection_rule for the first part, and full_product (every irrep that angular momentum allows, with every colour of the product) for completeness; the relation between colours is a parameter too; what the colour indices are joined with is C93's `coloured`"},
{"property": "C106", "status": "proved", "theorems": ["C106_topologies", "C106_arranged", "C106_completions", "C106_shipped", "C106_contact_refuted", "C106_kinds_refuted", "all_seen_ok", "enumerated", "redrawn_number"], "note": "a diagram is a tree drawn from one of its vertices; `redrawn` is generated by reordering branches and by moving to the vertex at the other end of an inner line; the contents of the topology files are data (DataTopology.v); whether a term vanishes is a parameter, as in C88"},
{"property": "C107", "status": "proved", "theorems": ["C107_lines", "C107_isospin", "C107_same", "C107_completions", "C107_shipped", "C107_chained_refuted", "step_shows", "run_cuts"], "note": "`beyond` lists the fields below every tuple with two or more entries; equal exotic fields share an entry of the dictionary (the key may be an equal field); `vanishes` (is a term zero) is a parameter as in C88; the baryon number is the subject of C109"},
{"property": "C108", "status": "proved", "theorems": ["C108_rows", "C108_made", "C108_script"], "note": "the pickle files are values of the model; the value of an estimate, the topology of a completion and the enumeration of the sets are parameters; database.py:510 reads democratic.p when it is imported, by this script too, and the repository does not contain that file: this is outside the model"},
{"property": "C109", "status": "proved", "theorems": ["C109_lines", "C109_same", "C109_shipped", "C109_sign_refuted"], "note": "operators without derivatives; `vanishes` (is a term zero) is a parameter as in C88; `quiet` is the condition, checked for the shipped operators by computation"},
{"property": "C110", "status": "proved", "theorems": ["C110_loop", "C110_missed_refuted", "C110_name_refuted", "C110_sieve", "C110_previous_refuted"], "note": "operator_completions and exotic_info are parameters here (C88, C14); the progress messages are left out; int(n ** 0.5) as in C11"},
{"property": "C111", "status": "proved", "theorems": ["C111_fill", "C111_relabelled", "C111_apart", "C111_clean", "C111_capture_refuted"], "note": "sympy's fun_eval replaces all indices at once (trusted base); what canon_bp and contract_metric do with the numbered operator is a parameter"},
{"property": "C112", "status": "proved", "theorems": ["C112_balance", "C112_charge", "C112_shipped"], "note": "operators without derivatives; charges are assigned to labels, which fields of the same kind share"},
{"property": "C113", "status": "proved", "theorems": ["C113_value", "C113_falls", "C113_scale", "C113_more", "C113_factors", "C113_leading", "C113_leading_refuted"], "note": "numbers are exact rationals: the decimals of the source for the constants and any loop factor in an interval around 1/(16 pi^2); which solution sympy.solve lists first, and rounding, are not modelled (the printed scale is any number that follows the order of the scales)"},
{"property": "C114", "status": "proved", "theorems": ["C114_loops", "C114_loops_refuted", "C114_rounds"], "note": "numbers are exact; the printed scale is taken to be the positive solution of the equation, and sympy.solve and floats to be exact enough that rounding to 0.01 TeV is not affected"},
{"property": "C115", "status": "proved", "theorems": ["C115_primed", "C115_primed_refuted"], "note": "as C113; operators made with prime_prime are compared with the one with a single pair where that is shipped (1pp, 8pp)"},
{"property": "C116", "status": "proved", "theorems": ["C116_safe"], "note": "sympy's canon_bp is a parameter, with its correctness as a hypothesis; numbers in front of operators are left out"}
]}
